(** C32: the Interpolate step. *)
From Coq Require Import QArith Qcanon List Bool Arith ZArith Permutation Lia.
From Verif Require Import QcUtil InterpModel InterpSpec InterpProofs.
Import ListNotations.
Open Scope nat_scope.

Lemma nth_map_in {X Y} (f : X -> Y) l i d d' : i < length l -> nth i (map f l) d' = f (nth i l d).
Proof. intros H. rewrite (nth_indep _ d' (f d)) by (now rewrite map_length). apply map_nth. Qed.

(** For every odd window, every stream of time slots of any length and every order in which the threads treat the flagged
    samples: each slot comes out once and in order with the rest of its contents unchanged.  Unflagged samples keep their
    value, flagged ones get the weighted mean over the unflagged samples of the input within half a window.  Only values
    that are not finite stay flagged, and these are set to zero. *)
Theorem C32_stream {V W M} (A : arith V W) (G : shape) sched (m0 : M) h xs :
  window G = 2 * h + 1 -> (forall l s, Permutation (sched l s) s) -> Forall (wf (nbl G) (nch G) (npol G)) xs ->
  let ys := run A G sched m0 xs in
  length ys = length xs /\ Forall (wf (nbl G) (nch G) (npol G)) ys /\
  forall t, t < length xs -> meta (at_ m0 ys t) = meta (at_ m0 xs t) /\
    forall b c p, b < nbl G -> c < nch G -> p < npol G ->
      let v := filled A (nch G) (npol G) h m0 xs t b c p in
      data_at A (nch G) (npol G) m0 ys t b c p = (if finite A v then v else vzero A) /\
      flag_at (nch G) (npol G) m0 ys t b c p = negb (finite A v).
Proof.
  intros Hw Hs WF ys. destruct (run_spec A G sched m0 h Hw Hs xs WF) as [L R]. fold ys in L, R.
  split; [exact L|]. split.
  - rewrite Forall_forall. intros y Hy. apply (In_nth _ _ (no_buf m0)) in Hy as (t & Ht & <-). rewrite L in Ht.
    destruct (R t Ht) as (x & ((W1 & W2) & _) & ->). split; cbn; rewrite map_length; assumption.
  - intros t Ht. destruct (R t Ht) as (x & ((W1 & W2) & F & Me & D) & E).
    assert (E' : at_ m0 ys t = clean A x) by exact E. split; [rewrite E'; exact Me|].
    intros b c p Hb Hc Hp v. unfold data_at, flag_at. rewrite E'. cbn [clean data flags].
    assert (Lt : index G b c p < length (data x)) by (rewrite W1; apply (index_lt G h Hw); assumption).
    change ((b * nch G + c) * npol G + p) with (index G b c p).
    rewrite !(nth_map_in _ _ _ (vzero A)) by exact Lt. rewrite D by assumption. split; reflexivity.
Qed.
Print Assumptions C32_stream.

Example C32_stream_case :
  let A := {| vzero := 0; vnan := 99; vadd := Nat.add; vscale := Nat.mul; vdiv := Nat.div; finite := fun v => negb (v =? 99);
              wzero := 0; wadd := Nat.add; wis0 := Nat.eqb 0; gauss := fun d => 3 - Z.to_nat d |} in
  let G := {| nbl := 1; nch := 2; npol := 1; window := 3 |} in
  let xs := [Build_buf [10; 20] [true; false] 0; Build_buf [5; 6] [false; false] 1; Build_buf [5; 6] [true; true] 2;
             Build_buf [7; 8] [true; true] 3; Build_buf [7; 8] [true; true] 4] in
  window G = 2 * 1 + 1 /\ (forall (l : list (buf nat nat)) (s : list sample), Permutation (rev s) s) /\
  Forall (wf (nbl G) (nch G) (npol G)) xs /\
  run A G (fun _ s => rev s) 0 xs =
    [Build_buf [11; 20] [false; false] 0; Build_buf [5; 6] [false; false] 1; Build_buf [5; 5] [false; false] 2;
     Build_buf [0; 0] [true; true] 3; Build_buf [0; 0] [true; true] 4].
Proof.
  split; [reflexivity|]. split; [intros; apply Permutation_sym, Permutation_rev|]. split; [repeat constructor|].
  vm_compute. reflexivity.
Qed.

(** * In exact arithmetic *)
(** Values that are not finite are [None]. *)
Definition exact (g : Z -> Qc) : arith (option Qc) Qc :=
  {| vzero := Some 0%Qc; vnan := None;
     vadd := fun a b => match a, b with Some x, Some y => Some (x + y)%Qc | _, _ => None end;
     vscale := fun a w => option_map (fun x => (x * w)%Qc) a; vdiv := fun a w => option_map (fun x => (x / w)%Qc) a;
     finite := fun a => match a with Some _ => true | None => false end;
     wzero := 0%Qc; wadd := Qcplus; wis0 := fun w => if Qc_eq_dec w 0%Qc then true else false; gauss := g |}.
Definition val (a : option Qc) : Qc := match a with Some x => x | None => 0%Qc end.

Lemma weighted_exact {M} g nch npol h (m0 : M) xs t b c p :
  (forall t' b' c' p', flag_at nch npol m0 xs t' b' c' p' = false -> data_at (exact g) nch npol m0 xs t' b' c' p' <> None) ->
  let nb := neighbours nch npol h m0 xs t b c p in
  let gw := fun tc => g (sqdist t c (fst tc) (snd tc)) in
  let x := fun tc => val (data_at (exact g) nch npol m0 xs (fst tc) b (snd tc) p) in
  weighted (exact g) nch npol h m0 xs t b c p = (Some (qsum (map (fun tc => x tc * gw tc)%Qc nb)), qsum (map gw nb)).
Proof.
  intros HF nb gw x. unfold weighted. fold nb.
  assert (HN : forall tc, In tc nb -> data_at (exact g) nch npol m0 xs (fst tc) b (snd tc) p = Some (x tc)).
  { intros tc H. apply filter_In in H as [_ H]. apply andb_true_iff in H as [_ H]. apply negb_true_iff in H.
    specialize (HF _ _ _ _ H). unfold x. destruct (data_at _ _ _ _ _ _ _ _ _); [reflexivity|congruence]. }
  clearbody nb. change (vzero (exact g)) with (Some 0%Qc). change (wzero (exact g)) with 0%Qc.
  assert (Gen : forall a w, fold_left (fun acc tc => let w0 := gauss (exact g) (sqdist t c (fst tc) (snd tc)) in
     (vadd (exact g) (fst acc) (vscale (exact g) (data_at (exact g) nch npol m0 xs (fst tc) b (snd tc) p) w0), wadd (exact g) (snd acc) w0))
     nb (Some a, w) = (Some (a + qsum (map (fun tc => x tc * gw tc) nb)), w + qsum (map gw nb))%Qc).
  { induction nb as [|tc nb IH]; intros a w.
    - cbn. f_equal; [f_equal; ring|ring].
    - cbn [fold_left]. rewrite HN by now left. cbn [fst snd]. cbv zeta.
      change (vadd (exact g) (Some a) (vscale (exact g) (Some (x tc)) (gauss (exact g) (sqdist t c (fst tc) (snd tc)))))
        with (Some (a + x tc * gw tc)%Qc).
      change (wadd (exact g) w (gauss (exact g) (sqdist t c (fst tc) (snd tc)))) with (w + gw tc)%Qc.
      rewrite IH by (intros; apply HN; now right). cbn [map qsum fold_right]. fold (qsum (map (fun tc => x tc * gw tc)%Qc nb)). fold (qsum (map gw nb)).
      f_equal; [f_equal|]; ring. }
  rewrite Gen. f_equal; [f_equal|]; ring.
Qed.

Lemma qsum_pos {X} (f : X -> Qc) l : (forall x, 0 < f x)%Qc -> l <> [] -> (0 < qsum (map f l))%Qc.
Proof.
  intros H N. destruct l as [|x l]; [congruence|]. cbn [map]. rewrite qsum_cons. specialize (H x) as Hx.
  assert (0 <= qsum (map f l))%Qc. { apply qsum_nonneg. intros y Hy. apply in_map_iff in Hy as (z & <- & _). apply Qclt_le_weak, H. }
  qclra.
Qed.
Lemma qsum_le {X} (f g : X -> Qc) l : (forall x, In x l -> f x <= g x)%Qc -> (qsum (map f l) <= qsum (map g l))%Qc.
Proof.
  induction l as [|x l IH]; intros H; [apply Qcle_refl|]. cbn [map]. rewrite !qsum_cons.
  assert (f x <= g x)%Qc by (apply H; now left). assert (qsum (map f l) <= qsum (map g l))%Qc by (apply IH; intros; apply H; now right). qclra.
Qed.

(** With exact arithmetic, a positive kernel and finite unflagged data: a flagged sample without unflagged sample in its
    window comes out as zero and flagged, any other one comes out unflagged as the kernel-weighted mean, which lies between
    any bounds of the values it is made of; unflagged samples are unchanged. *)
Theorem C32_mean {M} g (G : shape) sched (m0 : M) h xs t b c p :
  window G = 2 * h + 1 -> (forall l s, Permutation (sched l s) s) -> Forall (wf (nbl G) (nch G) (npol G)) xs ->
  (forall d, 0 < g d)%Qc -> t < length xs -> b < nbl G -> c < nch G -> p < npol G ->
  (forall t' b' c' p', flag_at (nch G) (npol G) m0 xs t' b' c' p' = false ->
                       data_at (exact g) (nch G) (npol G) m0 xs t' b' c' p' <> None) ->
  let ys := run (exact g) G sched m0 xs in
  let nb := neighbours (nch G) (npol G) h m0 xs t b c p in
  let gw := fun tc => g (sqdist t c (fst tc) (snd tc)) in
  let x := fun tc => val (data_at (exact g) (nch G) (npol G) m0 xs (fst tc) b (snd tc) p) in
  let out := data_at (exact g) (nch G) (npol G) m0 ys t b c p in
  let out_flag := flag_at (nch G) (npol G) m0 ys t b c p in
  if flag_at (nch G) (npol G) m0 xs t b c p then
    (nb = [] -> out = Some 0%Qc /\ out_flag = true) /\
    (nb <> [] -> out_flag = false /\ exists v, out = Some v /\
       (v * qsum (map gw nb) = qsum (map (fun tc => x tc * gw tc) nb))%Qc /\
       forall lo hi, (forall tc, In tc nb -> lo <= x tc /\ x tc <= hi)%Qc -> (lo <= v /\ v <= hi)%Qc)
  else out = data_at (exact g) (nch G) (npol G) m0 xs t b c p /\ out_flag = false.
Proof.
  intros Hw Hs WF Hg Ht Hb Hc Hp HF ys nb gw x out out_flag.
  destruct (C32_stream (exact g) G sched m0 h xs Hw Hs WF) as (_ & _ & R). fold ys in R.
  destruct (R t Ht) as [_ R']. destruct (R' b c p Hb Hc Hp) as [R1 R2]. fold out in R1. fold out_flag in R2.
  unfold filled in R1, R2. destruct (flag_at (nch G) (npol G) m0 xs t b c p) eqn:E.
  - rewrite (weighted_exact g (nch G) (npol G) h m0 xs t b c p HF) in R1, R2. fold nb gw in R1, R2. cbn [fst snd] in R1, R2.
    split.
    + intros N. rewrite N in R1, R2. cbn in R1, R2. auto.
    + intros N. assert (P : (0 < qsum (map gw nb))%Qc) by (apply qsum_pos; [intros; apply Hg|exact N]).
      assert (NZ : qsum (map gw nb) <> 0%Qc) by (intros K; rewrite K in P; now apply Qclt_not_eq in P).
      change (wis0 (exact g) (qsum (map gw nb))) with (if Qc_eq_dec (qsum (map gw nb)) 0%Qc then true else false) in R1, R2.
      destruct (Qc_eq_dec (qsum (map gw nb)) 0%Qc) as [K|_]; [congruence|]. cbn [exact vdiv option_map finite negb] in R1, R2.
      split; [exact R2|]. eexists. split; [exact R1|].
      assert (Eq : ((qsum (map (fun tc => x tc * gw tc) nb) / qsum (map gw nb)) * qsum (map gw nb) = qsum (map (fun tc => x tc * gw tc) nb))%Qc).
      { field. exact NZ. }
      split; [exact Eq|]. intros lo hi Bd.
      assert (Lo : (lo * qsum (map gw nb) <= qsum (map (fun tc => x tc * gw tc) nb))%Qc).
      { rewrite <- qsum_map_mult. apply qsum_le. intros tc Hin. apply Qcmult_le_compat_r; [apply Bd, Hin|apply Qclt_le_weak, Hg]. }
      assert (Hi : (qsum (map (fun tc => x tc * gw tc) nb) <= hi * qsum (map gw nb))%Qc).
      { rewrite <- qsum_map_mult. apply qsum_le. intros tc Hin. apply Qcmult_le_compat_r; [apply Bd, Hin|apply Qclt_le_weak, Hg]. }
      rewrite <- Eq in Lo, Hi. split; [apply (Qcmult_lt_0_le_reg_r _ _ _ P Lo)|apply (Qcmult_lt_0_le_reg_r _ _ _ P Hi)].
  - specialize (HF _ _ _ _ E). destruct (data_at (exact g) (nch G) (npol G) m0 xs t b c p) as [v|]; [|congruence].
    cbn in R1, R2. auto.
Qed.
Print Assumptions C32_mean.

Example C32_mean_case :
  let G := {| nbl := 1; nch := 1; npol := 1; window := 3 |} in
  let xs := [Build_buf [Some 1%Qc] [false] tt; Build_buf [None] [true] tt; Build_buf [Some (1 + 1)%Qc] [false] tt] in
  (forall d : Z, (0 < (fun _ => 1) d)%Qc) /\ flag_at 1 1 tt xs 1 0 0 0 = true /\ neighbours 1 1 1 tt xs 1 0 0 0 = [(0, 0); (2, 0)] /\
  (forall t' b' c' p', flag_at 1 1 tt xs t' b' c' p' = false -> data_at (exact (fun _ => 1%Qc)) 1 1 tt xs t' b' c' p' <> None).
Proof.
  split; [reflexivity|]. split; [reflexivity|]. split; [reflexivity|].
  intros t b c p. unfold flag_at, data_at, at_. generalize ((b * 1 + c) * 1 + p). intros k. intros H.
  destruct t as [|[|[|t]]]; (destruct k as [|[|k]]; cbn in *; try discriminate); destruct t; discriminate.
Qed.

(** The constructor accepts exactly the odd window sizes, the ones the theorems above are about. *)
Theorem C32_window G : accepts G = true <-> exists h, window G = 2 * h + 1.
Proof.
  unfold accepts. rewrite Nat.eqb_eq. split.
  - intros H. exists (window G / 2). pose proof (Nat.div_mod (window G) 2 ltac:(lia)). lia.
  - intros (h & ->). replace (2 * h + 1) with (1 + h * 2) by lia. rewrite Nat.mod_add by lia. reflexivity.
Qed.
Print Assumptions C32_window.
Example C32_window_case : accepts {| nbl := 1; nch := 1; npol := 1; window := 15 |} = true /\ accepts {| nbl := 1; nch := 1; npol := 1; window := 14 |} = false.
Proof. split; reflexivity. Qed.
