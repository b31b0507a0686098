(** Proofs about the visibilities of the new baselines. *)
From Coq Require Import List Bool Arith ZArith QArith Qcanon Lia ZifyBool ZifyNat.
From Verif Require Import QcUtil AverageModel AdderModel AdderSpec AdderProofs.
Import ListNotations.
Open Scope nat_scope.

Definition cpart (imag : bool) (a : cplx) : Qc := part imag (re a) (im a).
Definition wt (c : settings) (x : sample) : Qc := if use_weight c then weight x else 1%Qc.
Definition good (l : list (bool * sample)) := filter (fun x => negb (flagged (snd x))) l.
Definition wsum_of (c : settings) (l : list (bool * sample)) : Qc := qsum (map (fun x => wt c (snd x)) l).
Definition dsum_of (c : settings) (imag : bool) (l : list (bool * sample)) : Qc :=
  qsum (map (fun x => (signed imag (fst x) (cpart imag (data (snd x))) * wt c (snd x))%Qc) l).

Lemma cpart_add imag a b : cpart imag (cadd a b) = (cpart imag a + cpart imag b)%Qc.
Proof. destruct imag; reflexivity. Qed.
Lemma cpart_scale imag w a : cpart imag (cscale w a) = (cpart imag a * w)%Qc.
Proof. destruct imag; reflexivity. Qed.
Lemma cpart_conj imag (u : bool) a : cpart imag (if u then cconj a else a) = signed imag u (cpart imag a).
Proof. destruct imag, u; reflexivity. Qed.

Lemma add_samples c imag : forall l a, let r := fold_left (add_sample c) l a in
  wsum r = (wsum a + wsum_of c (good l))%Qc /\ npoints r = npoints a + length (good l) /\
  cpart imag (sum r) = (cpart imag (sum a) + dsum_of c imag (good l))%Qc /\
  (wsum r + fwsum r = wsum a + fwsum a + wsum_of c l)%Qc /\
  (cpart imag (sum r) + cpart imag (fsum r) = cpart imag (sum a) + cpart imag (fsum a) + dsum_of c imag l)%Qc.
Proof.
  induction l as [|[u x] l IH]; intros a; cbv zeta.
  - cbn. unfold wsum_of, dsum_of. cbn. repeat split; try ring; lia.
  - cbn [fold_left]. destruct (IH (add_sample c a (u, x))) as (I1 & I2 & I3 & I4 & I5). rewrite I1, I2, I3.
    assert (F : fold_left (add_sample c) l (add_sample c a (u, x)) = fold_left (add_sample c) l (add_sample c a (u, x))) by reflexivity.
    split; [|split; [|split; [|split]]].
    + unfold add_sample, good, wsum_of. cbn [filter snd]. fold (wt c x). destruct (flagged x); cbn [negb wsum map]; [reflexivity|]. rewrite qsum_cons. cbn [snd]. fold (wt c x). ring.
    + unfold add_sample, good. cbn [filter snd]. destruct (flagged x); cbn [negb npoints length]; lia.
    + unfold add_sample, good, dsum_of. cbn [filter snd]. fold (wt c x). destruct (flagged x); cbn [negb sum map]; [reflexivity|].
      rewrite qsum_cons. cbn [fst snd]. rewrite cpart_add, cpart_scale, cpart_conj. ring.
    + rewrite <- I1, I4. unfold add_sample, wsum_of. fold (wt c x). cbn [map]. rewrite qsum_cons. cbn [snd]. destruct (flagged x); cbn [wsum fwsum]; ring.
    + rewrite <- I3, I5. unfold add_sample, dsum_of. fold (wt c x). cbn [map]. rewrite qsum_cons. cbn [fst snd].
      destruct (flagged x); cbn [sum fsum]; rewrite cpart_add, cpart_scale, cpart_conj; ring.
Qed.

Lemma Qc_eq_bool_iff x y : Qc_eq_bool x y = true <-> x = y.
Proof. split; [apply Qc_eq_bool_correct|]. intros ->. unfold Qc_eq_bool. destruct (Qc_eq_dec y y); congruence. Qed.

Definition constituents (rows : list row) (zs : list Z) (k : nat) : list (bool * sample) :=
  map (fun z => (conjugated z, nth k (samples (nth (from z) rows no_row)) no_sample)) zs.

Lemma decode_eq z : decode z = (conjugated z, from z).
Proof. unfold decode, conjugated, from. f_equal. lia. Qed.

Lemma new_sample_spec c rows zs k : let l := constituents rows zs k in let s := new_sample c rows zs k in
  (flagged s = true <-> wsum_of c (good l) = 0%Qc \/ length (good l) < min_points c) /\
  (flagged s = false -> weight s = wsum_of c (good l) /\
     forall imag, cpart imag (data s) = (dsum_of c imag (good l) * (if average c then / wsum_of c (good l) else 1))%Qc) /\
  (flagged s = true -> weight s = wsum_of c l /\
     forall imag, cpart imag (data s) = (dsum_of c imag l * (if average c then / wsum_of c l else 1))%Qc).
Proof.
  intros l s. unfold s, new_sample. erewrite map_ext; [|intros z; rewrite decode_eq; reflexivity]. fold (constituents rows zs k). fold l.
  set (r := fold_left (add_sample c) l acc0). unfold finish_sample. cbn [flagged weight data].
  pose proof (add_samples c false l acc0) as A. cbv zeta in A. fold r in A. destruct A as (A1 & A2 & _ & A4 & _).
  assert (D : forall imag, cpart imag (sum r) = dsum_of c imag (good l) /\ (cpart imag (sum r) + cpart imag (fsum r) = dsum_of c imag l)%Qc).
  { intros imag. pose proof (add_samples c imag l acc0) as A. cbv zeta in A. fold r in A. destruct A as (_ & _ & X & _ & Y).
    split; [rewrite X|rewrite Y]; destruct imag; cbn; ring. }
  cbn in A1, A2, A4. assert (W1 : wsum r = wsum_of c (good l)) by (rewrite A1; ring). assert (W2 : (wsum r + fwsum r)%Qc = wsum_of c l) by (rewrite A4; ring).
  split; [|split].
  - rewrite orb_true_iff, Qc_eq_bool_iff, Nat.ltb_lt, W1, A2. reflexivity.
  - intros E. rewrite E. split; [exact W1|]. intros imag. destruct (D imag) as [D1 _]. destruct (average c).
    + rewrite cpart_scale, D1, W1. reflexivity.
    + rewrite D1. ring.
  - intros E. rewrite E. split; [exact W2|]. intros imag. destruct (D imag) as [_ D2]. rewrite <- W2. destruct (average c).
    + rewrite cpart_scale, cpart_add, D2. reflexivity.
    + rewrite cpart_add, D2. ring.
Qed.

(** * Down to the original baselines *)
(** weight times value of an unflagged sample *)
Definition den (x : sample) : Qc := if flagged x then 0%Qc else weight x.
Definition num (imag : bool) (x : sample) : Qc := if flagged x then 0%Qc else (cpart imag (data x) * weight x)%Qc.
Definition at_row (rows : list row) (r k : nat) : sample := nth k (samples (nth r rows no_row)) no_sample.

Lemma signed_mult imag u x w : (signed imag u x * w = signed imag u (x * w))%Qc.
Proof. destruct imag, u; cbn; ring. Qed.
Lemma signed_0 imag u : signed imag u 0%Qc = 0%Qc.
Proof. destruct imag, u; reflexivity. Qed.
Lemma signed_plus imag u x y : signed imag u (x + y)%Qc = (signed imag u x + signed imag u y)%Qc.
Proof. destruct imag, u; cbn; ring. Qed.
Lemma signed_sum {X} imag u (f : X -> Qc) l : signed imag u (qsum (map f l)) = qsum (map (fun x => signed imag u (f x)) l).
Proof. induction l as [|x l IH]; [apply signed_0|]. cbn [map]. rewrite !qsum_cons, signed_plus, IH. reflexivity. Qed.
Lemma signed_signed imag u v x : signed imag u (signed imag v x) = signed imag (xorb u v) x.
Proof. destruct imag, u, v; cbn; ring. Qed.

Lemma filter_sum {X} (p : X -> bool) (f : X -> Qc) l : qsum (map f (filter p l)) = qsum (map (fun x => if p x then f x else 0%Qc) l).
Proof.
  induction l as [|x l IH]; [reflexivity|]. cbn [filter map]. rewrite qsum_cons, <- IH. destruct (p x); cbn [map]; [reflexivity|]. ring.
Qed.
Lemma qsum_zero_each {X} (f : X -> Qc) l : (forall x, In x l -> (0 <= f x)%Qc) -> qsum (map f l) = 0%Qc -> forall x, In x l -> f x = 0%Qc.
Proof.
  induction l as [|y l IH]; intros H E x I; [destruct I|]. cbn [map] in E. rewrite qsum_cons in E.
  assert (0 <= f y)%Qc by (apply H; now left). assert (0 <= qsum (map f l))%Qc.
  { apply qsum_nonneg. intros z Hz. apply in_map_iff in Hz as (w & <- & Hw). apply H. now right. }
  assert (f y = 0%Qc) by (apply Qcle_antisym; qclra). assert (qsum (map f l) = 0%Qc) by (apply Qcle_antisym; qclra).
  destruct I as [<-|I]; [assumption|]. apply IH; auto. intros; apply H; now right.
Qed.

Section Flat.
Variable c : settings.
Hypothesis Havg : average c = true.
Hypothesis Hw : use_weight c = true.
Hypothesis Hmin : min_points c <= 1.

Lemma new_num rows zs k : (forall z, In z zs -> (0 <= den (at_row rows (from z) k))%Qc) ->
  let s := new_sample c rows zs k in
  den s = qsum (map (fun z => den (at_row rows (from z) k)) zs) /\
  (forall imag, num imag s = qsum (map (fun z => signed imag (conjugated z) (num imag (at_row rows (from z) k))) zs)) /\
  (flagged s = true <-> den s = 0%Qc).
Proof.
  intros H. cbv zeta. destruct (new_sample_spec c rows zs k) as (F & G & _). set (l := constituents rows zs k) in *. set (s := new_sample c rows zs k) in *.
  assert (W : wsum_of c (good l) = qsum (map (fun z => den (at_row rows (from z) k)) zs)).
  { unfold wsum_of, good, l, constituents. rewrite filter_sum, map_map. apply qsum_map_ext. intros z Hz. cbn [snd]. unfold den, at_row, wt. rewrite Hw.
    destruct (flagged (nth k _ _)); reflexivity. }
  assert (D : forall imag, dsum_of c imag (good l) = qsum (map (fun z => signed imag (conjugated z) (num imag (at_row rows (from z) k))) zs)).
  { intros imag. unfold dsum_of, good, l, constituents. rewrite filter_sum, map_map. apply qsum_map_ext. intros z Hz. cbn [fst snd]. unfold num, at_row, wt. rewrite Hw.
    destruct (flagged (nth k _ _)); cbn [negb]; [now rewrite signed_0|]. apply signed_mult. }
  rewrite <- W. destruct (flagged s) eqn:Fs.
  - assert (Z : wsum_of c (good l) = 0%Qc).
    { destruct (proj1 F eq_refl) as [Z|Z]; [exact Z|]. assert (length (good l) = 0) by lia. unfold wsum_of. destruct (good l); [reflexivity|discriminate]. }
    assert (Each : forall z, In z zs -> den (at_row rows (from z) k) = 0%Qc).
    { apply qsum_zero_each; [exact H|]. rewrite <- W. exact Z. }
    split; [unfold den; rewrite Fs; now rewrite Z|]. split.
    + intros imag. unfold num at 1. rewrite Fs. symmetry. apply qsum_map_0. intros z Hz. unfold num. specialize (Each z Hz). unfold den in Each.
      destruct (flagged (at_row _ _ _)); [apply signed_0|]. rewrite Each. replace (cpart imag (data (at_row rows (from z) k)) * 0)%Qc with 0%Qc by ring. apply signed_0.
    + split; [intros _; unfold den; now rewrite Fs|reflexivity].
  - destruct (G eq_refl) as [G1 G2].
    assert (NZ : wsum_of c (good l) <> 0%Qc) by (intros Z; assert (X : false = true) by (apply F; now left); discriminate).
    split; [unfold den; rewrite Fs; exact G1|]. split.
    + intros imag. unfold num at 1. rewrite Fs, G1, (G2 imag), Havg, <- D. field. exact NZ.
    + split; [discriminate|]. unfold den. rewrite Fs, G1. intros; contradiction.
Qed.

(** sums over the original baselines behind a baseline *)
Definition dens (rows : list row) (es : list use) (k : nat) : Qc := qsum (map (fun u => den (at_row rows (fst u) k)) es).
Definition nums (imag : bool) (rows : list row) (es : list use) (k : nat) : Qc :=
  qsum (map (fun u => signed imag (snd u) (num imag (at_row rows (fst u) k))) es).

Section Rows.
Variables (nrcc : nat) (calc : nat -> nat -> Qc) (rows0 : list row).
Hypothesis Hpos : forall r k, (0 <= den (at_row rows0 r k))%Qc.

Definition flat_inv (rows : list row) (es : list (list use)) : Prop :=
  length rows = length es /\
  (forall r k, (0 <= den (at_row rows r k))%Qc) /\
  forall r k, k < nrcc -> r < length rows -> den (at_row rows r k) = dens rows0 (nth r es []) k /\
    (forall imag, num imag (at_row rows r k) = nums imag rows0 (nth r es []) k) /\
    (length rows0 <= r -> (flagged (at_row rows r k) = true <-> den (at_row rows r k) = 0%Qc)).

Lemma at_row_app rows x r k : at_row (rows ++ [x]) r k = if r =? length rows then nth k (samples x) no_sample else at_row rows r k.
Proof.
  unfold at_row. destruct (Nat.eqb_spec r (length rows)) as [->|N].
  - rewrite app_nth2, Nat.sub_diag by lia. reflexivity.
  - destruct (Nat.lt_ge_cases r (length rows)) as [L|L].
    + rewrite app_nth1 by exact L. reflexivity.
    + rewrite (nth_overflow (rows ++ [x])) by (rewrite app_length; cbn; lia). rewrite (nth_overflow rows) by exact L. reflexivity.
Qed.
Lemma no_den k : den (nth k [] no_sample) = 0%Qc.
Proof. destruct k; reflexivity. Qed.

Lemma add_row_inv rows es zs : flat_inv rows es -> flat_inv (add_row c nrcc calc rows zs) (expand_one conjugated from es zs).
Proof.
  intros (L & P & H). unfold add_row, expand_one.
  assert (NS : forall k, k < nrcc -> nth k (map (new_sample c rows zs) (seq 0 nrcc)) no_sample = new_sample c rows zs k).
  { intros k Hk. apply nth_error_nth. rewrite nth_error_map. rewrite (nth_error_nth' _ 0) by now rewrite seq_length. rewrite seq_nth by exact Hk. reflexivity. }
  assert (NN : forall k, let s := new_sample c rows zs k in den s = qsum (map (fun z => den (at_row rows (from z) k)) zs) /\
     (forall imag, num imag s = qsum (map (fun z => signed imag (conjugated z) (num imag (at_row rows (from z) k))) zs)) /\
     (flagged s = true <-> den s = 0%Qc)).
  { intros k. apply new_num. intros; apply P. }
  split; [|split].
  - rewrite !app_length. cbn. lia.
  - intros r k. rewrite at_row_app. destruct (r =? length rows); [|apply P]. cbn [samples].
    destruct (Nat.lt_ge_cases k nrcc) as [Lk|Lk].
    + rewrite NS by exact Lk. destruct (NN k) as [A _]. rewrite A. apply qsum_nonneg. intros x Hx. apply in_map_iff in Hx as (z & <- & _). apply P.
    + rewrite nth_overflow by now rewrite map_length, seq_length. apply Qcle_refl.
  - intros r k Hk Hr. rewrite app_length in Hr. cbn in Hr. rewrite at_row_app. destruct (Nat.eqb_spec r (length rows)) as [->|N].
    + cbn [samples]. rewrite NS by exact Hk. rewrite L, app_nth2, Nat.sub_diag by lia. cbn [nth]. destruct (NN k) as (A & B & F).
      assert (ZD : forall z, den (at_row rows (from z) k) = dens rows0 (nth (from z) es []) k).
      { intros z. destruct (Nat.lt_ge_cases (from z) (length rows)) as [Lz|Lz]; [apply H; auto|].
        unfold at_row. rewrite (nth_overflow rows), (nth_overflow es) by lia. apply no_den. }
      assert (ZN : forall imag z, num imag (at_row rows (from z) k) = nums imag rows0 (nth (from z) es []) k).
      { intros imag z. destruct (Nat.lt_ge_cases (from z) (length rows)) as [Lz|Lz]; [apply H; auto|].
        unfold at_row. rewrite (nth_overflow rows), (nth_overflow es) by lia. destruct k; reflexivity. }
      split; [|split; [|intros _; exact F]].
      * rewrite A. unfold dens. rewrite flat_map_concat_map, concat_map, map_map, <- flat_map_concat_map, qsum_flat_map. apply qsum_map_ext.
        intros z _. rewrite ZD. unfold dens. rewrite map_map. reflexivity.
      * intros imag. rewrite B. unfold nums. rewrite flat_map_concat_map, concat_map, map_map, <- flat_map_concat_map, qsum_flat_map. apply qsum_map_ext.
        intros z _. rewrite ZN. unfold nums. rewrite signed_sum, map_map. apply qsum_map_ext. intros u _. rewrite signed_signed. reflexivity.
    + rewrite app_nth1 by lia. apply H; [exact Hk|lia].
Qed.

Lemma process_inv : forall buf rows es, flat_inv rows es ->
  flat_inv (process c nrcc calc rows buf) (fold_left (expand_one conjugated from) buf es).
Proof.
  induction buf as [|zs buf IH]; intros rows es H; [exact H|]. cbn. apply IH. now apply add_row_inv.
Qed.
Lemma start_inv : flat_inv rows0 (map (fun i => [(i, false)]) (seq 0 (length rows0))).
Proof.
  split; [now rewrite map_length, seq_length|]. split; [exact Hpos|]. intros r k Hk Hr.
  assert (E : @nth (list use) r (@map nat (list use) (fun i => [(i, false)]) (seq 0 (length rows0))) [] = [(r, false)]).
  { apply nth_error_nth. rewrite nth_error_map, (nth_error_nth' _ 0) by now rewrite seq_length. rewrite seq_nth by exact Hr. reflexivity. }
  unfold use in *. rewrite E. unfold dens, nums. cbn. split; [ring|]. split; [|lia]. intros imag. unfold signed. rewrite andb_false_r. ring.
Qed.
End Rows.
End Flat.

(** * UVW coordinates *)
(** the weight of a whole baseline, and the coordinate times it *)
Definition row_weight (c : settings) (nrcc : nat) (x : row) : Qc :=
  qsum (map (fun k => let s := nth k (samples x) no_sample in if flagged s then 0%Qc else wt c s) (seq 0 nrcc)).
Definition coord (ui : nat) (x : row) : Qc := nth ui (uvw x) 0%Qc.
Definition usigned (u : bool) (x : Qc) : Qc := if u then Qcopp x else x.

Lemma uvw_sums_spec c nrcc rows zs ui : uvw_sums c nrcc rows zs ui =
  (qsum (map (fun z => let x := nth (from z) rows no_row in (usigned (conjugated z) (coord ui x) * row_weight c nrcc x)%Qc) zs),
   qsum (map (fun z => row_weight c nrcc (nth (from z) rows no_row)) zs)).
Proof.
  unfold uvw_sums.
  assert (K : forall zs a, fold_left (fun a z =>
    let (u, r) := decode z in let x := nth r rows no_row in
    fold_left (fun a k =>
      let s := nth k (samples x) no_sample in
      let w := if use_weight c then weight s else 1%Qc in
      if flagged s then a
      else ((if u then fst a - nth ui (uvw x) 0 * w else fst a + nth ui (uvw x) 0 * w), snd a + w)%Qc) (seq 0 nrcc) a) zs a =
    (fst a + qsum (map (fun z => let x := nth (from z) rows no_row in (usigned (conjugated z) (coord ui x) * row_weight c nrcc x)%Qc) zs),
     snd a + qsum (map (fun z => row_weight c nrcc (nth (from z) rows no_row)) zs))%Qc).
  { clear zs. induction zs as [|z zs IH]; intros a.
    - cbn. destruct a as [a1 a2]. cbn. f_equal; ring.
    - cbn [fold_left map]. rewrite IH, !qsum_cons. rewrite decode_eq. cbv zeta. set (x := nth (from z) rows no_row). fold (coord ui x).
      assert (I : forall ks a, fold_left (fun a k =>
        if flagged (nth k (samples x) no_sample) then a
        else ((if conjugated z then fst a - coord ui x * (if use_weight c then weight (nth k (samples x) no_sample) else 1)
               else fst a + coord ui x * (if use_weight c then weight (nth k (samples x) no_sample) else 1)),
              snd a + (if use_weight c then weight (nth k (samples x) no_sample) else 1))%Qc) ks a =
        let t := qsum (map (fun k => let s := nth k (samples x) no_sample in if flagged s then 0%Qc else wt c s) ks) in
        (fst a + usigned (conjugated z) (coord ui x) * t, snd a + t)%Qc).
      { clear. induction ks as [|k ks IH]; intros a; cbv zeta.
        - cbn. destruct a as [a1 a2]. cbn. f_equal; ring.
        - cbn [fold_left map]. rewrite IH, qsum_cons. cbv zeta. fold (wt c (nth k (samples x) no_sample)).
          destruct (flagged (nth k (samples x) no_sample)); cbn [fst snd]; unfold usigned; destruct (conjugated z); f_equal; ring. }
      rewrite I. cbv zeta. fold (row_weight c nrcc x). cbn [fst snd]. f_equal; ring. }
  rewrite K. cbn [fst snd]. f_equal; ring.
Qed.

Lemma new_uvw_spec c nrcc rows zs calc ui : ui < 3 ->
  let W := qsum (map (fun z => row_weight c nrcc (nth (from z) rows no_row)) zs) in
  let U := qsum (map (fun z => let x := nth (from z) rows no_row in (usigned (conjugated z) (coord ui x) * row_weight c nrcc x)%Qc) zs) in
  nth ui (new_uvw c nrcc rows zs calc) 0%Qc = if average c && negb (Qc_eq_bool W 0) then (U / W)%Qc else calc ui.
Proof.
  intros H W U. unfold new_uvw. destruct ui as [|[|[|ui]]]; [| | |lia]; cbn [map nth]; rewrite uvw_sums_spec; reflexivity.
Qed.

(** * The rows of the output *)
Lemma process_length c nrcc calc : forall buf rows, length (process c nrcc calc rows buf) = length rows + length buf /\ firstn (length rows) (process c nrcc calc rows buf) = rows.
Proof.
  induction buf as [|zs buf IH]; intros rows.
  - cbn. split; [lia|apply firstn_all].
  - cbn [process fold_left]. fold (process c nrcc calc (add_row c nrcc calc rows zs) buf). destruct (IH (add_row c nrcc calc rows zs)) as [A B].
    assert (L : length (add_row c nrcc calc rows zs) = length rows + 1) by (unfold add_row; now rewrite app_length).
    split; [rewrite A, L; cbn; lia|]. apply (f_equal (firstn (length rows))) in B. rewrite firstn_firstn, L in B.
    replace (Nat.min (length rows) (length rows + 1)) with (length rows) in B by lia. rewrite B. unfold add_row. rewrite firstn_app, Nat.sub_diag, firstn_all. apply app_nil_r.
Qed.
Lemma process_row c nrcc calc rows buf i zs : nth_error buf i = Some zs ->
  let out := process c nrcc calc rows buf in let pre := firstn (length rows + i) out in
  nth_error out (length rows + i) =
  Some {| samples := map (new_sample c pre zs) (seq 0 nrcc); uvw := new_uvw c nrcc pre zs (calc (length rows + i)) |}.
Proof.
  intros E. cbv zeta. apply nth_error_split in E as (b1 & b2 & -> & <-). unfold process. rewrite fold_left_app. cbn [fold_left].
  fold (process c nrcc calc rows b1). set (mid := process c nrcc calc rows b1). destruct (process_length c nrcc calc b1 rows) as [L1 _]. fold mid in L1.
  fold (process c nrcc calc (add_row c nrcc calc mid zs) b2). set (out := process c nrcc calc (add_row c nrcc calc mid zs) b2).
  destruct (process_length c nrcc calc b2 (add_row c nrcc calc mid zs)) as [L2 F2]. fold out in L2, F2. rewrite <- L1.
  assert (La : length (add_row c nrcc calc mid zs) = length mid + 1) by (unfold add_row; now rewrite app_length).
  assert (Fm : firstn (length mid) out = mid).
  { apply (f_equal (firstn (length mid))) in F2. rewrite firstn_firstn, La in F2. replace (Nat.min (length mid) (length mid + 1)) with (length mid) in F2 by lia.
    rewrite F2. unfold add_row. rewrite firstn_app, Nat.sub_diag, firstn_all. apply app_nil_r. }
  rewrite Fm. rewrite <- (firstn_skipn (length (add_row c nrcc calc mid zs)) out), F2, nth_error_app1 by lia.
  unfold add_row. rewrite nth_error_app2, Nat.sub_diag by lia. reflexivity.
Qed.
Lemma nth_firstn {X} (l : list X) n i d : i < n -> nth i (firstn n l) d = nth i l d.
Proof. revert n i. induction l as [|x l IH]; intros [|n] [|i] H; cbn; try lia; auto. apply IH. lia. Qed.
Lemma constituents_firstn rows n zs k : (forall z, In z zs -> from z < n) -> constituents (firstn n rows) zs k = constituents rows zs k.
Proof. intros H. unfold constituents. apply map_ext_in. intros z Hz. now rewrite nth_firstn by now apply H. Qed.
Lemma uvw_firstn c nrcc rows n zs ui calc : ui < 3 -> (forall z, In z zs -> from z < n) ->
  nth ui (new_uvw c nrcc (firstn n rows) zs calc) 0%Qc = nth ui (new_uvw c nrcc rows zs calc) 0%Qc.
Proof.
  intros Hu H. rewrite !new_uvw_spec by exact Hu. cbv zeta.
  rewrite (map_ext_in _ (fun z => row_weight c nrcc (nth (from z) rows no_row))) by (intros z Hz; now rewrite nth_firstn by now apply H).
  rewrite (map_ext_in (fun z => (usigned (conjugated z) (coord ui (nth (from z) (firstn n rows) no_row)) * row_weight c nrcc (nth (from z) (firstn n rows) no_row))%Qc)
     (fun z => (usigned (conjugated z) (coord ui (nth (from z) rows no_row)) * row_weight c nrcc (nth (from z) rows no_row))%Qc)) by (intros z Hz; now rewrite nth_firstn by now apply H).
  reflexivity.
Qed.
