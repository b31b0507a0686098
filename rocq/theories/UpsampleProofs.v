(** Proofs about steps/Upsample.cc. *)
From Coq Require Import QArith Qcanon List Bool Arith Lia ZArith.
From Verif Require Import QcUtil AverageModel UpsampleModel UpsampleSpec.
Import ListNotations.
Open Scope Qc_scope.

Section Proofs.
Context {P : Type}.
Variables (ts : nat) (dt : Qc).
Hypothesis dt_pos : 0 < dt.
Hypothesis ts_pos : (0 < ts)%nat.

Notation ubuf := (ubuf P).

Definition piece (b : ubuf) (i : nat) : ubuf :=
  MkUbuf (u_time b - half * dt * qn ts + dt * (qn i + half)) (u_exposure b / qn ts) (u_flagged b) (u_payload b).

Lemma pieces_map b : pieces ts dt b = map (piece b) (seq 0 ts).
Proof. reflexivity. Qed.

Lemma piece_is_piece b i : is_piece ts dt b i (piece b i).
Proof.
  unfold is_piece, piece; cbn [u_time u_exposure u_flagged u_payload]. split; [|split; [|split]]; auto.
  - ring.
  - field. apply qn_neq0. exact ts_pos.
Qed.

Lemma dt_scale x y : x <= y -> dt * x <= dt * y.
Proof. intros H. rewrite (Qcmult_comm dt x), (Qcmult_comm dt y). apply Qcmult_le_compat_r; auto. now apply Qclt_le_weak. Qed.

Lemma skipn_map_seq {A} (f : nat -> A) n : forall k s, skipn k (map f (seq s n)) = map f (seq (s + k) (n - k)).
Proof.
  induction n; intros k s.
  - destruct k; reflexivity.
  - destruct k.
    + rewrite Nat.add_0_r, Nat.sub_0_r. reflexivity.
    + cbn [seq map skipn]. rewrite IHn. do 2 f_equal. lia.
Qed.

Lemma firstn_map_seq {A} (f : nat -> A) n : forall k s, firstn k (map f (seq s n)) = map f (seq s (Nat.min k n)).
Proof.
  induction n; intros k s.
  - destruct k; reflexivity.
  - destruct k; [reflexivity|]. cbn [seq map firstn Nat.min]. now rewrite IHn.
Qed.

Section Pair.
Variables (b b' : ubuf) (m : nat).
Hypothesis Haft : after ts dt b b' m.

Lemma time_diff p c : u_time (piece b p) - u_time (piece b' c) = (u_time b - u_time b') + dt * (qn p - qn c).
Proof. unfold piece; cbn [u_time]. ring. Qed.

Lemma same_iff p c : (p < ts)%nat -> same_time dt (piece b p) (piece b' c) = (p =? c + m)%nat.
Proof.
  intros Hp. pose proof (time_diff p c) as D. destruct Haft as [H1 H2].
  unfold same_time, near_abs.
  set (x := u_time (piece b p)) in *. set (y := u_time (piece b' c)) in *. clearbody x y.
  destruct (Nat.eqb_spec p (c + m)) as [E|E].
  - subst p. specialize (H2 ltac:(lia)). rewrite qn_plus in D. apply andb_true_iff; rewrite !qleb_true. split; qclra.
  - destruct (Nat.lt_ge_cases p (c + m)) as [L|L].
    + assert (Hq : qn p + 1 <= qn c + qn m) by (rewrite <- qn_S, <- qn_plus; apply qn_le; lia).
      apply dt_scale in Hq. apply andb_false_iff. left. rewrite qleb_false. qclra.
    + specialize (H2 ltac:(lia)). assert (Hq : qn c + qn m + 1 <= qn p) by (rewrite <- qn_plus, <- qn_S; apply qn_le; lia).
      apply dt_scale in Hq. apply andb_false_iff. right. rewrite qleb_false. qclra.
Qed.

Lemma later_iff p c : (p < ts)%nat -> qltb (u_time (piece b' c)) (u_time (piece b p)) && negb (same_time dt (piece b p) (piece b' c)) = (c + m <? p)%nat.
Proof.
  intros Hp. rewrite same_iff by exact Hp. pose proof (time_diff p c) as D. destruct Haft as [H1 H2].
  set (x := u_time (piece b p)) in *. set (y := u_time (piece b' c)) in *. clearbody x y.
  destruct (Nat.ltb_spec (c + m) p) as [L|L].
  - specialize (H2 ltac:(lia)). assert (Hq : qn c + qn m + 1 <= qn p) by (rewrite <- qn_plus, <- qn_S; apply qn_le; lia).
    apply dt_scale in Hq. apply andb_true_iff. split.
    + rewrite qltb_true. qclra.
    + apply negb_true_iff, Nat.eqb_neq. lia.
  - destruct (Nat.eqb_spec p (c + m)) as [E|E]; [apply andb_false_r|].
    assert (Hq : qn p + 1 <= qn c + qn m) by (rewrite <- qn_S, <- qn_plus; apply qn_le; lia).
    apply dt_scale in Hq. apply andb_false_iff. left. rewrite qltb_false. qclra.
Qed.

Lemma pieces_nth c : (c < ts)%nat -> nth_error (pieces ts dt b') c = Some (piece b' c).
Proof.
  intros H. rewrite pieces_map. rewrite nth_error_map.
  rewrite (nth_error_nth' _ 0%nat) by (rewrite seq_length; lia). rewrite seq_nth by lia. reflexivity.
Qed.

Lemma advance_spec p : (0 < m)%nat -> (p < ts)%nat -> forall fuel c, (c <= p - m)%nat -> (p - m - c <= fuel)%nat ->
  advance dt fuel (pieces ts dt b') (piece b p) c = Some (p - m)%nat.
Proof.
  intros Hm Hp. induction fuel; intros c Hc Hf.
  - cbn [advance]. rewrite pieces_nth by lia. rewrite later_iff by exact Hp.
    destruct (Nat.ltb_spec (c + m) p); [lia|]. f_equal. lia.
  - cbn [advance]. rewrite pieces_nth by lia. rewrite later_iff by exact Hp.
    destruct (Nat.ltb_spec (c + m) p).
    + apply IHfuel; lia.
    + f_equal. lia.
Qed.

Lemma pieces_length : length (pieces ts dt b') = ts.
Proof. rewrite pieces_map, map_length, seq_length. reflexivity. Qed.

Definition last_of (f : nat) : nat := if (m <? ts)%nat && negb (u_flagged b') then m else ts.
Definition first_next : nat := if (m <? ts)%nat && u_flagged b' then ts - m else 0.

Lemma flush_spec : (0 < m)%nat -> forall n p c f, (p + n = ts)%nat -> (c <= p - m)%nat -> (0 < n)%nat ->
  (p <= m \/ u_flagged b' = true)%nat ->
  flush dt (map (piece b) (seq p n)) (pieces ts dt b') c f =
  Some (map (piece b) (seq p (last_of p - p)), first_next).
Proof.
  intros Hm. induction n; intros p c f Hpn Hc Hn Hor; [lia|].
  cbn [seq map flush]. rewrite (advance_spec p) by (rewrite ?pieces_length; lia).
  rewrite pieces_nth by lia. rewrite same_iff by lia.
  change (u_flagged (piece b' (p - m))) with (u_flagged b').
  unfold last_of, first_next in *.
  destruct (Nat.eqb_spec p (p - m + m)) as [E|E].
  - assert (Hmt : (m <? ts)%nat = true) by (apply Nat.ltb_lt; lia).
    rewrite Hmt in *. cbn [andb] in *. destruct (u_flagged b') eqn:F; cbn [negb andb] in *.
    + destruct n.
      * cbn [seq map flush]. replace (ts - p)%nat with 1%nat by lia. cbn [seq map].
        do 2 f_equal. lia.
      * rewrite IHn by (try lia; auto).
        replace (ts - p)%nat with (S (ts - S p)) by lia. reflexivity.
    + assert (p = m) by lia. subst p. rewrite Nat.sub_diag. reflexivity.
  - assert (Hpm : (p < m)%nat) by lia.
    destruct n.
    + cbn [seq map flush]. assert (Hmt : (m <? ts)%nat = false) by (apply Nat.ltb_ge; lia).
      rewrite Hmt. cbn [andb negb]. replace (ts - p)%nat with 1%nat by lia. reflexivity.
    + rewrite IHn by (try lia; auto).
      replace ((if (m <? ts)%nat && negb (u_flagged b') then m else ts) - p)%nat
        with (S ((if (m <? ts)%nat && negb (u_flagged b') then m else ts) - S p)).
      * reflexivity.
      * destruct (Nat.ltb_spec m ts), (u_flagged b'); cbn [andb negb]; lia.
Qed.
End Pair.

(** The slots after [b], each with its distance to its predecessor. *)
Fixpoint chain (b : ubuf) (r : list (nat * ubuf)) : Prop :=
  match r with
  | [] => True
  | (m, b') :: r' => (0 < m)%nat /\ (ts <= 2 * m)%nat /\ after ts dt b b' m /\ chain b' r'
  end.

Fixpoint emit (f : nat) (b : ubuf) (r : list (nat * ubuf)) : list ubuf :=
  match r with
  | [] => map (piece b) (seq f (ts - f))
  | (m, b') :: r' => map (piece b) (seq f (last_of b' m f - f)) ++ emit (first_next b' m) b' r'
  end.

Lemma run_emit : forall r b f out, chain b r -> (2 * f <= ts)%nat -> 
  ufinish ts (fold_left (uprocess ts dt) (map snd r) (Some (MkUstate (pieces ts dt b) f out))) =
  Some (out ++ emit f b r).
Proof.
  induction r as [|[m b'] r IH]; intros b f out HC Hf; cbn [chain map snd fold_left emit] in *.
  - cbn [ufinish us_prev us_first us_out]. rewrite pieces_length, Nat.ltb_irrefl. cbn [andb].
    rewrite pieces_map, skipn_map_seq. reflexivity.
  - destruct HC as (Hm & Hts & Ha & HC).
    cbn [uprocess us_prev us_first us_out].
    destruct (pieces ts dt b) eqn:E.
    { assert (length (pieces ts dt b) = ts) by apply pieces_length. rewrite E in H. cbn in H. lia. }
    rewrite <- E. rewrite pieces_map, skipn_map_seq, Nat.add_0_l.
    rewrite (flush_spec b b' m Ha Hm) by (try lia).
    rewrite IH, <- app_assoc; auto.
    unfold first_next. destruct ((m <? ts)%nat && u_flagged b'); lia.
Qed.

Lemma spaced_chain : forall l b, spaced ts dt (b :: l) -> exists r, map snd r = l /\ chain b r.
Proof.
  induction l as [|b' l IH]; intros b H.
  - exists []. split; cbn; auto.
  - destruct H as [(m & H1 & H2 & H3) H]. apply IH in H as (r & <- & HC).
    exists ((m, b') :: r). split; [reflexivity|]. cbn [chain]. auto.
Qed.

Lemma urun_emit b l : spaced ts dt (b :: l) -> exists r, map snd r = l /\ chain b r /\ urun ts dt (b :: l) = Some (emit 0 b r).
Proof.
  intros H. apply spaced_chain in H as (r & <- & HC). exists r. split; [|split]; auto.
  unfold urun. cbn [fold_left uprocess uinit us_prev us_first us_out].
  rewrite run_emit by (auto; lia). reflexivity.
Qed.

(** Times increase. *)
Lemma increasing_seq b f n tail :
  increasing dt tail ->
  (forall o, (0 < n)%nat -> hd_error tail = Some o -> u_time (piece b (f + n - 1)) + Q2Qc (1 # 5) * dt <= u_time o) ->
  increasing dt (map (piece b) (seq f n) ++ tail).
Proof.
  revert f. induction n; intros f Ht Hh; [exact Ht|].
  cbn [seq map app]. destruct n.
  - cbn [seq map app]. destruct tail as [|o tail]; [exact I|]. split; [|exact Ht].
    specialize (Hh o ltac:(lia) eq_refl). replace (f + 1 - 1)%nat with f in Hh by lia. exact Hh.
  - assert (H : increasing dt (map (piece b) (seq (S f) (S n)) ++ tail)).
    { apply IHn; auto. intros o _ Ho. specialize (Hh o ltac:(lia) Ho).
      replace (S f + S n - 1)%nat with (f + S (S n) - 1)%nat by lia. exact Hh. }
    cbn [seq map app] in H |- *. split; [|exact H].
    unfold piece; cbn [u_time]. rewrite qn_S.
    qclra.
Qed.

Lemma emit_hd0 b r : chain b r -> exists t, emit 0 b r = piece b 0 :: t.
Proof.
  destruct r as [|[m b'] r]; cbn [emit chain]; intros H.
  - replace (ts - 0)%nat with (S (ts - 1)) by lia. cbn [seq map]. eauto.
  - destruct H as (Hm & Hts & _ & _). rewrite Nat.sub_0_r.
    assert (E : (0 < last_of b' m 0)%nat) by (unfold last_of; destruct ((m <? ts)%nat && negb (u_flagged b')); lia).
    destruct (last_of b' m 0); [lia|]. cbn [seq map app]. eauto.
Qed.

Lemma emit_hd f b r o : chain b r -> (2 * f <= ts)%nat -> hd_error (emit f b r) = Some o ->
  o = piece b f \/ exists b', o = piece b' 0 /\ after ts dt b b' f.
Proof.
  destruct r as [|[m b'] r]; cbn [emit chain].
  - intros _ H. replace (ts - f)%nat with (S (ts - f - 1)) by lia. cbn [seq map hd_error]. intros E. left. congruence.
  - intros (Hm & Hts & Ha & HC) H E.
    destruct (last_of b' m f - f)%nat eqn:L.
    + cbn [seq map app] in E. right. exists b'.
      assert (m = f /\ u_flagged b' = false) as [-> F].
      { unfold last_of in L. destruct (Nat.ltb_spec m ts), (u_flagged b'); cbn [andb negb] in L; split; auto; lia. }
      split; [|exact Ha]. unfold first_next in E. rewrite F, andb_false_r in E.
      apply emit_hd0 in HC as [t HC]. rewrite HC in E. cbn [hd_error] in E. congruence.
    + cbn [seq map app hd_error] in E. left. congruence.
Qed.

Lemma emit_increasing : forall r b f, chain b r -> (2 * f <= ts)%nat -> increasing dt (emit f b r).
Proof.
  induction r as [|[m b'] r IH]; intros b f HC Hf; cbn [emit chain] in *.
  - rewrite <- (app_nil_r (map _ _)). apply increasing_seq; [exact I|]. discriminate.
  - destruct HC as (Hm & Hts & Ha & HC).
    assert (Hfn : (2 * first_next b' m <= ts)%nat) by (unfold first_next; destruct ((m <? ts)%nat && u_flagged b'); lia).
    apply increasing_seq; [now apply IH|].
    intros o Hn Ho. apply emit_hd in Ho; auto. rewrite Nat.add_comm, Nat.sub_add by lia.
    assert (Hl : (last_of b' m f <= first_next b' m + m)%nat).
    { unfold last_of, first_next. destruct (Nat.ltb_spec m ts), (u_flagged b'); cbn [andb negb]; lia. }
    set (L := last_of b' m f) in *. set (F := first_next b' m) in *. clearbody L F.
    assert (Hq : qn (L - 1) + 1 <= qn F + qn m) by (rewrite <- qn_S, <- qn_plus; apply qn_le; lia).
    apply dt_scale in Hq. destruct Ha as [Ha _].
    destruct Ho as [-> | (b'' & -> & Ha' & _)]; unfold piece; cbn [u_time]; rewrite ?qn_0; qclra.
Qed.

(** Which pieces are in the output. *)
Lemma emit_nth : forall r b f, chain b r -> (2 * f <= ts)%nat -> (0 < f -> u_flagged b = true)%nat ->
  forall k x i, nth_error (b :: map snd r) k = Some x -> (i < ts)%nat -> (k = 0 -> f <= i)%nat ->
  In (piece x i) (emit f b r) \/
  exists k' b' j, nth_error (b :: map snd r) k' = Some b' /\
     ((k' = S k /\ u_flagged b' = false) \/ (S k' = k /\ u_flagged x = true)) /\ (j < ts)%nat /\
     In (piece b' j) (emit f b r) /\ same_time dt (piece x i) (piece b' j) = true.
Proof.
  induction r as [|[m b'] r IH]; intros b f HC Hf Hfl k x i Hk Hi Hfi; cbn [emit chain map snd] in *.
  - destruct k as [|k]; [|destruct k; discriminate]. injection Hk as <-. left.
    apply in_map, in_seq. specialize (Hfi eq_refl). lia.
  - destruct HC as (Hm & Hts & Ha & HC).
    assert (Hfn : (2 * first_next b' m <= ts)%nat) by (unfold first_next; destruct ((m <? ts)%nat && u_flagged b'); lia).
    assert (Hflag : (0 < first_next b' m -> u_flagged b' = true)%nat).
    { unfold first_next. destruct (m <? ts)%nat, (u_flagged b'); cbn [andb]; auto; lia. }
    specialize (IH b' (first_next b' m) HC Hfn Hflag).
    destruct k as [|k].
    + injection Hk as <-. specialize (Hfi eq_refl).
      destruct (Nat.lt_ge_cases i (last_of b' m f)) as [L|L].
      { left. apply in_or_app. left. apply in_map, in_seq. lia. }
      right. exists 1%nat, b', (i - m)%nat.
      assert (m < ts /\ m <= i /\ u_flagged b' = false)%nat as (Hmt & Hmi & F).
      { unfold last_of in L. destruct (Nat.ltb_spec m ts), (u_flagged b'); cbn [andb negb] in L; repeat split; auto; lia. }
      split; [reflexivity|]. split; [auto|]. split; [lia|]. split.
      * apply in_or_app. right. unfold first_next. rewrite F, andb_false_r.
        destruct r as [|[m' b''] r]; cbn [emit chain] in *.
        -- apply in_map, in_seq. lia.
        -- destruct HC as (Hm' & Hts' & _ & _). apply in_or_app. left. apply in_map, in_seq.
           unfold last_of. destruct ((m' <? ts)%nat && negb (u_flagged b'')); lia.
      * rewrite (same_iff _ _ _ Ha) by lia. apply Nat.eqb_eq. lia.
    + cbn [nth_error] in Hk.
      destruct k as [|k].
      * destruct (Nat.lt_ge_cases i (first_next b' m)) as [L|L].
        -- injection Hk as <-. right.
           assert (m < ts /\ u_flagged b' = true)%nat as (Hmt & F).
           { unfold first_next in L. destruct (Nat.ltb_spec m ts), (u_flagged b'); cbn [andb] in L; repeat split; auto; lia. }
           unfold first_next in L. rewrite F, (proj2 (Nat.ltb_lt _ _) Hmt) in L. cbn [andb] in L.
           exists 0%nat, b, (i + m)%nat. split; [reflexivity|]. split; [auto|]. split; [lia|]. split.
           ++ apply in_or_app. left. apply in_map, in_seq.
              unfold last_of. rewrite F, andb_false_r. lia.
           ++ assert (S1 : same_time dt (piece b (i + m)) (piece b' i) = true).
              { rewrite (same_iff _ _ _ Ha) by lia. apply Nat.eqb_refl. }
              revert S1. unfold same_time, near_abs. rewrite !andb_true_iff. tauto.
        -- destruct (IH 0%nat x i Hk Hi) as [H|(k' & y & j & H1 & H2 & H3 & H4 & H5)]; [auto| |].
           ++ left. apply in_or_app. auto.
           ++ right. exists (S k'), y, j. split; [exact H1|]. split; [destruct H2 as [[]|[]]; [left|right]; split; auto; lia|]. split; [lia|]. split; auto.
              apply in_or_app. auto.
      * destruct (IH (S k) x i Hk Hi) as [H|(k' & y & j & H1 & H2 & H3 & H4 & H5)]; [lia| |].
        ++ left. apply in_or_app. auto.
        ++ right. exists (S k'), y, j. split; [exact H1|]. split; [destruct H2 as [[]|[]]; [left|right]; split; auto; lia|]. split; [lia|]. split; auto.
           apply in_or_app. auto.
Qed.

Lemma emit_in : forall r b f o, In o (emit f b r) -> exists x i, In x (b :: map snd r) /\ (i < ts)%nat /\ o = piece x i.
Proof.
  induction r as [|[m b'] r IH]; intros b f o H; cbn [emit map snd] in *.
  - apply in_map_iff in H as (i & <- & H). apply in_seq in H. exists b, i. split; [now left|]. split; auto; lia.
  - apply in_app_or in H as [H|H].
    + apply in_map_iff in H as (i & <- & H). apply in_seq in H. exists b, i. split; [now left|]. split; auto.
      unfold last_of in H. destruct (Nat.ltb_spec m ts), (u_flagged b'); cbn [andb negb] in H; lia.
    + apply IH in H as (x & i & H1 & H2 & H3). exists x, i. split; [now right|]. auto.
Qed.

Theorem upsample_ok (b : ubuf) l : spaced ts dt (b :: l) ->
  exists out, urun ts dt (b :: l) = Some out /\ increasing dt out /\ covered ts dt (b :: l) out /\ nothing_invented ts dt (b :: l) out.
Proof.
  intros H. apply urun_emit in H as (r & <- & HC & HR). exists (emit 0 b r).
  split; [exact HR|]. split; [apply emit_increasing; auto; lia|]. split.
  - intros k x i Hk Hi.
    destruct (emit_nth r b 0 HC ltac:(lia) ltac:(lia) k x i Hk Hi ltac:(lia)) as [H|(k' & y & j & H1 & H2 & H3 & H4 & H5)].
    + exists (piece x i). split; [exact H|]. left. apply piece_is_piece.
    + exists (piece y j). split; [exact H4|]. right. exists k', y, j, (piece x i).
      split; [exact H1|]. split; [exact H2|]. split; [exact H3|]. split; [apply piece_is_piece|]. split; [apply piece_is_piece|exact H5].
  - intros o Ho. apply emit_in in Ho as (x & i & H1 & H2 & ->). exists x, i. split; [exact H1|]. split; [exact H2|]. apply piece_is_piece.
Qed.

End Proofs.
