From Coq Require Import QArith Qround Qcanon Lqa List Bool Arith Lia.
From Verif Require Import QcUtil BdaAverageModel BdaAverageSpec.
Import ListNotations.
Open Scope Qc_scope.

(** ** Channel groups *)
Lemma chan_index_0 nin nout : chan_index nin nout 0 = 0%nat.
Proof. unfold chan_index. rewrite Nat.mul_0_l. destruct nout; [reflexivity|apply Nat.div_small; lia]. Qed.

Lemma chan_index_end nin nout : (0 < nout)%nat -> chan_index nin nout nout = nin.
Proof. intros H. unfold chan_index. rewrite Nat.mul_comm. apply Nat.div_mul. lia. Qed.

Lemma chan_index_mono nin nout i j : (0 < nout)%nat -> (i <= j)%nat ->
  (chan_index nin nout i <= chan_index nin nout j)%nat.
Proof. intros H Hij. apply Nat.div_le_mono; [lia|]. now apply Nat.mul_le_mono_r. Qed.

Lemma chan_index_step nin nout i : (0 < nout)%nat ->
  (nin / nout <= chan_index nin nout (S i) - chan_index nin nout i <= nin / nout + 1)%nat.
Proof.
  intros H. unfold chan_index.
  pose proof (Nat.div_mod (S i * nin) nout ltac:(lia)) as E1.
  pose proof (Nat.mod_upper_bound (S i * nin) nout ltac:(lia)) as B1.
  pose proof (Nat.div_mod (i * nin) nout ltac:(lia)) as E2.
  pose proof (Nat.mod_upper_bound (i * nin) nout ltac:(lia)) as B2.
  pose proof (Nat.div_mod nin nout ltac:(lia)) as E3.
  pose proof (Nat.mod_upper_bound nin nout ltac:(lia)) as B3.
  set (q1 := (S i * nin / nout)%nat) in *. set (r1 := (S i * nin mod nout)%nat) in *.
  set (q2 := (i * nin / nout)%nat) in *. set (r2 := (i * nin mod nout)%nat) in *.
  set (q3 := (nin / nout)%nat) in *. set (r3 := (nin mod nout)%nat) in *.
  assert (Hs : (S i * nin = nin + i * nin)%nat) by lia.
  clearbody q1 r1 q2 r2 q3 r3.
  assert (E : (nout * q1 + r1 = nout * (q2 + q3) + (r2 + r3))%nat) by lia.
  clear -E B1 B2 B3 H. nia.
Qed.

Lemma chan_groups nin nout : (0 < nout <= nin)%nat -> channel_groups (chan_index nin nout) nin nout.
Proof.
  intros H. split; [apply chan_index_0|]. split; [apply chan_index_end; lia|].
  intros o Ho. pose proof (chan_index_step nin nout o ltac:(lia)).
  assert (1 <= nin / nout)%nat by (apply Nat.div_le_lower_bound; lia). lia.
Qed.

Lemma chan_groups_only_if nin nout : (0 < nout)%nat ->
  channel_groups (chan_index nin nout) nin nout -> (nout <= nin)%nat.
Proof.
  intros H (H0 & H1 & H2).
  assert (forall o, (o <= nout)%nat -> (o <= chan_index nin nout o)%nat).
  { induction o; intros Ho; [lia|]. specialize (H2 o ltac:(lia)). specialize (IHo ltac:(lia)). lia. }
  specialize (H3 nout (Nat.le_refl _)). lia.
Qed.

Lemma chan_indices_length nin nout : List.length (chan_indices nin nout) = S nout.
Proof. unfold chan_indices. now rewrite map_length, seq_length. Qed.

Lemma filter_range lo hi a n : (a <= lo)%nat -> (lo <= hi)%nat -> (hi <= a + n)%nat ->
  filter (fun i => (lo <=? i)%nat && (i <? hi)%nat) (seq a n) = seq lo (hi - lo).
Proof.
  revert lo a; induction n; intros lo a H1 H2 H3; simpl.
  - replace (hi - lo)%nat with 0%nat by lia. reflexivity.
  - destruct (Nat.leb_spec lo a), (Nat.ltb_spec a hi); simpl.
    + assert (lo = a) by lia. subst. replace (hi - a)%nat with (S (hi - S a)) by lia. simpl. f_equal.
      destruct (Nat.eq_dec hi (S a)) as [->|].
      * rewrite Nat.sub_diag. simpl.
        assert (Hn : forall l, (forall x, In x l -> S a <= x)%nat ->
           filter (fun i => (a <=? i)%nat && (i <? S a)%nat) l = []).
        { induction l as [|x l IH]; intros Hl; auto. simpl.
          specialize (Hl x (or_introl eq_refl)) as Hx.
          destruct (Nat.ltb_spec x (S a)); [lia|]. rewrite andb_false_r. apply IH.
          intros; apply Hl; simpl; auto. }
        apply Hn. intros x Hx. apply in_seq in Hx. lia.
      * rewrite <- (IHn (S a) (S a)) by lia. apply filter_ext_in.
        intros x Hx. apply in_seq in Hx.
        destruct (Nat.leb_spec a x), (Nat.leb_spec (S a) x); auto; lia.
    + assert (lo = hi) by lia. assert (hi = a) by lia. subst. rewrite Nat.sub_diag. simpl.
      assert (Hn : forall l, filter (fun i => (a <=? i)%nat && (i <? a)%nat) l = []).
      { induction l as [|x l IH]; auto. simpl.
        destruct (Nat.leb_spec a x), (Nat.ltb_spec x a); simpl; auto; lia. }
      apply Hn.
    + apply IHn; lia.
    + lia.
Qed.

Lemma in_channels_eq nin nout o : (0 < nout)%nat -> (o < nout)%nat ->
  in_channels nin nout o =
  seq (chan_index nin nout o) (chan_index nin nout (S o) - chan_index nin nout o).
Proof.
  intros Hn Ho. unfold in_channels. fold (chan_index nin nout o) (chan_index nin nout (S o)).
  apply filter_range; [lia|apply chan_index_mono; lia|].
  pose proof (chan_index_mono nin nout (S o) nout Hn ltac:(lia)). rewrite chan_index_end in H by auto. lia.
Qed.

(** The groups, put behind each other, are all input channels. *)
Lemma groups_concat nin nout : (0 < nout)%nat ->
  flat_map (in_channels nin nout) (seq 0 nout) = seq 0 nin.
Proof.
  intros Hn.
  assert (H : forall k, (k <= nout)%nat ->
     flat_map (in_channels nin nout) (seq 0 k) = seq 0 (chan_index nin nout k)).
  { induction k; intros Hk; [now rewrite chan_index_0|].
    rewrite seq_S, flat_map_app, IHk by lia. simpl. rewrite app_nil_r.
    rewrite in_channels_eq by lia.
    pose proof (chan_index_mono nin nout k (S k) Hn ltac:(lia)).
    replace (chan_index nin nout (S k)) with
      (chan_index nin nout k + (chan_index nin nout (S k) - chan_index nin nout k))%nat at 2 by lia.
    rewrite seq_app. reflexivity. }
  rewrite H by lia. now rewrite chan_index_end.
Qed.

(** ** Averaging factors *)
Lemma time_factor_spec thr max_interval dt len f : 0 < dt ->
  time_factor thr max_interval dt len = Some f ->
  (1 <= f)%nat /\
  ((1 < f)%nat -> qn f * (if qltb len (Q2Qc (1 # 10)) then Q2Qc (1 # 10) else len) <= thr) /\
  (0 < max_interval -> dt <= max_interval -> qn f * dt <= max_interval).
Proof.
  intros Hdt. unfold time_factor. cbv beta zeta.
  set (l := if qltb len (Q2Qc (1 # 10)) then Q2Qc (1 # 10) else len).
  assert (Hl : 0 < l).
  { unfold l. destruct (qltb_spec len (Q2Qc (1 # 10))) as [H|H]; [reflexivity|].
    apply Qcnot_lt_le in H. eapply Qclt_le_trans; [|exact H]. reflexivity. }
  clearbody l.
  assert (Hfl : forall q : Qc, (0 <= Qround.Qfloor q)%Z -> qn (Z.to_nat (Qround.Qfloor q)) <= q).
  { intros q Hq. unfold qn, Qcle. rewrite this_Q2Qc, Z2Nat.id by auto. apply Qround.Qfloor_le. }
  assert (Hdiv : forall a b : Qc, 0 < b -> a / b * b = a).
  { intros a b Hb. unfold Qcdiv. rewrite <- Qcmult_assoc, (Qcmult_comm (/ b)), Qcmult_inv_r; [ring|].
    intros E. rewrite E in Hb. now apply Qclt_not_eq in Hb. }
  assert (Hpos : forall q : Qc, 0 <= q -> (0 <= Qround.Qfloor q)%Z).
  { intros q Hq. change 0%Z with (Qround.Qfloor 0). apply Qround.Qfloor_resp_le. exact Hq. }
  destruct (Z.ltb_spec (Qround.Qfloor (thr / l)%Qc) 0) as [Hneg|Hnn]; [discriminate|].
  set (f0 := Qround.Qfloor (thr / l)%Qc) in *.
  assert (Hf0 : qn (Z.to_nat f0) * l <= thr).
  { rewrite <- (Hdiv thr l Hl). apply Qcmult_le_compat_r; [apply Hfl; auto|]. now apply Qclt_le_weak. }
  intros E. apply (f_equal (fun o => match o with Some x => x | None => 0%nat end)) in E.
  cbv beta iota in E. subst f. split; [lia|].
  destruct (qltb_spec 0 max_interval) as [Hmi|Hmi]; cbn [andb].
  2:{ split; [|intros; contradiction]. intros Hf. rewrite Nat.max_l by lia. exact Hf0. }
  destruct (qltb_spec max_interval (Q2Qc (inject_Z f0) * dt)) as [Hlim|Hlim].
  - set (f1 := Qround.Qfloor (max_interval / dt)%Qc) in *.
    assert (Hq0 : 0 <= max_interval / dt).
    { apply Qcmult_lt_0_le_reg_r with dt; auto. rewrite (Hdiv _ _ Hdt), Qcmult_0_l.
      now apply Qclt_le_weak. }
    assert (Hf1 : qn (Z.to_nat f1) * dt <= max_interval).
    { rewrite <- (Hdiv max_interval dt Hdt). apply Qcmult_le_compat_r; [|now apply Qclt_le_weak].
      apply Hfl. auto. }
    assert (Hle : (f1 <= f0)%Z).
    { assert (max_interval / dt <= Q2Qc (inject_Z f0)).
      { apply Qcmult_lt_0_le_reg_r with dt; auto. rewrite (Hdiv _ _ Hdt). now apply Qclt_le_weak. }
      unfold f1. rewrite <- (Qround.Qfloor_Z f0). apply Qround.Qfloor_resp_le.
      unfold Qcle in H. rewrite this_Q2Qc in H. exact H. }
    split.
    + intros Hf. rewrite Nat.max_l by lia. eapply Qcle_trans; [|exact Hf0].
      apply Qcmult_le_compat_r; [|now apply Qclt_le_weak]. apply qn_le. lia.
    + intros _ Hd. destruct (Nat.max_spec (Z.to_nat f1) 1) as [[_ ->]|[_ ->]]; auto.
      change (qn 1) with 1. now rewrite Qcmult_1_l.
  - apply Qcnot_lt_le in Hlim. split.
    + intros Hf. rewrite Nat.max_l by lia. exact Hf0.
    + intros _ Hd. destruct (Nat.max_spec (Z.to_nat f0) 1) as [[_ ->]|[_ ->]].
      * change (qn 1) with 1. now rewrite Qcmult_1_l.
      * unfold qn. rewrite Z2Nat.id by auto. exact Hlim.
Qed.

Lemma out_channels_spec thr len nchan minch : 0 < len ->
  (0 < nchan)%nat -> (minch <= nchan)%nat ->
  (1 <= out_channels thr len nchan minch <= nchan)%nat /\
  (0 < thr -> (minch <= out_channels thr len nchan minch)%nat).
Proof.
  intros Hlen Hn Hm. unfold out_channels.
  destruct (qltb_spec 0 thr) as [Ht|Ht].
  - set (q := len / thr * qn nchan). set (c := Qround.Qceiling q).
    assert (Hq : 0 < q).
    { unfold q, Qcdiv. apply qc_mult_pos; [|apply qn_pos; auto].
      apply qc_mult_pos; auto. now apply qc_inv_pos. }
    assert (Hc : (1 <= c)%Z).
    { assert (0 < c)%Z; [|lia]. rewrite Zlt_Qlt. eapply Qlt_le_trans; [exact Hq|apply Qround.Qle_ceiling]. }
    destruct (Nat.ltb_spec nchan (Z.to_nat c)); [lia|].
    destruct (Nat.ltb_spec (Z.to_nat c) minch); lia.
  - split; [lia|]. intros; contradiction.
Qed.

(** The limits are used to the full. *)
Lemma floor_max (q : Qc) (g : nat) : qn g <= q -> (g <= Z.to_nat (Qround.Qfloor q))%nat.
Proof.
  intros H. assert (X : (Z.of_nat g <= Qround.Qfloor q)%Z).
  { rewrite <- (Qround.Qfloor_Z (Z.of_nat g)). apply Qround.Qfloor_resp_le. unfold qn, Qcle in H. rewrite this_Q2Qc in H. exact H. }
  lia.
Qed.
Lemma le_div (a b d : Qc) : 0 < d -> a * d <= b -> a <= b / d.
Proof.
  intros Hd H. apply Qcmult_lt_0_le_reg_r with d; auto. unfold Qcdiv. rewrite <- (Qcmult_assoc b), (Qcmult_comm (/ d)), Qcmult_inv_r.
  - now rewrite Qcmult_1_r.
  - intros E. rewrite E in Hd. now apply Qclt_not_eq in Hd.
Qed.
Lemma time_factor_max thr max_interval dt len f g : 0 < dt ->
  time_factor thr max_interval dt len = Some f ->
  qn g * (if qltb len (Q2Qc (1 # 10)) then Q2Qc (1 # 10) else len) <= thr ->
  (0 < max_interval -> qn g * dt <= max_interval) -> (g <= f)%nat.
Proof.
  intros Hdt. unfold time_factor. cbv beta zeta.
  set (l := if qltb len (Q2Qc (1 # 10)) then Q2Qc (1 # 10) else len).
  assert (Hl : 0 < l).
  { unfold l. destruct (qltb_spec len (Q2Qc (1 # 10))) as [H|H]; [reflexivity|].
    apply Qcnot_lt_le in H. eapply Qclt_le_trans; [|exact H]. reflexivity. }
  clearbody l. destruct (Z.ltb_spec (Qround.Qfloor (thr / l)%Qc) 0) as [Hneg|Hnn]; [discriminate|].
  intros E H1 H2. apply (f_equal (fun o => match o with Some x => x | None => 0%nat end)) in E. cbv beta iota in E. subst f.
  pose proof (floor_max _ _ (le_div _ _ _ Hl H1)) as G1.
  destruct (qltb_spec 0 max_interval) as [Hmi|Hmi]; cbn [andb]; [|lia].
  pose proof (floor_max _ _ (le_div _ _ _ Hdt (H2 Hmi))) as G2.
  destruct (qltb max_interval (Q2Qc (inject_Z (Qround.Qfloor (thr / l)%Qc)) * dt)); lia.
Qed.

Lemma out_channels_min thr len nchan minch : 0 < len -> (0 < nchan)%nat -> (minch <= nchan)%nat ->
  (thr <= 0 -> out_channels thr len nchan minch = nchan) /\
  (0 < thr -> (forall n, (minch <= n)%nat -> len * qn nchan <= qn n * thr -> (out_channels thr len nchan minch <= n)%nat) /\
              ((out_channels thr len nchan minch < nchan)%nat -> len * qn nchan <= qn (out_channels thr len nchan minch) * thr)).
Proof.
  intros Hlen Hn Hm. unfold out_channels. destruct (qltb_spec 0 thr) as [Ht|Ht].
  2:{ split; [reflexivity|]. intros; contradiction. }
  split; [intros H; now apply Qcle_not_lt in H|]. intros _.
  set (q := len / thr * qn nchan).
  assert (Eq : q * thr = len * qn nchan).
  { unfold q, Qcdiv. rewrite <- !Qcmult_assoc, (Qcmult_comm (qn nchan)), (Qcmult_assoc (/ thr)), (Qcmult_comm (/ thr)), Qcmult_inv_r; [ring|].
    intros E. rewrite E in Ht. now apply Qclt_not_eq in Ht. }
  assert (Hq : 0 < q).
  { unfold q, Qcdiv. apply qc_mult_pos; [|apply qn_pos; auto]. apply qc_mult_pos; auto. now apply qc_inv_pos. }
  assert (Hc : (1 <= Qround.Qceiling q)%Z).
  { assert (0 < Qround.Qceiling q)%Z; [|lia]. rewrite Zlt_Qlt. eapply Qlt_le_trans; [exact Hq|apply Qround.Qle_ceiling]. }
  assert (U : q <= qn (Z.to_nat (Qround.Qceiling q))).
  { unfold qn, Qcle. rewrite this_Q2Qc, Z2Nat.id by lia. apply Qround.Qle_ceiling. }
  assert (L : forall n, q <= qn n -> (Z.to_nat (Qround.Qceiling q) <= n)%nat).
  { intros n H. assert (X : (Qround.Qceiling q <= Z.of_nat n)%Z); [|lia]. rewrite <- (Qround.Qceiling_Z (Z.of_nat n)). apply Qround.Qceiling_resp_le.
    unfold qn, Qcle in H. rewrite this_Q2Qc in H. exact H. }
  clearbody q. split.
  - intros n Hn1 H. rewrite <- Eq in H. apply Qcmult_lt_0_le_reg_r in H; auto. specialize (L n H).
    destruct (Nat.ltb_spec nchan (Z.to_nat (Qround.Qceiling q))); [lia|]. destruct (Nat.ltb_spec (Z.to_nat (Qround.Qceiling q)) minch); lia.
  - rewrite <- Eq. intros H. apply Qcmult_le_compat_r; [|now apply Qclt_le_weak]. eapply Qcle_trans; [exact U|]. apply qn_le.
    destruct (Nat.ltb_spec nchan (Z.to_nat (Qround.Qceiling q))); [lia|]. destruct (Nat.ltb_spec (Z.to_nat (Qround.Qceiling q)) minch); lia.
Qed.

(** ** Widths *)
Lemma widths_conserved widths nin nout : (0 < nout)%nat ->
  qsum (map (out_width widths nin nout) (seq 0 nout)) = qsum (map widths (seq 0 nin)).
Proof.
  intros H. rewrite <- (groups_concat nin nout H).
  rewrite flat_map_concat_map, concat_map, map_map, <- flat_map_concat_map, qsum_flat_map.
  apply qsum_map_ext. intros o Ho. apply in_seq in Ho. unfold out_width.
  rewrite qsum_fold_left, Qcplus_0_l, in_channels_eq by lia. reflexivity.
Qed.

(** ** Generic list lemmas *)
Lemma fold_flat_map {A B S} (g : S -> B -> S) (f : A -> list B) l a :
  fold_left (fun a x => fold_left g (f x) a) l a = fold_left g (flat_map f l) a.
Proof. revert a; induction l; intros; simpl; auto. rewrite fold_left_app. apply IHl. Qed.

Lemma qsum_pick n (a : nat) (f : nat -> Qc) : (a < n)%nat ->
  qsum (map (fun x => if (x =? a)%nat then f x else 0) (seq 0 n)) = f a.
Proof.
  intros H. replace n with (a + S (n - S a))%nat by lia.
  rewrite seq_app, map_app, qsum_app. simpl. rewrite Nat.eqb_refl.
  rewrite (qsum_map_0 _ (seq 0 a)).
  - rewrite (qsum_map_0 _ (seq (S a) _)); [ring|].
    intros x Hx. apply in_seq in Hx. destruct (Nat.eqb_spec x a); [lia|reflexivity].
  - intros x Hx. apply in_seq in Hx. destruct (Nat.eqb_spec x a); [lia|reflexivity].
Qed.

Lemma flat_index_inj n o c o' c' : (c < n)%nat -> (c' < n)%nat ->
  (o * n + c = o' * n + c')%nat -> o = o' /\ c = c'.
Proof.
  intros H1 H2 E. assert (o = o').
  { destruct (Nat.lt_trichotomy o o') as [?|[?|?]]; auto; exfalso; nia. }
  subst. lia.
Qed.

Section Proofs.
Context {name : Type}.
Variables (nbl nin ncorr : nat) (dt : Qc) (use_wf : bool) (tf nout : nat -> nat).
Variables (pool : nat) (eps : Qc).
Notation slot := (slot name).
Notation bbuf := (bbuf name).
Notation orow := (orow name).
Notation state := (state name).
Notation add_sample := (@add_sample name use_wf).
Notation add_samples := (@add_samples name nin ncorr use_wf nout).
Notation add_slot := (@add_slot name nin ncorr dt use_wf nout).
Notation make_row := (@make_row name ncorr nout).
Notation add_baseline := (@add_baseline name ncorr nout pool eps).
Notation process_baseline := (@process_baseline name nin ncorr dt use_wf tf nout pool eps).
Notation process := (@process name nbl nin ncorr dt use_wf tf nout pool eps).
Notation finish_baseline := (@finish_baseline name ncorr nout pool eps).
Notation finish := (@finish name nbl ncorr nout pool eps).
Notation run := (@run name nbl nin ncorr dt use_wf tf nout pool eps).
Notation eff_weight := (@eff_weight name use_wf).
Notation group_sum := (@group_sum name nin nout).
Notation weight_sum := (@weight_sum name nin use_wf nout).
Notation vis_sum := (@vis_sum name nin use_wf nout).
Notation row_is_average := (@row_is_average name nin ncorr dt use_wf nout).
Notation schedule := (@schedule name nbl tf).
Notation regular := (@regular name dt).
Notation baseline_weight := (@baseline_weight name nin ncorr use_wf).

(** ** Adding the samples of one slot *)
Definition triples (b : nat) : list (nat * nat * nat) :=
  flat_map (fun och => flat_map (fun ich => map (fun corr => (och, ich, corr)) (seq 0 ncorr))
     (seq (chan_index nin (nout b) och)
           (chan_index nin (nout b) (S och) - chan_index nin (nout b) och)))
    (seq 0 (nout b)).

Lemma add_samples_flat b s bb :
  add_samples b s bb =
  fold_left (fun bb t => let '(och, ich, corr) := t in add_sample b s (och * ncorr) ich corr bb) (triples b) bb.
Proof.
  unfold BdaAverageModel.add_samples, triples.
  rewrite <- fold_flat_map. 
  assert (E : forall l bb, 
    fold_left (fun bb och => fold_left (fun bb ich => fold_left (fun bb corr => add_sample b s (och * ncorr) ich corr bb) (seq 0 ncorr) bb)
      (seq (chan_index nin (nout b) och) (chan_index nin (nout b) (S och) - chan_index nin (nout b) och)) bb) l bb =
    fold_left (fun bb och => fold_left (fun bb t => let '(och, ich, corr) := t in add_sample b s (och * ncorr) ich corr bb)
      (flat_map (fun ich => map (fun corr => (och, ich, corr)) (seq 0 ncorr))
        (seq (chan_index nin (nout b) och) (chan_index nin (nout b) (S och) - chan_index nin (nout b) och))) bb) l bb).
  { induction l as [|o l IH]; intros bb0; simpl; auto. rewrite IH. f_equal.
    rewrite <- fold_flat_map.
    generalize (seq (chan_index nin (nout b) o) (chan_index nin (nout b) (S o) - chan_index nin (nout b) o)).
    intros l0; revert bb0; induction l0 as [|i l0 IH0]; intros bb0; simpl; auto. rewrite IH0. f_equal.
    clear. generalize (seq 0 ncorr). intros l; revert bb0.
    induction l; intros; simpl; auto. }
  apply E.
Qed.

Lemma add_samples_eq b s bb :
  let bb' := add_samples b s bb in
  times_added bb' = times_added bb /\ starttime bb' = starttime bb /\ interval bb' = interval bb /\
  exposure bb' = exposure bb /\ (forall i, buvw bb' i = buvw bb i) /\
  (forall k, bweights bb' k = bweights bb k +
     qsum (map (fun t => let '(och, ich, corr) := t in
        if (och * ncorr + corr =? k)%nat then eff_weight s b ich corr else 0) (triples b))) /\
  (forall n k, bdata bb' n k = bdata bb n k +
     qsum (map (fun t => let '(och, ich, corr) := t in
        if (och * ncorr + corr =? k)%nat then eff_weight s b ich corr * s_vis s n b ich corr else 0) (triples b))).
Proof.
  rewrite add_samples_flat. cbv zeta. revert bb. generalize (triples b).
  induction l as [|[[och ich] corr] l IH]; intros bb; simpl.
  - repeat split; intros; ring.
  - specialize (IH (add_sample b s (och * ncorr) ich corr bb)).
    destruct IH as (-> & -> & -> & -> & H5 & H6 & H7).
    unfold BdaAverageModel.add_sample, BdaAverageSpec.eff_weight in *.
    destruct use_wf; [destruct (s_flag s b ich corr)|]; simpl in *;
      (repeat split; auto; intros;
       [rewrite H6 | rewrite H7]; unfold upd; rewrite (Nat.eqb_sym (och * ncorr + corr)%nat k);
       destruct (k =? och * ncorr + corr)%nat; ring).
Qed.

Lemma triples_sum b och corr (f : nat -> nat -> Qc) :
  (0 < nout b)%nat -> (och < nout b)%nat -> (corr < ncorr)%nat ->
  qsum (map (fun t => let '(o, i, c) := t in
     if (o * ncorr + c =? och * ncorr + corr)%nat then f i c else 0) (triples b))
  = qsum (map (fun ch => f ch corr) (in_channels nin (nout b) och)).
Proof.
  intros Hn Ho Hc. unfold triples.
  set (g := fun t : nat * nat * nat => let '(o, i, c) := t in
     if (o * ncorr + c =? och * ncorr + corr)%nat then f i c else 0).
  rewrite flat_map_concat_map, concat_map, map_map, <- flat_map_concat_map, qsum_flat_map.
  transitivity (qsum (map (fun o => if (o =? och)%nat then
      qsum (map (fun ch => f ch corr) (in_channels nin (nout b) o)) else 0) (seq 0 (nout b)))).
  - apply qsum_map_ext. intros o Hino. apply in_seq in Hino.
    rewrite flat_map_concat_map, concat_map, map_map, <- flat_map_concat_map, qsum_flat_map.
    rewrite in_channels_eq by lia.
    destruct (Nat.eqb_spec o och) as [->|Hne].
    + apply qsum_map_ext. intros i _. rewrite map_map. unfold g.
      transitivity (qsum (map (fun c => if (c =? corr)%nat then f i c else 0) (seq 0 ncorr))).
      * apply qsum_map_ext. intros c Hinc. apply in_seq in Hinc.
        destruct (Nat.eqb_spec c corr) as [->|Hcc]; [now rewrite Nat.eqb_refl|].
        destruct (Nat.eqb_spec (och * ncorr + c) (och * ncorr + corr)); [lia|reflexivity].
      * now apply qsum_pick.
    + apply qsum_map_0. intros i _. rewrite map_map. apply qsum_map_0. intros c Hinc.
      apply in_seq in Hinc. unfold g.
      destruct (Nat.eqb_spec (o * ncorr + c) (och * ncorr + corr)) as [E|]; auto.
      apply flat_index_inj in E; lia.
  - apply qsum_pick; auto.
Qed.

(** ** A window of slots *)
Definition bb_of (b : nat) (win : list slot) : bbuf :=
  fold_left (fun bb s => add_slot b s bb) win (bb_clear name).

Lemma bb_of_snoc b win s : bb_of b (win ++ [s]) = add_slot b s (bb_of b win).
Proof. unfold bb_of. now rewrite fold_left_app. Qed.

Lemma bb_of_spec b win :
  let bb := bb_of b win in
  times_added bb = List.length win /\ interval bb = qn (List.length win) * dt /\
  exposure bb = qsum (map s_exposure win) /\
  (forall s0, hd_error win = Some s0 -> starttime bb = s_time s0 - dt / (1 + 1)) /\
  (forall i, buvw bb i = qsum (map (fun s => s_uvw s b i) win)) /\
  (forall o corr, (0 < nout b)%nat -> (o < nout b)%nat -> (corr < ncorr)%nat ->
     bweights bb (o * ncorr + corr)%nat = weight_sum win b o corr /\
     forall n, bdata bb n (o * ncorr + corr)%nat = vis_sum n win b o corr).
Proof.
  cbv zeta. induction win as [|s win IH] using rev_ind.
  - unfold bb_of; simpl. rewrite qn_0. repeat split; try ring; try discriminate.
  - destruct IH as (I1 & I2 & I3 & I4 & I5 & I6). rewrite bb_of_snoc.
    unfold BdaAverageModel.add_slot.
    match goal with |- context [add_samples b s ?x] => set (bb1 := x) end.
    pose proof (add_samples_eq b s bb1) as (E1 & E2 & E3 & E4 & E5 & E6 & E7).
    simpl. rewrite E1, E2, E3, E4. simpl. rewrite app_length, I1, I2, I3. simpl.
    split; [lia|]. split; [rewrite Nat.add_1_r, qn_S; ring|].
    split; [rewrite map_app, qsum_app; simpl; ring|].
    split.
    { intros s0 Hs0. destruct win as [|s1 win].
      - simpl in *. injection Hs0 as ->. reflexivity.
      - simpl in *. injection Hs0 as ->. apply I4. reflexivity. }
    split.
    { intros i. rewrite E5. simpl. rewrite I5, map_app, qsum_app. simpl. ring. }
    intros o corr Hn Ho Hc. specialize (I6 o corr Hn Ho Hc) as [I6 I7].
    rewrite E6. simpl. rewrite I6. split.
    + rewrite (triples_sum b o corr (eff_weight s b)) by auto.
      unfold BdaAverageSpec.weight_sum, BdaAverageSpec.group_sum. rewrite map_app, qsum_app. simpl. ring.
    + intros n. rewrite E7. simpl. rewrite I7.
      rewrite (triples_sum b o corr (fun i c => eff_weight s b i c * s_vis s n b i c)) by auto.
      unfold BdaAverageSpec.vis_sum, BdaAverageSpec.group_sum. rewrite map_app, qsum_app. simpl. ring.
Qed.

Lemma nth_map_seq (f : nat -> Qc) n k : (k < n)%nat -> nth k (map f (seq 0 n)) 0 = f k.
Proof.
  intros H. rewrite (nth_indep _ 0 (f 0%nat)) by (rewrite map_length, seq_length; lia).
  rewrite map_nth, seq_nth by lia. reflexivity.
Qed.

Lemma flat_index_lt n m o c : (o < n)%nat -> (c < m)%nat -> (o * m + c < n * m)%nat.
Proof. intros. nia. Qed.

Lemma make_row_average b win k : (0 < nout b)%nat -> row_is_average b win (make_row b (bb_of b win) k).
Proof.
  intros Hn. pose proof (bb_of_spec b win) as (I1 & I2 & I3 & I4 & I5 & I6).
  unfold BdaAverageSpec.row_is_average, BdaAverageModel.make_row; simpl.
  repeat (split; [reflexivity|]).
  split; [exact I2|].
  split. { intros s0 Hs. rewrite (I4 s0 Hs). ring. }
  split; [exact I3|].
  split; [now rewrite map_length, seq_length|].
  split; [intros; now rewrite map_length, seq_length|].
  intros o corr Ho Hc. destruct (I6 o corr Hn Ho Hc) as [I7 I8].
  pose proof (flat_index_lt (nout b) ncorr o corr Ho Hc) as Hlt.
  split; [now rewrite nth_map_seq|]. intros n. rewrite nth_map_seq by auto. rewrite I7, I8.
  split; intros H.
  - apply qltb_true in H. now rewrite H.
  - apply qltb_false in H. now rewrite H.
Qed.

(** Summing a function over flat positions. *)
Lemma sum_flat n m (f : nat -> Qc) :
  qsum (map f (seq 0 (n * m))) = qsum (map (fun o => qsum (map (fun c => f (o * m + c)%nat) (seq 0 m))) (seq 0 n)).
Proof.
  induction n; [reflexivity|].
  rewrite seq_S, map_app, qsum_app, <- IHn. simpl plus.
  replace (S n * m)%nat with (n * m + m)%nat by lia.
  rewrite seq_app, map_app, qsum_app. f_equal. simpl.
  rewrite Qcplus_0_r. f_equal.
  clear. generalize (n * m)%nat as k. intros k.
  replace (seq k m) with (map (fun c => k + c)%nat (seq 0 m)).
  - now rewrite map_map.
  - assert (H : forall a, map (fun c => k + c)%nat (seq a m) = seq (k + a) m).
    { induction m as [|m' IH]; intros a; simpl; auto. rewrite IH. now rewrite Nat.add_succ_r. }
    rewrite H. now rewrite Nat.add_0_r.
Qed.

Lemma groups_sum nin' nout' (f : nat -> Qc) : (0 < nout')%nat ->
  qsum (map (fun o => qsum (map f (in_channels nin' nout' o))) (seq 0 nout')) = qsum (map f (seq 0 nin')).
Proof.
  intros H. rewrite <- (groups_concat nin' nout' H).
  rewrite flat_map_concat_map, concat_map, map_map, <- flat_map_concat_map, qsum_flat_map. reflexivity.
Qed.

Lemma weights_total b win : (0 < nout b)%nat ->
  qsum (map (bweights (bb_of b win)) (seq 0 (nout b * ncorr))) = baseline_weight win b.
Proof.
  intros Hn. pose proof (bb_of_spec b win) as (_ & _ & _ & _ & _ & I6).
  rewrite sum_flat.
  transitivity (qsum (map (fun o => qsum (map (fun c => weight_sum win b o c) (seq 0 ncorr))) (seq 0 (nout b)))).
  { apply qsum_map_ext. intros o Ho. apply in_seq in Ho. apply qsum_map_ext. intros c Hc. apply in_seq in Hc.
    apply I6; lia. }
  unfold BdaAverageSpec.weight_sum, BdaAverageSpec.group_sum, BdaAverageSpec.baseline_weight.
  transitivity (qsum (map (fun o => qsum (map (fun s => qsum (map (fun c =>
      qsum (map (fun ch => eff_weight s b ch c) (in_channels nin (nout b) o))) (seq 0 ncorr))) win)) (seq 0 (nout b)))).
  { apply qsum_map_ext. intros o _. rewrite <- qsum_swap. reflexivity. }
  rewrite qsum_swap. apply qsum_map_ext. intros s _.
  rewrite <- (groups_sum nin (nout b)) by auto.
  apply qsum_map_ext. intros o _. rewrite qsum_swap. reflexivity.
Qed.

Lemma total_weight_eq b win : (0 < nout b)%nat ->
  total_weight name ncorr nout b (bb_of b win) = baseline_weight win b.
Proof.
  intros Hn. rewrite <- weights_total by auto. unfold total_weight.
  assert (H : forall l a, fold_left (fun t i => t + bweights (bb_of b win) i) l a = a + qsum (map (bweights (bb_of b win)) l)).
  { induction l; intros; simpl; [ring|]. rewrite IHl. ring. }
  rewrite H. ring.
Qed.

Lemma make_row_uvw b win k : (0 < nout b)%nat -> 
  (0 < baseline_weight win b -> uvw_is_mean b win (make_row b (bb_of b win) k)) /\
  (baseline_weight win b <= 0 -> forall i, o_uvw (make_row b (bb_of b win) k) i = qsum (map (fun s => s_uvw s b i) win)).
Proof.
  intros Hn. pose proof (bb_of_spec b win) as (I1 & I2 & I3 & I4 & I5 & I6).
  unfold uvw_is_mean, BdaAverageModel.make_row; simpl. rewrite total_weight_eq by auto.
  split; intros H.
  - apply qltb_true in H. rewrite H. intros i. rewrite I5, I1. unfold Qcdiv. ring.
  - apply qltb_false in H. rewrite H. intros i. apply I5.
Qed.

Lemma qsum_zero l : (forall x, In x l -> 0 <= x) -> qsum l = 0 -> forall x, In x l -> x = 0.
Proof.
  induction l as [|y l IH]; simpl; [tauto|]. intros Hp Hs x Hx.
  assert (Hy : 0 <= y) by (apply Hp; auto).
  assert (Hl : 0 <= qsum l) by (apply qsum_nonneg; auto).
  assert (y = 0) by qclra. assert (qsum l = 0) by qclra.
  destruct Hx as [<-|Hx]; auto.
Qed.

(** With non-negative weights, an output sample of weight zero has value zero. *)
Lemma zero_weight_zero_vis n win b o corr :
  (forall s ch, In s win -> 0 <= eff_weight s b ch corr) ->
  weight_sum win b o corr = 0 -> vis_sum n win b o corr = 0.
Proof.
  intros Hp Hw. unfold BdaAverageSpec.vis_sum, BdaAverageSpec.group_sum.
  apply qsum_map_0. intros s Hs. apply qsum_map_0. intros ch Hch.
  unfold BdaAverageSpec.weight_sum, BdaAverageSpec.group_sum in Hw.
  assert (H1 : qsum (map (fun ch => eff_weight s b ch corr) (in_channels nin (nout b) o)) = 0).
  { eapply qsum_zero; [|exact Hw|].
    - intros x Hx. apply in_map_iff in Hx as (s' & <- & Hs'). apply qsum_nonneg.
      intros y Hy. apply in_map_iff in Hy as (ch' & <- & _). auto.
    - apply in_map_iff. eauto. }
  assert (H2 : eff_weight s b ch corr = 0).
  { eapply qsum_zero; [|exact H1|].
    - intros y Hy. apply in_map_iff in Hy as (ch' & <- & _). auto.
    - apply in_map_iff. eauto. }
  rewrite H2. ring.
Qed.

(** ** The state machine *)
Variable reqs : list nat.
Hypothesis Hnout : forall b, (b < nbl)%nat -> (0 < nout b)%nat.
Hypothesis Hnbl : (0 < nbl)%nat.
Hypothesis Hncorr : (0 < ncorr)%nat.
Hypothesis Htf : forall b, (b < nbl)%nat -> (0 < tf b)%nat.
Hypothesis Hpool : forall b, (b < nbl)%nat -> (nout b * ncorr <= pool)%nat.
Hypothesis Hreqs : forall r b, In r reqs -> (b < nbl)%nat -> (nout b * ncorr <= r)%nat.
Hypothesis Heps : eps <= dt.
Hypothesis Hdt : 0 <= dt.

Definition all_rows (st : state) : list orow :=
  concat (st_sent name st) ++ match st_cur name st with Some c => ob_rows name c | None => [] end.

Definition row_start (r : orow) : Qc := o_time r - o_interval r / (1 + 1).
Definition row_end (r : orow) : Qc := o_time r + o_interval r / (1 + 1).

(** Requests are large enough, sent buffers are not empty, an empty current
    buffer can hold any row. *)
Definition good (st : state) : Prop :=
  (forall r b, In r (st_requests name st) -> (b < nbl)%nat -> (nout b * ncorr <= r)%nat) /\
  Forall (fun l => l <> []) (st_sent name st) /\
  match st_cur name st with
  | Some c => ob_rows name c = [] -> forall b, (b < nbl)%nat -> (nout b * ncorr <= ob_remaining name c)%nat
  | None => True
  end.

Definition bounded (t : Qc) (st : state) : Prop :=
  forall r, In r (all_rows st) -> row_start r + dt <= t.

Lemma init_buffer_spec st : good st -> st_cur name st = None ->
  let st' := init_buffer name pool st in
  good st' /\ st_bbs name st' = st_bbs name st /\ st_rownr name st' = st_rownr name st /\
  all_rows st' = all_rows st /\ st_sent name st' = st_sent name st /\
  exists c, st_cur name st' = Some c /\ ob_rows name c = [] /\
     forall b, (b < nbl)%nat -> (nout b * ncorr <= ob_remaining name c)%nat.
Proof.
  intros (G1 & G2 & G3) Hc. unfold init_buffer, good, all_rows. rewrite Hc.
  destruct (st_requests name st) as [|r rs] eqn:E; simpl.
  - split; [split; [intros r b []|split; auto]|].
    repeat (split; [reflexivity|]). eexists. split; [reflexivity|]. simpl. auto.
  - split.
    { split; [intros r0 b Hr Hb; apply (G1 r0 b); simpl; auto|]. split; auto.
      intros _ b Hb. apply G1; simpl; auto. }
    repeat (split; [reflexivity|]). eexists. split; [reflexivity|]. simpl.
    split; auto. intros b Hb. apply G1; simpl; auto.
Qed.

Lemma rev_last {A} (l : list A) x t : rev l = x :: t -> In x l.
Proof. intros H. apply in_rev. rewrite H. simpl; auto. Qed.

Lemma add_baseline_spec b st t : (b < nbl)%nat -> good st -> st_cur name st <> None ->
  row_end (make_row b (st_bbs name st b) (st_rownr name st)) = t -> bounded t st ->
  exists st', add_baseline b st = Some st' /\ good st' /\ st_cur name st' <> None /\
    (forall b', st_bbs name st' b' = if (b' =? b)%nat then bb_clear name else st_bbs name st b') /\
    all_rows st' = all_rows st ++ [make_row b (st_bbs name st b) (st_rownr name st)] /\
    st_rownr name st' = S (st_rownr name st).
Proof.
  intros Hb Hg Hc Ht Hbd. unfold BdaAverageModel.add_baseline.
  destruct (st_cur name st) as [cur|] eqn:Ec; [|congruence].
  set (row := make_row b (st_bbs name st b) (st_rownr name st)) in *.
  assert (Hord : forall back l rows, rev rows = back :: l -> incl rows (all_rows st) ->
     qltb (o_time row + o_interval row / (1 + 1)) (o_time back - o_interval back / (1 + 1) + eps) = false).
  { intros back l rows E Hincl. apply qltb_false. apply rev_last in E. apply Hincl in E.
    apply Hbd in E. unfold row_start in E. unfold row_end in Ht. clear -E Ht Heps. rewrite Ht.
    set (x := o_time back - o_interval back / (1 + 1)) in *. clearbody x. clear Ht. qclra. }
  destruct (Nat.ltb_spec (ob_remaining name cur) (nout b * ncorr)) as [Hlt|Hge].
  - set (st0 := MkState name (st_bbs name st) None (st_requests name st) (st_rownr name st)
                  (st_sent name st ++ [ob_rows name cur])).
    assert (Hne : ob_rows name cur <> []).
    { intros E. destruct Hg as (_ & _ & G3). rewrite Ec in G3. specialize (G3 E b Hb). lia. }
    assert (Hg0 : good st0).
    { destruct Hg as (G1 & G2 & G3). unfold good, st0; simpl. repeat split; auto.
      apply Forall_app; auto. }
    assert (Ha0 : all_rows st0 = all_rows st).
    { unfold all_rows, st0. simpl. rewrite Ec, concat_app. simpl. now rewrite !app_nil_r. }
    destruct (init_buffer_spec st0 Hg0 eq_refl) as (G & B & R & A & Sn & c & C1 & C2 & C3).
    rewrite C1, C2. simpl.
    destruct (Nat.ltb_spec (ob_remaining name c) (nout b * ncorr)) as [Hl|Hl].
    { specialize (C3 b Hb). lia. }
    eexists. split; [reflexivity|].
    split. { destruct G as (G1 & G2 & G3). unfold good; simpl. repeat split; auto. discriminate. }
    simpl. split; [discriminate|]. rewrite B, R. simpl.
    split; [reflexivity|]. split; [|reflexivity].
    unfold all_rows in *; simpl. rewrite Sn, <- Ha0. simpl. now rewrite app_nil_r.
  - rewrite Ec.
    replace (match rev (ob_rows name cur) with [] => false | back :: _ => _ end) with false.
    2:{ destruct (rev (ob_rows name cur)) as [|back l] eqn:Er; auto. symmetry.
        eapply Hord; [exact Er|]. unfold all_rows. rewrite Ec. intros x Hx. apply in_or_app; auto. }
    destruct (Nat.ltb_spec (ob_remaining name cur) (nout b * ncorr)) as [Hl|Hl]; [lia|].
    eexists. split; [reflexivity|].
    split. { destruct Hg as (G1 & G2 & G3). unfold good; simpl. repeat split; auto.
             intros E. destruct (ob_rows name cur); discriminate. }
    simpl. split; [discriminate|]. split; [reflexivity|]. split; [|reflexivity].
    unfold all_rows; simpl. rewrite Ec. now rewrite app_assoc.
Qed.

(** Rows made for a list of windows, numbered from [k]. *)
Fixpoint rows_from (k : nat) (l : list (nat * list slot)) : list orow :=
  match l with
  | [] => []
  | (b, w) :: l' => make_row b (bb_of b w) k :: rows_from (S k) l'
  end.

Lemma rows_from_app l1 : forall k l2,
  rows_from k (l1 ++ l2) = rows_from k l1 ++ rows_from (k + List.length l1) l2.
Proof.
  induction l1 as [|[b w] l1 IH]; intros k l2; simpl.
  - now rewrite Nat.add_0_r.
  - rewrite IH. do 3 f_equal. lia.
Qed.

(** Start and end of the row of a window in a regular series. *)
Variable t0 : Qc.
Definition edge (n : nat) : Qc := t0 - dt / (1 + 1) + qn n * dt.

Lemma row_edges b w k s0 i : hd_error w = Some s0 -> s_time s0 = t0 + qn i * dt ->
  row_start (make_row b (bb_of b w) k) = edge i /\
  row_end (make_row b (bb_of b w) k) = edge (i + List.length w).
Proof.
  intros Hh Ht. pose proof (bb_of_spec b w) as (I1 & I2 & I3 & I4 & I5 & I6).
  specialize (I4 s0 Hh).
  assert (E : row_start (make_row b (bb_of b w) k) = edge i).
  { unfold row_start, edge, BdaAverageModel.make_row; simpl. rewrite I4, Ht. ring. }
  split; auto.
  assert (E2 : row_end (make_row b (bb_of b w) k) =
               row_start (make_row b (bb_of b w) k) + qn (List.length w) * dt).
  { unfold row_start, row_end, BdaAverageModel.make_row; simpl. rewrite I2. field. discriminate. }
  rewrite E2, E. unfold edge. rewrite qn_plus. ring.
Qed.

(** Window in progress after [slots]. *)
Definition cur_win (b : nat) (slots : list slot) : list slot :=
  last_n (List.length slots mod tf b) slots.

Lemma last_n_all {A} (l : list A) n : (List.length l <= n)%nat -> last_n n l = l.
Proof. intros H. unfold last_n. replace (List.length l - n)%nat with 0%nat by lia. reflexivity. Qed.

Lemma last_n_0 {A} (l : list A) : last_n 0 l = [].
Proof. unfold last_n. rewrite Nat.sub_0_r. apply skipn_all. Qed.

Lemma last_n_snoc {A} (l : list A) x n : (n <= List.length l)%nat -> last_n (S n) (l ++ [x]) = last_n n l ++ [x].
Proof.
  intros H. unfold last_n. rewrite app_length. simpl.
  replace (List.length l + 1 - S n)%nat with (List.length l - n)%nat by lia.
  rewrite skipn_app. replace (List.length l - n - List.length l)%nat with 0%nat by lia. reflexivity.
Qed.

Lemma last_n_length {A} (l : list A) n : (n <= List.length l)%nat -> List.length (last_n n l) = n.
Proof. intros H. unfold last_n. rewrite skipn_length. lia. Qed.

Lemma last_n_hd {A} (l : list A) n x : hd_error (last_n n l) = Some x -> nth_error l (List.length l - n) = Some x.
Proof.
  unfold last_n. generalize (List.length l - n)%nat. intros k; revert l.
  induction k; intros [|y l]; simpl; try discriminate; auto.
Qed.

Lemma mod_S_cases n m : (0 < m)%nat ->
  (S n mod m = 0 /\ n mod m = m - 1)%nat \/ (S n mod m = S (n mod m) /\ S (n mod m) < m)%nat.
Proof.
  intros H. pose proof (Nat.mod_upper_bound n m ltac:(lia)) as B.
  pose proof (Nat.div_mod n m ltac:(lia)) as E.
  destruct (Nat.eq_dec (S (n mod m)) m) as [Em|Em].
  - left. split; [|lia]. symmetry. apply (Nat.mod_unique _ _ (S (n / m))); [lia|].
    rewrite Nat.mul_succ_r. lia.
  - right. split; [|lia]. symmetry. apply (Nat.mod_unique _ _ (n / m)); [lia|]. lia.
Qed.

(** State while processing the slot after [slots]: baselines below [j] are done. *)
Definition mid (slots : list slot) (s : slot) (sched : list (nat * list slot)) (j : nat) (st : state) : Prop :=
  good st /\ st_cur name st <> None /\
  (forall b, (b < nbl)%nat -> st_bbs name st b =
     bb_of b (if (b <? j)%nat then cur_win b (slots ++ [s]) else cur_win b slots)) /\
  (let new := map (fun b => (b, last_n (tf b) (slots ++ [s])))
                (filter (fun b => S (List.length slots) mod tf b =? 0)%nat (seq 0 j)) in
   all_rows st = rows_from 0 (sched ++ new) /\ st_rownr name st = List.length (sched ++ new)) /\
  bounded (edge (S (List.length slots))) st.

Lemma process_baseline_mid slots s sched j st :
  (j < nbl)%nat -> regular t0 (slots ++ [s]) ->
  mid slots s sched j st ->
  exists st', process_baseline s (Some st) j = Some st' /\ mid slots s sched (S j) st'.
Proof.
  intros Hj Hreg (Hg & Hc & Hbb & (Hrows & Hnr) & Hbd).
  unfold BdaAverageModel.process_baseline, bind. cbv beta.
  assert (Eb : st_bbs name st j = bb_of j (cur_win j slots))
    by (rewrite (Hbb j Hj), Nat.ltb_irrefl; reflexivity).
  rewrite Eb, <- bb_of_snoc. cbv zeta.
  set (n := List.length slots) in *.
  pose proof (Htf j Hj) as Htfj.
  assert (Hmodle : (n mod tf j <= n)%nat) by (apply Nat.mod_le; lia).
  assert (Hlen : List.length (cur_win j slots) = (n mod tf j)%nat) by (apply last_n_length; exact Hmodle).
  assert (Hwin : cur_win j slots ++ [s] = last_n (S (n mod tf j)) (slots ++ [s])).
  { unfold cur_win. fold n. symmetry. apply last_n_snoc. exact Hmodle. }
  pose proof (bb_of_spec j (cur_win j slots ++ [s])) as (Hta & _).
  rewrite Hta, app_length, Hlen. simpl (List.length [s]).
  set (new := fun j => map (fun b => (b, last_n (tf b) (slots ++ [s])))
                (filter (fun b => S n mod tf b =? 0)%nat (seq 0 j))) in *.
  assert (Hnew : new (S j) = new j ++ if (S n mod tf j =? 0)%nat then [(j, last_n (tf j) (slots ++ [s]))] else []).
  { unfold new. rewrite seq_S, filter_app, map_app. simpl. destruct (S n mod tf j =? 0)%nat; reflexivity. }
  destruct (mod_S_cases n (tf j) Htfj) as [[Hm1 Hm2]|[Hm1 Hm2]].
  - (* complete *)
    replace (n mod tf j + 1 =? tf j)%nat with true by (symmetry; apply Nat.eqb_eq; lia).
    match goal with |- context [add_baseline j ?x] => set (st1 := x) end.
    assert (Hfull : cur_win j slots ++ [s] = last_n (tf j) (slots ++ [s])).
    { rewrite Hwin. f_equal. lia. }
    destruct (hd_error (cur_win j slots ++ [s])) as [s0|] eqn:Ehd.
    2:{ destruct (cur_win j slots); discriminate. }
    assert (Hs0 : s_time s0 = t0 + qn (S n - tf j) * dt).
    { rewrite Hfull in Ehd. apply last_n_hd in Ehd. apply Hreg in Ehd. rewrite app_length in Ehd.
      simpl in Ehd. fold n in Ehd. rewrite Nat.add_1_r in Ehd. exact Ehd. }
    assert (Hrow : st_bbs name st1 j = bb_of j (cur_win j slots ++ [s])).
    { unfold st1; simpl. now rewrite Nat.eqb_refl. }
    destruct (row_edges j _ (st_rownr name st1) s0 _ Ehd Hs0) as [Hst Hen].
    destruct (add_baseline_spec j st1 (edge (S n))) as (st' & E & G & C & B & R & N).
    + exact Hj.
    + exact Hg.
    + exact Hc.
    + rewrite Hrow, Hen. f_equal. rewrite app_length, Hlen. change (List.length [s]) with 1%nat. lia.
    + exact Hbd.
    + exists st'. split; [exact E|]. unfold mid. split; [exact G|]. split; [exact C|].
      split.
      { intros b Hb. rewrite B. destruct (Nat.eqb_spec b j) as [->|Hne].
        - replace (j <? S j)%nat with true by (symmetry; apply Nat.ltb_lt; lia).
          unfold cur_win. rewrite app_length. simpl. fold n. rewrite Nat.add_1_r, Hm1, last_n_0. reflexivity.
        - unfold st1; simpl. destruct (Nat.eqb_spec b j); [congruence|]. rewrite (Hbb b Hb).
          destruct (Nat.ltb_spec b j), (Nat.ltb_spec b (S j)); auto; lia. }
      split.
      { fold n. fold (new (S j)). rewrite Hnew, Hm1, Nat.eqb_refl. rewrite app_assoc.
        split.
        - rewrite R, rows_from_app, Hrow. change (all_rows st1) with (all_rows st). rewrite Hrows.
          fold n. fold (new j). f_equal. simpl. rewrite Hfull. f_equal. unfold st1; simpl. f_equal. rewrite Hnr. reflexivity.
        - rewrite N. change (st_rownr name st1) with (st_rownr name st). rewrite Hnr. fold (new j).
          rewrite !app_length. change (List.length [(j, last_n (tf j) (slots ++ [s]))]) with 1%nat. lia. }
      { intros r Hr. rewrite R in Hr. apply in_app_iff in Hr as [Hr|[<-|[]]]; [exact (Hbd r Hr)|].
        rewrite Hrow, Hst. unfold edge. fold n. rewrite qn_S.
        assert (Hle : qn (S n - tf j) <= qn n) by (apply qn_le; lia).
        assert (Hmul : qn (S n - tf j) * dt <= qn n * dt).
        { apply Qcmult_le_compat_r; auto. }
        set (u := qn (S n - tf j) * dt) in *. clearbody u.
        replace ((qn n + 1) * dt) with (qn n * dt + dt) by ring.
        set (v := qn n * dt) in *. clearbody v. set (h := dt / (1 + 1)) in *. clearbody h. qclra. }
  - replace (n mod tf j + 1 =? tf j)%nat with false by (symmetry; apply Nat.eqb_neq; lia).
    eexists. split; [reflexivity|]. unfold mid.
    split; [exact Hg|]. split; [exact Hc|].
    split.
    { intros b Hb. cbn [st_bbs]. destruct (Nat.eqb_spec b j) as [->|Hne].
      - replace (j <? S j)%nat with true by (symmetry; apply Nat.ltb_lt; lia).
        f_equal. rewrite Hwin. unfold cur_win. rewrite app_length. simpl. fold n. rewrite Nat.add_1_r.
        now rewrite Hm1.
      - rewrite (Hbb b Hb). destruct (Nat.ltb_spec b j), (Nat.ltb_spec b (S j)); auto; lia. }
    split.
    { fold n. fold (new (S j)). rewrite Hnew.
      replace (S n mod tf j =? 0)%nat with false by (symmetry; apply Nat.eqb_neq; lia).
      rewrite app_nil_r. split; auto. }
    exact Hbd.
Qed.

Lemma fold_bind_none {A} (f : option state -> A -> option state) l :
  (forall x, f None x = None) -> fold_left f l None = None.
Proof. intros H. induction l; simpl; auto. now rewrite H. Qed.

Lemma process_loop slots s sched : regular t0 (slots ++ [s]) ->
  forall k j st, (j + k <= nbl)%nat -> mid slots s sched j st ->
  exists st', fold_left (process_baseline s) (seq j k) (Some st) = Some st' /\
    mid slots s sched (j + k)%nat st'.
Proof.
  intros Hreg. induction k; intros j st Hk Hm.
  - exists st. rewrite Nat.add_0_r. auto.
  - destruct (process_baseline_mid slots s sched j st ltac:(lia) Hreg Hm) as (st1 & E1 & M1).
    destruct (IHk (S j) st1 ltac:(lia) M1) as (st2 & E2 & M2).
    exists st2. cbn [seq fold_left]. rewrite E1. split; [exact E2|].
    now rewrite Nat.add_succ_r.
Qed.

Definition sched1 (slots : list slot) : list (nat * list slot) :=
  flat_map (fun t => map (fun b => (b, last_n (tf b) (firstn (S t) slots)))
                       (filter (fun b => S t mod tf b =? 0)%nat (seq 0 nbl)))
           (seq 0 (List.length slots)).

Lemma sched1_snoc slots s :
  sched1 (slots ++ [s]) = sched1 slots ++
    map (fun b => (b, last_n (tf b) (slots ++ [s])))
        (filter (fun b => S (List.length slots) mod tf b =? 0)%nat (seq 0 nbl)).
Proof.
  unfold sched1. rewrite app_length, Nat.add_1_r, seq_S, flat_map_app. f_equal.
  - rewrite !flat_map_concat_map. f_equal. apply map_ext_in. intros t Ht. apply in_seq in Ht.
    apply map_ext. intros b. f_equal. f_equal. rewrite firstn_app.
    replace (S t - List.length slots)%nat with 0%nat by lia. apply app_nil_r.
  - cbn [flat_map]. rewrite app_nil_r. apply map_ext. intros b. do 2 f_equal.
    rewrite firstn_all2; auto. rewrite app_length. simpl. lia.
Qed.

Definition inv (slots : list slot) (st : state) : Prop :=
  good st /\
    (forall b, (b < nbl)%nat -> st_bbs name st b = bb_of b (cur_win b slots)) /\
    all_rows st = rows_from 0 (sched1 slots) /\ st_rownr name st = List.length (sched1 slots) /\
    bounded (edge (List.length slots)) st.

Lemma edge_S n : edge (S n) = edge n + dt.
Proof. unfold edge. rewrite qn_S. ring. Qed.

Lemma process_inv slots s st : regular t0 (slots ++ [s]) -> inv slots st ->
  exists st', process (Some st) s = Some st' /\ inv (slots ++ [s]) st'.
Proof.
  intros Hreg (Hg & Hbb & Hr & Hn & Hbd).
  unfold BdaAverageModel.process, bind at 1. cbv beta.
  set (st0 := match st_cur name st with None => init_buffer name pool st | Some _ => st end).
  assert (H0 : mid slots s (sched1 slots) 0 st0).
  { assert (Hx : good st0 /\ st_cur name st0 <> None /\ st_bbs name st0 = st_bbs name st /\
    st_rownr name st0 = st_rownr name st /\ all_rows st0 = all_rows st).
    { unfold st0. destruct (st_cur name st) eqn:E.
      - repeat split; auto; try apply Hg. congruence.
      - destruct (init_buffer_spec st Hg E) as (G & B & R & A & _ & c & C & _).
        split; [exact G|]. split; [congruence|]. auto. }
    destruct Hx as (X1 & X2 & X3 & X4 & X5).
    split; [exact X1|]. split; [exact X2|]. rewrite X3.
    split; [intros b Hb; rewrite Hbb by auto; reflexivity|].
    split. { simpl. rewrite app_nil_r, X5, X4. auto. }
    intros r Hin. rewrite X5 in Hin. apply Hbd in Hin. rewrite edge_S.
    set (u := row_start r) in *. set (v := edge (List.length slots)) in *. clearbody u v.
    clear -Hin Hdt. qclra. }
  destruct (process_loop slots s (sched1 slots) Hreg nbl 0 st0 ltac:(lia) H0) as (st1 & E1 & M1).
  rewrite E1. unfold bind. rewrite Nat.add_0_l in M1.
  destruct M1 as (G1 & C1 & B1 & (R1 & N1) & D1).
  rewrite <- sched1_snoc in R1, N1.
  assert (Hinv : inv (slots ++ [s]) st1).
  { split; [exact G1|]. split.
    { intros b Hb. rewrite B1 by auto. destruct (Nat.ltb_spec b nbl); [reflexivity|lia]. }
    split; [exact R1|]. split; [exact N1|]. rewrite app_length, Nat.add_1_r. exact D1. }
  destruct (st_cur name st1) as [cur|] eqn:Ec; [|congruence].
  destruct (Nat.eqb_spec (ob_remaining name cur) 0) as [Hz|Hz]; [|eauto].
  eexists. split; [reflexivity|].
  destruct Hinv as (G & B & R & N & D).
  assert (Ha : forall bb rq nr, all_rows (MkState name bb None rq nr (st_sent name st1 ++ [ob_rows name cur])) = all_rows st1).
  { intros. unfold all_rows. simpl. rewrite Ec, concat_app. simpl. now rewrite !app_nil_r. }
  split.
  { destruct G as (Ga & Gb & Gc). split; [exact Ga|]. split; [|exact I].
    apply Forall_app. split; [exact Gb|]. constructor; [|constructor].
    intros E. rewrite Ec in Gc. specialize (Gc E 0%nat Hnbl).
    pose proof (Hnout 0 Hnbl). nia. }
  split; [exact B|]. split; [rewrite Ha; exact R|]. split; [exact N|].
  intros r Hin. rewrite Ha in Hin. auto.
Qed.

Lemma regular_prefix slots more : regular t0 (slots ++ more) -> regular t0 slots.
Proof.
  intros H i s Hi. apply H. rewrite nth_error_app1; auto. apply nth_error_Some. congruence.
Qed.

Lemma process_all slots : regular t0 slots ->
  exists st, fold_left process slots (Some (init name reqs)) = Some st /\ inv slots st.
Proof.
  induction slots as [|s slots IH] using rev_ind; intros Hreg.
  - exists (init name reqs). split; [reflexivity|].
    split; [split; [exact Hreqs|split; [constructor|exact I]]|].
    split; [intros b Hb; unfold cur_win; now rewrite last_n_all by (simpl; lia)|].
    split; [reflexivity|]. split; [reflexivity|]. intros r [].
  - destruct IH as (st & E & Hi); [eapply regular_prefix; eauto|].
    rewrite fold_left_app, E. cbn [fold_left]. apply process_inv; auto.
Qed.

(** ** finish *)
Definition fin (slots : list slot) (j : nat) (st : state) : Prop :=
  good st /\
    (forall b, (j <= b < nbl)%nat -> st_bbs name st b = bb_of b (cur_win b slots)) /\
    (let sch := sched1 slots ++ map (fun b => (b, last_n (List.length slots mod tf b) slots))
      (filter (fun b => negb (List.length slots mod tf b =? 0)%nat) (seq 0 j)) in
   all_rows st = rows_from 0 sch /\ st_rownr name st = List.length sch) /\
    bounded (edge (List.length slots)) st.

Lemma finish_baseline_fin slots j st : (j < nbl)%nat -> regular t0 slots -> fin slots j st ->
  exists st', finish_baseline (Some st) j = Some st' /\ fin slots (S j) st'.
Proof.
  intros Hj Hreg (Hg & Hbb & (Hr & Hnr) & Hbd).
  unfold BdaAverageModel.finish_baseline, bind.
  pose proof (Htf j Hj) as Htfj. set (n := List.length slots) in *.
  assert (Hmodle : (n mod tf j <= n)%nat) by (apply Nat.mod_le; lia).
  assert (Hlen : List.length (cur_win j slots) = (n mod tf j)%nat) by (apply last_n_length; exact Hmodle).
  rewrite (Hbb j ltac:(lia)).
  pose proof (bb_of_spec j (cur_win j slots)) as (Hta & _). rewrite Hta, Hlen.
  set (new := fun j => map (fun b => (b, last_n (n mod tf b) slots))
                (filter (fun b => negb (n mod tf b =? 0)%nat) (seq 0 j))) in *.
  assert (Hnew : new (S j) = new j ++ if (n mod tf j =? 0)%nat then [] else [(j, cur_win j slots)]).
  { unfold new. rewrite seq_S, filter_app, map_app. simpl. destruct (n mod tf j =? 0)%nat; reflexivity. }
  destruct (Nat.eqb_spec (n mod tf j) 0) as [Hz|Hz].
  - exists st. split; [reflexivity|]. split; [exact Hg|].
    split; [intros b Hb; apply Hbb; lia|].
    split; [|exact Hbd]. fold n. fold (new (S j)). rewrite Hnew, app_nil_r. auto.
  - set (st0 := match st_cur name st with None => init_buffer name pool st | Some _ => st end).
    assert (Hx : good st0 /\ st_cur name st0 <> None /\ st_bbs name st0 = st_bbs name st /\
    st_rownr name st0 = st_rownr name st /\ all_rows st0 = all_rows st).
    { unfold st0. destruct (st_cur name st) eqn:E.
      - repeat split; auto; try apply Hg. congruence.
      - destruct (init_buffer_spec st Hg E) as (G & B & R & A & _ & c & C & _).
        split; [exact G|]. split; [congruence|]. auto. }
    destruct Hx as (X1 & X2 & X3 & X4 & X5).
    destruct (hd_error (cur_win j slots)) as [s0|] eqn:Ehd.
    2:{ destruct (cur_win j slots); [simpl in Hlen; lia|discriminate]. }
    assert (Hs0 : s_time s0 = t0 + qn (n - n mod tf j) * dt).
    { unfold cur_win in Ehd. apply last_n_hd in Ehd. apply Hreg in Ehd. exact Ehd. }
    destruct (row_edges j _ (st_rownr name st0) s0 _ Ehd Hs0) as [Hst Hen].
    assert (Hrow : st_bbs name st0 j = bb_of j (cur_win j slots)) by (rewrite X3; apply Hbb; lia).
    destruct (add_baseline_spec j st0 (edge n)) as (st' & E & G & C & B & R & N).
    + exact Hj.
    + exact X1.
    + exact X2.
    + rewrite Hrow, Hen. f_equal. rewrite Hlen. lia.
    + intros r Hin. rewrite X5 in Hin. auto.
    + exists st'. split; [exact E|]. split; [exact G|].
      split.
      { intros b Hb. rewrite B. destruct (Nat.eqb_spec b j); [lia|]. rewrite X3. apply Hbb; lia. }
      split.
      { fold n. fold (new (S j)). rewrite Hnew, app_assoc. split.
        - rewrite R, rows_from_app, Hrow, X5, Hr, X4. fold (new j). f_equal. simpl. do 2 f_equal.
          rewrite Hnr. reflexivity.
        - rewrite N, X4, Hnr. fold (new j). rewrite !app_length.
          change (List.length [(j, cur_win j slots)]) with 1%nat. lia. }
      { intros r Hin. rewrite R in Hin. apply in_app_iff in Hin as [Hin|[<-|[]]].
        - rewrite X5 in Hin. auto.
        - rewrite Hrow, Hst. fold n.
          replace (edge n) with (edge (n - n mod tf j) + qn (n mod tf j) * dt).
          + assert (Hle : 1 <= qn (n mod tf j)).
            { replace 1 with (qn 1) by reflexivity. apply qn_le. lia. }
            assert (Hmul : 1 * dt <= qn (n mod tf j) * dt) by (apply Qcmult_le_compat_r; auto).
            set (u := qn (n mod tf j) * dt) in *. set (v := edge (n - n mod tf j)) in *. clearbody u v.
            clear -Hmul. rewrite Qcmult_1_l in Hmul. qclra.
          + unfold edge. replace (qn n) with (qn (n - n mod tf j) + qn (n mod tf j)).
            * ring.
            * rewrite <- qn_plus. f_equal. lia. }
Qed.

Lemma finish_loop slots : regular t0 slots ->
  forall k j st, (j + k <= nbl)%nat -> fin slots j st ->
  exists st', fold_left finish_baseline (seq j k) (Some st) = Some st' /\ fin slots (j + k)%nat st'.
Proof.
  intros Hreg. induction k; intros j st Hk Hm.
  - exists st. rewrite Nat.add_0_r. auto.
  - destruct (finish_baseline_fin slots j st ltac:(lia) Hreg Hm) as (st1 & E1 & M1).
    destruct (IHk (S j) st1 ltac:(lia) M1) as (st2 & E2 & M2).
    exists st2. cbn [seq fold_left]. rewrite E1. split; [exact E2|].
    now rewrite Nat.add_succ_r.
Qed.

Lemma rows_from_in r l : forall k, In r (rows_from k l) ->
  exists b w k', In (b, w) l /\ r = make_row b (bb_of b w) k'.
Proof.
  induction l as [|[b w] l IH]; intros k; simpl; [tauto|].
  intros [<-|H]; [eauto 8|]. destruct (IH _ H) as (b' & w' & k' & Hin & ->). eauto 8.
Qed.

Lemma schedule_bl slots b w : In (b, w) (schedule slots) -> (b < nbl)%nat.
Proof.
  unfold BdaAverageSpec.schedule. rewrite in_app_iff, in_flat_map. intros [(t & _ & H)|H].
  - apply in_map_iff in H as (b' & [= <- _] & H). apply filter_In in H as [H _]. apply in_seq in H. lia.
  - apply in_map_iff in H as (b' & [= <- _] & H). apply filter_In in H as [H _]. apply in_seq in H. lia.
Qed.

Lemma run_exact slots : regular t0 slots ->
  exists bufs, run reqs slots = Some bufs /\ Forall (fun l => l <> []) bufs /\
    concat bufs = rows_from 0 (schedule slots).
Proof.
  intros Hreg. destruct (process_all slots Hreg) as (st & E & (Hg & Hbb & Hr & Hn & Hbd)).
  unfold BdaAverageModel.run, BdaAverageModel.finish. rewrite E.
  assert (H0 : fin slots 0 st).
  { split; [exact Hg|]. split; [intros; apply Hbb; lia|]. split; [|exact Hbd].
    simpl. rewrite app_nil_r. auto. }
  destruct (finish_loop slots Hreg nbl 0 st ltac:(lia) H0) as (st1 & E1 & (G1 & _ & (R1 & N1) & _)).
  rewrite E1. unfold bind. rewrite Nat.add_0_l in R1.
  fold (schedule slots) in R1.
  change (all_rows st1 = rows_from 0 (schedule slots)) in R1.
  destruct (st_cur name st1) as [cur|] eqn:Ec.
  - destruct (Nat.ltb_spec 0 (list_sum (map (row_size name) (ob_rows name cur)))) as [Hp|Hp].
    + eexists. split; [reflexivity|]. simpl. destruct G1 as (_ & G2 & _). split.
      * apply Forall_app. split; auto. constructor; [|constructor].
        intros E0. rewrite E0 in Hp. simpl in Hp. lia.
      * rewrite concat_app. simpl. rewrite app_nil_r. rewrite <- R1. unfold all_rows. now rewrite Ec.
    + eexists. split; [reflexivity|]. simpl. destruct G1 as (_ & G2 & _). split; [exact G2|].
      rewrite <- R1. unfold all_rows. rewrite Ec.
      destruct (ob_rows name cur) as [|r rows] eqn:Er; [now rewrite app_nil_r|]. exfalso.
      assert (Hin : In r (all_rows st1)) by (unfold all_rows; rewrite Ec, Er; apply in_or_app; simpl; auto).
      rewrite R1 in Hin. apply rows_from_in in Hin as (b & w & k & Hin & ->).
      apply schedule_bl in Hin. pose proof (Hnout b Hin). simpl in Hp. unfold row_size in Hp. simpl in Hp. nia.
  - eexists. split; [reflexivity|]. destruct G1 as (_ & G2 & _). split; [exact G2|].
    rewrite <- R1. unfold all_rows. rewrite Ec. now rewrite app_nil_r.
Qed.

Lemma rows_from_Forall2 l : (forall b w, In (b, w) l -> (b < nbl)%nat) -> forall k,
  Forall2 (fun r bw => row_is_average (fst bw) (snd bw) r) (rows_from k l) l.
Proof.
  induction l as [|[b w] l IH]; intros Hb k; simpl; constructor.
  - simpl. apply make_row_average. apply Hnout. apply (Hb b w). simpl; auto.
  - apply IH. intros; apply (Hb b0 w0); simpl; auto.
Qed.

Lemma rows_from_uvw l : (forall b w, In (b, w) l -> (b < nbl)%nat) -> forall k,
  Forall2 (fun r bw => (0 < baseline_weight (snd bw) (fst bw) -> uvw_is_mean (fst bw) (snd bw) r) /\
    (baseline_weight (snd bw) (fst bw) <= 0 ->
      forall i, o_uvw r i = qsum (map (fun s => s_uvw s (fst bw) i) (snd bw)))) (rows_from k l) l.
Proof.
  induction l as [|[b w] l IH]; intros Hb k; simpl; constructor.
  - simpl. apply make_row_uvw. apply Hnout. apply (Hb b w). simpl; auto.
  - apply IH. intros; apply (Hb b0 w0); simpl; auto.
Qed.

Lemma rows_from_nr l : forall k, map o_rownr (rows_from k l) = seq k (List.length l).
Proof. induction l as [|[b w] l IH]; intros k; simpl; auto. now rewrite IH. Qed.

Lemma run_averages slots : regular t0 slots ->
  exists bufs, run reqs slots = Some bufs /\ Forall (fun l => l <> []) bufs /\
    map o_rownr (concat bufs) = seq 0 (List.length (schedule slots)) /\
    Forall2 (fun r bw => row_is_average (fst bw) (snd bw) r) (concat bufs) (schedule slots) /\
    Forall2 (fun r bw => (0 < baseline_weight (snd bw) (fst bw) -> uvw_is_mean (fst bw) (snd bw) r) /\
    (baseline_weight (snd bw) (fst bw) <= 0 ->
      forall i, o_uvw r i = qsum (map (fun s => s_uvw s (fst bw) i) (snd bw)))) (concat bufs) (schedule slots).
Proof.
  intros Hreg. destruct (run_exact slots Hreg) as (bufs & E & Hne & Hc).
  exists bufs. split; [exact E|]. split; [exact Hne|]. rewrite Hc.
  split; [apply rows_from_nr|].
  split; [apply rows_from_Forall2|apply rows_from_uvw]; intros b w; apply schedule_bl.
Qed.

(** ** The windows of one baseline are consecutive and cover the input. *)
Definition windows_of (b : nat) (l : list (nat * list slot)) : list (list slot) :=
  map snd (filter (fun bw => fst bw =? b)%nat l).

Lemma filter_map_b (p : nat -> bool) (g : nat -> list slot) b : (b < nbl)%nat ->
  windows_of b (map (fun b => (b, g b)) (filter p (seq 0 nbl))) = if p b then [g b] else [].
Proof.
  intros Hb. unfold windows_of.
  assert (H : forall l, NoDup l ->
     map snd (filter (fun bw => fst bw =? b)%nat (map (fun b => (b, g b)) (filter p l))) =
     if existsb (Nat.eqb b) l then (if p b then [g b] else []) else []).
  { induction l as [|x l IH]; intros Hnd; simpl; auto. inversion Hnd; subst.
    specialize (IH H2). rewrite (Nat.eqb_sym b x). destruct (Nat.eqb_spec x b) as [->|Hne]; simpl.
    - assert (Hex : existsb (Nat.eqb b) l = false).
      { apply not_true_is_false. intros Hx. apply existsb_exists in Hx as (y & Hy & E).
        apply Nat.eqb_eq in E. subst. contradiction. }
      rewrite Hex in IH. destruct (p b); simpl; auto. rewrite Nat.eqb_refl. simpl. now rewrite IH.
    - destruct (p x); simpl; auto. destruct (Nat.eqb_spec x b); [congruence|]. auto. }
  rewrite H by apply seq_NoDup.
  replace (existsb (Nat.eqb b) (seq 0 nbl)) with true; auto.
  symmetry. apply existsb_exists. exists b. split; [apply in_seq; lia|apply Nat.eqb_refl].
Qed.

Lemma windows_of_app b l1 l2 : windows_of b (l1 ++ l2) = windows_of b l1 ++ windows_of b l2.
Proof. unfold windows_of. now rewrite filter_app, map_app. Qed.

Lemma sched1_cover b slots : (b < nbl)%nat ->
  concat (windows_of b (sched1 slots)) ++ cur_win b slots = slots.
Proof.
  intros Hb. induction slots as [|s slots IH] using rev_ind.
  - unfold sched1, cur_win; simpl. now rewrite last_n_all by (simpl; lia).
  - rewrite sched1_snoc, windows_of_app, (filter_map_b _ (fun b => last_n (tf b) (slots ++ [s])) b Hb).
    pose proof (Htf b Hb) as Ht. unfold cur_win in *.
    rewrite app_length, Nat.add_1_r. set (n := List.length slots) in *.
    assert (Hmodle : (n mod tf b <= n)%nat) by (apply Nat.mod_le; lia).
    destruct (mod_S_cases n (tf b) Ht) as [[Hm1 Hm2]|[Hm1 Hm2]].
    + rewrite Hm1, last_n_0, app_nil_r, Nat.eqb_refl, concat_app. simpl. rewrite app_nil_r.
      assert (El : last_n (tf b) (slots ++ [s]) = last_n (n mod tf b) slots ++ [s]).
      { replace (tf b) with (S (n mod tf b)) at 1 by lia. apply last_n_snoc. fold n; lia. }
      rewrite El.
      rewrite app_assoc, IH. reflexivity.
    + rewrite Hm1. simpl. rewrite app_nil_r, last_n_snoc by (fold n; lia).
      rewrite app_assoc, IH. reflexivity.
Qed.

Lemma schedule_cover b slots : (b < nbl)%nat -> concat (windows_of b (schedule slots)) = slots.
Proof.
  intros Hb. unfold BdaAverageSpec.schedule. fold (sched1 slots). rewrite windows_of_app.
  rewrite (filter_map_b _ (fun b => last_n (List.length slots mod tf b) slots) b Hb).
  transitivity (concat (windows_of b (sched1 slots)) ++ cur_win b slots); [|now apply sched1_cover].
  rewrite concat_app. f_equal. unfold cur_win.
  destruct (Nat.eqb_spec (List.length slots mod tf b) 0) as [E|E]; simpl.
  - rewrite E. now rewrite last_n_0.
  - apply app_nil_r.
Qed.

Lemma schedule_windows b slots w : (b < nbl)%nat -> In (b, w) (schedule slots) ->
  (0 < List.length w <= tf b)%nat.
Proof.
  intros Hb. pose proof (Htf b Hb) as Ht.
  unfold BdaAverageSpec.schedule. rewrite in_app_iff, in_flat_map. intros [(t & Hin & H)|H].
  - apply in_map_iff in H as (b' & E & H). apply filter_In in H as [_ H].
    pose proof (f_equal fst E) as E1. pose proof (f_equal snd E) as E2. cbn [fst snd] in E1, E2. subst b' w.
    apply Nat.eqb_eq in H. apply in_seq in Hin.
    assert (tf b <= S t)%nat. { apply Nat.mod_divide in H; [|lia]. apply Nat.divide_pos_le in H; lia. }
    rewrite last_n_length; [lia|]. rewrite firstn_length. lia.
  - apply in_map_iff in H as (b' & [= -> <-] & H). apply filter_In in H as [_ H].
    apply negb_true_iff, Nat.eqb_neq in H.
    pose proof (Nat.mod_upper_bound (List.length slots) (tf b) ltac:(lia)).
    rewrite last_n_length; [lia|]. apply Nat.mod_le; lia.
Qed.

(** ** Conservation of weight *)
Lemma bw_concat b ws : qsum (map (fun w => baseline_weight w b) ws) = baseline_weight (concat ws) b.
Proof.
  induction ws as [|w ws IH]; simpl; [reflexivity|]. rewrite IH.
  unfold BdaAverageSpec.baseline_weight. now rewrite map_app, qsum_app.
Qed.

Lemma rows_from_weight b l : (forall b w, In (b, w) l -> (b < nbl)%nat) -> forall k,
  qsum (flat_map (fun r => o_weights r) (filter (fun r => o_baseline r =? b)%nat (rows_from k l)))
  = qsum (map (fun w => baseline_weight w b) (windows_of b l)).
Proof.
  unfold windows_of. induction l as [|[b' w] l IH]; intros Hb k; simpl; auto.
  destruct (Nat.eqb_spec b' b) as [->|Hne]; simpl.
  - rewrite qsum_app, IH by (intros; apply (Hb b0 w0); simpl; auto).
    f_equal. apply weights_total. apply Hnout. apply (Hb b w). simpl; auto.
  - apply IH. intros; apply (Hb b0 w0); simpl; auto.
Qed.

Lemma run_conserves slots b : regular t0 slots -> (b < nbl)%nat ->
  exists bufs, run reqs slots = Some bufs /\
    qsum (flat_map (fun r => o_weights r) (filter (fun r => o_baseline r =? b)%nat (concat bufs)))
    = baseline_weight slots b.
Proof.
  intros Hreg Hb. destruct (run_exact slots Hreg) as (bufs & E & Hne & Hc).
  exists bufs. split; [exact E|]. rewrite Hc, rows_from_weight by (intros b0 w; apply schedule_bl).
  rewrite bw_concat, schedule_cover by auto. reflexivity.
Qed.
End Proofs.
