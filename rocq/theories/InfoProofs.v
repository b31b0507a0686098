From Coq Require Import QArith Qround Qcanon List Bool Arith ZArith Lia Lqa.
From Verif Require Import QcUtil AverageModel AverageSpec AverageProofs BdaExpandSpec BdaExpandProofs InfoModel InfoSpec.
Import ListNotations.
Open Scope Qc_scope.

(** * Channels *)

Lemma range_part {A} start n (l : list A) : (start + n <= length l)%nat -> part_of start n l (range start n l).
Proof.
  intros H. unfold part_of, range. rewrite firstn_length, skipn_length, Nat.min_l by lia. split; auto.
  intros i Hi.
  assert (G : forall (l : list A) n i, (i < n)%nat -> nth_error (firstn n l) i = nth_error l i).
  { clear. induction l as [|a l IH]; intros n i Hi; [now rewrite firstn_nil|].
    destruct n; [lia|]. destruct i; auto. simpl. apply IH. lia. }
  rewrite G by auto. clear.
  revert l. induction start as [|s IH]; intros l; auto. destruct l; simpl; auto. now destruct i.
Qed.

Lemma select_ok inf start n inf' : info_ok inf -> (0 <= start)%Z -> (0 <= n)%Z ->
  select_channels inf start n = Ok inf' ->
  let s := Z.to_nat start in let k := Z.to_nat n in
  (s + k <= i_nchan inf)%nat /\
  i_nchan inf' = k /\ part_of s k (i_freqs inf) (i_freqs inf') /\ part_of s k (i_widths inf) (i_widths inf') /\
  part_of s k (i_resol inf) (i_resol inf') /\ part_of s k (i_effbw inf) (i_effbw inf') /\
  i_startchan inf' = (i_startchan inf + s)%nat.
Proof.
  intros ((L1 & L2 & L3 & L4) & _) Hs Hn. unfold select_channels.
  destruct ((start =? 0)%Z && (n =? Z.of_nat (i_nchan inf))%Z) eqn:E0.
  - intros E. assert (inf' = inf) by congruence. subst inf'.
    apply andb_true_iff in E0. destruct E0 as [E1 E2]. apply Z.eqb_eq in E1, E2. subst start n.
    cbv zeta. rewrite Nat2Z.id. change (Z.to_nat 0) with 0%nat.
    split; [lia|]. split; auto. unfold part_of. simpl. repeat split; auto; lia.
  - destruct (Z.ltb_spec (Z.of_nat (length (i_freqs inf))) ((start + n) mod 2 ^ 32)); [discriminate|].
    destruct (Z.ltb_spec (Z.of_nat (length (i_freqs inf))) (start + n)); [discriminate|].
    intros E. match type of E with Ok ?x = _ => assert (inf' = x) by congruence end. subst inf'. cbv zeta.
    cbn [i_nchan i_freqs i_widths i_resol i_effbw i_startchan].
    repeat split; try (apply range_part; lia); auto; lia.
Qed.

Lemma select_refuses inf start n : (0 <= start)%Z -> (0 <= n)%Z -> (start + n < 2 ^ 32)%Z ->
  info_ok inf -> (Z.of_nat (i_nchan inf) < start + n)%Z -> select_channels inf start n = Throw.
Proof.
  intros H1 H2 H3 ((L1 & _) & _) H4. unfold select_channels.
  destruct (Z.eqb_spec start 0), (Z.eqb_spec n (Z.of_nat (i_nchan inf))); simpl; try lia;
  rewrite Z.mod_small by lia; rewrite L1;
  destruct (Z.ltb_spec (Z.of_nat (i_nchan inf)) (start + n)); auto; lia.
Qed.

(** Selecting twice is selecting once. *)
Lemma range_range {A} s1 n1 s2 n2 (l : list A) : (s2 + n2 <= n1)%nat ->
  range s2 n2 (range s1 n1 l) = range (s1 + s2) n2 l.
Proof.
  intros H. unfold range.
  assert (G : forall (l : list A) a b, skipn a (firstn (a + b) l) = firstn b (skipn a l)).
  { clear. intros l a. revert l. induction a as [|a IH]; intros l b; auto. destruct l; simpl; auto. now rewrite firstn_nil. }
  replace n1 with (s2 + (n1 - s2))%nat by lia. rewrite G. rewrite firstn_firstn, Nat.min_l by lia.
  f_equal. clear. revert l. induction s1 as [|s IH]; intros l; auto. destruct l; simpl; auto. now rewrite skipn_nil.
Qed.

Lemma set_times_count inf first interval n last inf' :
  0 < interval -> about interval (last - first) (Z.of_nat n) ->
  set_times inf first last interval = Ok inf' -> i_ntime inf' = S n.
Proof.
  intros Hi [A1 A2]. unfold set_times.
  destruct (qltb last first); [discriminate|]. destruct (qleb interval 0); [discriminate|].
  assert (F : Qfloor (this ((last - first) / interval + Q2Qc (3 # 2))) = Z.of_nat (S n)).
  { apply div_bounds in A1; auto. apply div_bounds_lt in A2; auto.
    set (q := (last - first) / interval) in *. clearbody q.
    unfold Qcle in A1. unfold Qclt in A2.
    rewrite this_minus, this_qz, this_Q2Qc in A1. rewrite this_plus, this_qz, this_Q2Qc in A2.
    apply Qfloor_unique; rewrite this_plus, this_Q2Qc, Nat2Z.inj_succ; unfold Z.succ;
      rewrite inject_Z_plus; change (inject_Z 1) with 1%Q; lra. }
  rewrite F. destruct (2 ^ 32 <=? Z.of_nat (S n))%Z; [discriminate|]. rewrite Nat2Z.id.
  intros E. match type of E with Ok ?x = _ => assert (inf' = x) by congruence end. subst. reflexivity.
Qed.

Lemma set_times_total inf first last interval :
  (set_times inf first last interval = Throw <-> last < first \/ interval <= 0) /\
  (forall inf', set_times inf first last interval = Ok inf' ->
     i_first inf' = first /\ i_last inf' = last /\ i_interval inf' = interval /\
     i_freqs inf' = i_freqs inf /\ i_nchan inf' = i_nchan inf) /\
  (forall n, 0 < interval -> first <= last -> about interval (last - first) (Z.of_nat n) -> (Z.of_nat (S n) < 2 ^ 32)%Z ->
     exists inf', set_times inf first last interval = Ok inf' /\ i_ntime inf' = S n).
Proof.
  assert (A : set_times inf first last interval = Throw <-> last < first \/ interval <= 0).
  { unfold set_times. destruct (qltb_spec last first) as [H|H]; [tauto|]. destruct (qleb_spec interval 0) as [G|G]; [tauto|].
    cbv zeta. destruct (2 ^ 32 <=? _)%Z; split; intros; try discriminate; tauto. }
  split; [exact A|]. split.
  - intros inf'. unfold set_times. destruct (qltb last first); [discriminate|]. destruct (qleb interval 0); [discriminate|].
    cbv zeta. destruct (2 ^ 32 <=? _)%Z; [discriminate|]. intros E. match type of E with Ok ?x = _ => assert (inf' = x) by congruence end. subst. auto.
  - intros n Hi Hl Hn Hb. destruct (set_times inf first last interval) as [i| |] eqn:E.
    + exists i. split; [reflexivity|]. now apply (set_times_count inf first interval n last).
    + exfalso. destruct (proj1 A eq_refl) as [H|H]; [now apply Qclt_not_le in H|now apply Qcle_not_lt in H].
    + exfalso. revert E. unfold set_times. destruct (qltb last first); [discriminate|]. destruct (qleb interval 0); [discriminate|]. cbv zeta.
      assert (F : Qfloor (this ((last - first) / interval + Q2Qc (3 # 2))) = Z.of_nat (S n)).
      { destruct Hn as [A1 A2]. apply div_bounds in A1; auto. apply div_bounds_lt in A2; auto.
        set (q := (last - first) / interval) in *. clearbody q.
        unfold Qcle in A1. unfold Qclt in A2.
        rewrite this_minus, this_qz, this_Q2Qc in A1. rewrite this_plus, this_qz, this_Q2Qc in A2.
        apply Qfloor_unique; rewrite this_plus, this_Q2Qc, Nat2Z.inj_succ; unfold Z.succ;
          rewrite inject_Z_plus; change (inject_Z 1) with 1%Q; lra. }
      rewrite F. destruct (Z.leb_spec (2 ^ 32) (Z.of_nat (S n))); [lia|discriminate].
Qed.

Lemma set_channels_spec inf freqs widths resol effbw ref :
  let res := set_channels inf freqs widths resol effbw ref in
  (res = Throw <-> length widths <> length freqs \/ (resol <> [] /\ length resol <> length freqs) \/ (effbw <> [] /\ length effbw <> length freqs)) /\
  (res = Undefined -> freqs = [] /\ ref = 0) /\
  (forall inf', res = Ok inf' ->
     i_freqs inf' = freqs /\ i_widths inf' = widths /\
     i_resol inf' = (match resol with [] => widths | _ => resol end) /\
     i_effbw inf' = (match effbw with [] => widths | _ => effbw end) /\
     i_nchan inf' = length freqs /\ i_totbw inf' = qsum (i_effbw inf') /\
     (ref <> 0 -> i_reffreq inf' = ref) /\
     (ref = 0 -> forall m, (length freqs = S (2 * m)%nat -> i_reffreq inf' = nth m freqs 0) /\
                           (length freqs = (2 * S m)%nat -> i_reffreq inf' * (1 + 1) = nth m freqs 0 + nth (S m) freqs 0)) /\
     (ref = 0 -> regular freqs -> i_reffreq inf' * qn (length freqs) = qsum freqs)).
Proof.
  cbv zeta. unfold set_channels. cbv zeta.
  set (r' := match resol with [] => widths | _ => resol end). set (e' := match effbw with [] => widths | _ => effbw end).
  assert (R : length widths = length freqs -> (length r' <> length freqs <-> (resol <> [] /\ length resol <> length freqs))).
  { intros H. unfold r'. destruct resol; [tauto|]. split; [intros X; split; [discriminate|exact X]|tauto]. }
  assert (E : length widths = length freqs -> (length e' <> length freqs <-> (effbw <> [] /\ length effbw <> length freqs))).
  { intros H. unfold e'. destruct effbw; [tauto|]. split; [intros X; split; [discriminate|exact X]|tauto]. }
  clearbody r' e'.
  destruct (Nat.eqb_spec (length freqs) (length widths)) as [H1|H1]; cbn [negb].
  2:{ split; [split; [intros _; left; lia|reflexivity]|]. split; intros; discriminate. }
  destruct (Nat.eqb_spec (length r') (length freqs)) as [H2|H2]; cbn [negb].
  2:{ split; [split; [intros _; right; left; apply R; [lia|exact H2]|reflexivity]|]. split; intros; discriminate. }
  destruct (Nat.eqb_spec (length e') (length freqs)) as [H3|H3]; cbn [negb].
  2:{ split; [split; [intros _; right; right; apply E; [lia|exact H3]|reflexivity]|]. split; intros; discriminate. }
  assert (NT : ~ (length widths <> length freqs \/ (resol <> [] /\ length resol <> length freqs) \/ (effbw <> [] /\ length effbw <> length freqs))).
  { intros [X|[X|X]]; [lia|apply R in X; [contradiction|lia]|apply E in X; [contradiction|lia]]. }
  unfold is_zero. destruct (Qc_eq_dec ref 0) as [Hr|Hr]; cbn [andb].
  - destruct (Nat.eqb_spec (length freqs) 0) as [Hn|Hn].
    + split; [split; [discriminate|contradiction]|]. split; [intros _; split; [now apply length_zero_iff_nil|exact Hr]|]. intros; discriminate.
    + split; [split; [discriminate|contradiction]|]. split; [discriminate|].
      intros inf' X. match type of X with Ok ?x = _ => assert (inf' = x) by congruence end. subst inf'. cbn [i_freqs i_widths i_resol i_effbw i_nchan i_totbw i_reffreq].
      repeat (split; [solve [reflexivity | now rewrite qsum_fold_left, Qcplus_0_l | intros; contradiction]|]). split.
      * intros _ m. split; intros L; rewrite L.
        -- replace ((S (2 * m) - 1) / 2)%nat with m by (apply (Nat.div_unique _ _ _ 0); lia).
           replace (S (2 * m) / 2)%nat with m by (apply (Nat.div_unique _ _ _ 1); lia).
           set (x := nth m freqs 0). transitivity ((half + half) * x); [unfold half; ring|]. replace (half + half) with 1 by (apply Qc_is_canon; reflexivity). ring.
        -- replace ((2 * S m - 1) / 2)%nat with m by (apply (Nat.div_unique _ _ _ 1); lia).
           replace (2 * S m / 2)%nat with (S m) by (apply (Nat.div_unique _ _ _ 0); lia).
           transitivity ((half + half) * (nth m freqs 0 + nth (S m) freqs 0)); [ring|]. replace (half + half) with 1 by (apply Qc_is_canon; reflexivity). ring.
      * intros _ (a & d & G). rewrite (G ((length freqs - 1) / 2)%nat), (G (length freqs / 2)%nat) by (try apply Nat.div_lt; try (apply Nat.div_lt_upper_bound; lia); lia).
        assert (S1 : ((length freqs - 1) / 2 + length freqs / 2 = length freqs - 1)%nat).
        { destruct (Nat.Even_or_Odd (length freqs)) as [[k K]|[k K]]; rewrite K.
          - destruct k as [|k]; [lia|]. replace ((2 * S k - 1) / 2)%nat with k by (apply (Nat.div_unique _ _ _ 1); lia).
            replace (2 * S k / 2)%nat with (S k) by (apply (Nat.div_unique _ _ _ 0); lia). lia.
          - replace ((2 * k + 1 - 1) / 2)%nat with k by (apply (Nat.div_unique _ _ _ 0); lia). replace ((2 * k + 1) / 2)%nat with k by (apply (Nat.div_unique _ _ _ 1); lia). lia. }
        assert (Q1 : qn ((length freqs - 1) / 2) + qn (length freqs / 2) = qn (length freqs) - 1).
        { rewrite <- qn_plus, S1. replace (qn (length freqs)) with (qn (S (length freqs - 1))) by (f_equal; lia). rewrite qn_S. ring. }
        assert (F : freqs = map (fun i => a + qn i * d) (seq 0 (length freqs))).
        { apply nth_ext with (d := 0) (d' := 0); [now rewrite map_length, seq_length|]. intros n Hn'. rewrite (G n Hn').
          rewrite nth_indep with (d' := a + qn 0 * d) by (now rewrite map_length, seq_length). rewrite (map_nth (fun i => a + qn i * d)), seq_nth by exact Hn'. reflexivity. }
        assert (T : qsum freqs * (1 + 1) = qn (length freqs) * (a + a + (qn (length freqs) - 1) * d)) by (rewrite F at 1; rewrite Qcmult_comm, qsum_progression; ring).
        rewrite <- Q1 in T.
        assert (T2 : half * ((a + qn ((length freqs - 1) / 2) * d + (a + qn (length freqs / 2) * d))) * qn (length freqs) = half * (qsum freqs * (1 + 1))).
        { rewrite T. ring. }
        rewrite T2. transitivity ((half + half) * qsum freqs); [ring|]. replace (half + half) with 1 by (apply Qc_is_canon; reflexivity). ring.
  - split; [split; [discriminate|contradiction]|]. split; [discriminate|].
    intros inf' X. match type of X with Ok ?x = _ => assert (inf' = x) by congruence end. subst inf'. cbn [i_freqs i_widths i_resol i_effbw i_nchan i_totbw i_reffreq].
    repeat (split; [solve [reflexivity | now rewrite qsum_fold_left, Qcplus_0_l | intros; contradiction]|]). intros; contradiction.
Qed.

(** * Antennas *)

Lemma set_nth_length {B} (l : list B) i x : length (set_nth l i x) = length l.
Proof. revert i. induction l as [|a l IH]; intros [|i]; simpl; auto. Qed.

Lemma set_nth_same {B} (l : list B) i x d : (i < length l)%nat -> nth i (set_nth l i x) d = x.
Proof. revert i. induction l as [|a l IH]; intros [|i] H; simpl in *; auto; try lia. apply IH. lia. Qed.

Lemma set_nth_other {B} (l : list B) i j x d : i <> j -> nth j (set_nth l i x) d = nth j l d.
Proof.
  revert i j. induction l as [|a l IH]; intros [|i] [|j] H; simpl; auto; try congruence.
Qed.

Lemma mark_spec bl : forall l,
  match mark l bl with
  | None => exists a b, In (a, b) bl /\ (length l <= a \/ length l <= b)%nat
  | Some l' => length l' = length l /\
      (forall a b, In (a, b) bl -> (a < length l)%nat /\ (b < length l)%nat) /\
      forall i, nth i l' false = true <-> nth i l false = true \/ exists a b, In (a, b) bl /\ (i = a \/ i = b)
  end.
Proof.
  induction bl as [|[a b] r IH]; intros l; simpl.
  - repeat split; auto; try contradiction. intros [H|(a & b & [] & _)]; auto.
  - destruct (Nat.leb_spec (length l) a), (Nat.leb_spec (length l) b); simpl; eauto 6.
    specialize (IH (set_nth (set_nth l a true) b true)).
    destruct (mark _ r) as [l'|].
    + rewrite !set_nth_length in IH. destruct IH as (I1 & I2 & I3). split; auto. split.
      * intros a' b' [E|Hin]; [inversion E; subst; auto|now apply I2].
      * intros i. rewrite I3.
        destruct (Nat.eq_dec i b) as [->|Nb].
        { rewrite set_nth_same by (rewrite set_nth_length; auto). split; intros _; [right; exists a, b; auto|left; auto]. }
        rewrite set_nth_other by auto.
        destruct (Nat.eq_dec i a) as [->|Na].
        { rewrite set_nth_same by auto. split; intros _; [right; exists a, b; auto|left; auto]. }
        rewrite set_nth_other by auto.
        split; intros [H'|(x & y & Hin & He)]; auto.
        -- right. exists x, y. auto.
        -- destruct Hin as [Hin|Hin]; [inversion Hin; subst; lia|]. right. exists x, y. auto.
    + rewrite !set_nth_length in IH. destruct IH as (x & y & Hin & He). exists x, y. auto.
Qed.

Lemma number_spec l : forall i next u m, number i next l = (u, m) ->
  length m = length l /\
  (forall j, nth j m None = None <-> nth j l false = false) /\
  (forall j k, nth j m None = Some (next + k)%nat <-> nth_error u k = Some (i + j)%nat) /\
  (forall j k, nth j m None = Some k -> (next <= k)%nat) /\
  (forall k x, nth_error u k = Some x -> (i <= x < i + length l)%nat) /\
  (forall k k' x x', nth_error u k = Some x -> nth_error u k' = Some x' -> (k < k')%nat -> (x < x')%nat).
Proof.
  induction l as [|b l IH]; intros i next u m E; simpl in E.
  - inversion E; subst. split; auto. split; [intros [|j]; simpl; tauto|].
    split; [intros [|j] [|k]; simpl; split; discriminate|].
    split; [intros [|j] k; discriminate|]. split; [intros [|k]; discriminate|].
    intros [|k] k' x x' H; discriminate H.
  - destruct b.
    + destruct (number (S i) (S next) l) as [u' m'] eqn:E'. inversion E; subst u m.
      destruct (IH _ _ _ _ E') as (I1 & I2 & I3 & I4 & I5 & I6).
      split; [simpl; auto|]. split; [|split; [|split; [|split]]].
      * intros [|j]; simpl; [split; discriminate|apply I2].
      * intros [|j] [|k]; simpl.
        -- rewrite !Nat.add_0_r. tauto.
        -- split; [intros H; inversion H; lia|]. intros H. apply I5 in H. lia.
        -- split; [intros H; apply I4 in H; lia|intros H; inversion H; lia].
        -- replace (next + S k)%nat with (S next + k)%nat by lia.
           replace (i + S j)%nat with (S i + j)%nat by lia. apply I3.
      * intros [|j] k; simpl; [intros H; inversion H; lia|]. intros H. apply I4 in H. lia.
      * intros [|k] x; simpl; [intros H; inversion H; lia|]. intros H. apply I5 in H. lia.
      * intros [|k] [|k'] x x'; simpl; intros H1 H2 H3; try lia.
        -- inversion H1; subst. apply I5 in H2. lia.
        -- apply (I6 k k'); auto. lia.
    + destruct (number (S i) next l) as [u' m'] eqn:E'. inversion E; subst u m.
      destruct (IH _ _ _ _ E') as (I1 & I2 & I3 & I4 & I5 & I6).
      split; [simpl; auto|]. split; [|split; [|split; [|split]]].
      * intros [|j]; simpl; [tauto|apply I2].
      * intros [|j] k; simpl.
        -- split; [discriminate|]. intros H. apply I5 in H. lia.
        -- replace (i + S j)%nat with (S i + j)%nat by lia. apply I3.
      * intros [|j] k; simpl; [discriminate|apply I4].
      * intros k x H. apply I5 in H. simpl. lia.
      * exact I6.
Qed.

(** The tables of a state. *)
Definition tables {A} (d : ants A) : Prop :=
  length (d_map d) = length (d_ants d) /\
  length (d_ant1 d) = length (d_ant2 d) /\
  (forall a, takes_part d a -> (a < length (d_ants d))%nat /\ nth a (d_map d) None <> None) /\
  (forall a k, nth a (d_map d) None = Some k <-> nth_error (d_used d) k = Some a) /\
  (forall k a, nth_error (d_used d) k = Some a -> takes_part d a) /\
  (forall k k' x x', nth_error (d_used d) k = Some x -> nth_error (d_used d) k' = Some x' ->
     (k < k')%nat -> (x < x')%nat).

Lemma in_combine_exists (l1 l2 : list nat) : length l1 = length l2 -> forall i,
  (exists a b, In (a, b) (combine l1 l2) /\ (i = a \/ i = b)) <-> In i l1 \/ In i l2.
Proof.
  revert l2. induction l1 as [|x l1 IH]; intros [|y l2] H i; simpl in *; try discriminate.
  - split; [intros (a & b & [] & _)|tauto].
  - assert (H' : length l1 = length l2) by lia. specialize (IH l2 H' i). split.
    + intros (a & b & [E|Hin] & Hi).
      * inversion E; subst. destruct Hi; auto.
      * assert (In i l1 \/ In i l2) by (apply IH; eauto). tauto.
    + intros [[->|Hin]|[->|Hin]].
      * exists i, y. auto.
      * destruct (proj2 IH (or_introl Hin)) as (a & b & P & Q). exists a, b. auto.
      * exists x, i. auto.
      * destruct (proj2 IH (or_intror Hin)) as (a & b & P & Q). exists a, b. auto.
Qed.

Lemma set_ant_used_tables {A} (l : list A) a1 a2 d : length a1 = length a2 ->
  set_ant_used l a1 a2 = Some d -> tables d /\ d_ants d = l /\ d_ant1 d = a1 /\ d_ant2 d = a2.
Proof.
  intros HL. unfold set_ant_used. pose proof (mark_spec (combine a1 a2) (repeat false (length l))) as M.
  destruct (mark _ _) as [l'|]; [|discriminate].
  destruct (number 0 0 l') as [u m] eqn:EN. intros E. inversion E; subst d. cbn [d_ants d_ant1 d_ant2].
  split; [|auto]. rewrite repeat_length in M. destruct M as (M1 & M2 & M3).
  destruct (number_spec _ _ _ _ _ EN) as (N1 & N2 & N3 & N4 & N5 & N6).
  assert (P : forall i, nth i l' false = true <-> In i a1 \/ In i a2).
  { intros i. rewrite M3, (in_combine_exists a1 a2 HL). split; [|tauto].
    intros [H|H]; auto. exfalso.
    destruct (Nat.lt_ge_cases i (length l)).
    - rewrite nth_repeat in H. discriminate.
    - rewrite nth_overflow in H by (rewrite repeat_length; lia). discriminate. }
  unfold tables. cbn [d_ants d_ant1 d_ant2 d_used d_map]. split; [lia|]. split; [auto|]. split; [|split; [|split]].
  - intros a Ha. unfold takes_part in Ha. cbn [d_ant1 d_ant2] in Ha. apply P in Ha. split.
    + destruct (Nat.lt_ge_cases a (length l)); auto. rewrite nth_overflow in Ha by lia. discriminate.
    + intros C. apply N2 in C. congruence.
  - intros a k. apply (N3 a k).
  - intros k a H. unfold takes_part. cbn [d_ant1 d_ant2]. apply P. apply (N3 a k) in H.
    destruct (nth a l' false) eqn:Ea; auto. apply N2 in Ea. congruence.
  - exact N6.
Qed.

Lemma sequence_Some {B C} (f : B -> option C) l : (forall x, In x l -> f x <> None) ->
  exists r, sequence (map f l) = Some r.
Proof.
  induction l as [|a l IH]; intros H; simpl; eauto.
  destruct (f a) eqn:E; [|exfalso; apply (H a); simpl; auto].
  destruct IH as [r ->]; [intros; apply H; simpl; auto|]. eauto.
Qed.

Lemma sequence_nth {B C} (f : B -> option C) l : forall r, sequence (map f l) = Some r ->
  length r = length l /\ forall i x, nth_error l i = Some x -> nth_error r i = f x.
Proof.
  induction l as [|a l IH]; intros r H; simpl in H.
  - inversion H; subst. split; auto. intros [|i] x; discriminate.
  - destruct (f a) eqn:E; [|discriminate]. destruct (sequence (map f l)) as [r'|]; [|discriminate].
    inversion H; subst r. destruct (IH r' eq_refl) as [L N]. split; [simpl; lia|].
    intros [|i] x Hx; simpl in *; [inversion Hx; subst; auto|now apply N].
Qed.

Lemma remove_unused_defined {A} (d : ants A) : tables d -> exists d', remove_unused d = Some d'.
Proof.
  intros (T1 & T2 & T3 & T4 & T5 & T6). unfold remove_unused.
  destruct (Nat.ltb_spec (length (d_used d)) (length (d_map d))); [|eauto].
  destruct (sequence_Some (nth_error (d_ants d)) (d_used d)) as [an Ean].
  { intros x Hx. apply In_nth_error in Hx. destruct Hx as [k Hk]. apply T5, T3 in Hk.
    apply nth_error_Some. tauto. }
  destruct (sequence_Some (map_ant (d_map d)) (d_ant1 d)) as [a1 E1].
  { intros x Hx. apply T3. now left. }
  destruct (sequence_Some (map_ant (d_map d)) (d_ant2 d)) as [a2 E2].
  { intros x Hx. apply T3. now right. }
  rewrite Ean, E1, E2.
  destruct (sequence_nth _ _ _ Ean) as [L0 N0].
  destruct (sequence_nth _ _ _ E1) as [L1 N1]. destruct (sequence_nth _ _ _ E2) as [L2 N2].
  unfold set_ant_used. pose proof (mark_spec (combine a1 a2) (repeat false (length an))) as M.
  destruct (mark _ _); [destruct (number 0 0 l); eauto|]. exfalso.
  rewrite repeat_length in M. destruct M as (a & b & Hin & Hb).
  assert (G : forall l r x, sequence (map (map_ant (d_map d)) l) = Some r -> In x r -> (x < length an)%nat).
  { intros l r x Er Hx. destruct (sequence_nth _ _ _ Er) as [Lr Nr].
    apply In_nth_error in Hx. destruct Hx as [i Hi].
    assert (i < length l)%nat by (rewrite <- Lr; apply nth_error_Some; congruence).
    destruct (nth_error l i) as [y|] eqn:Ey; [|apply nth_error_None in Ey; lia].
    apply Nr in Ey. rewrite Hi in Ey. symmetry in Ey. unfold map_ant in Ey. apply T4 in Ey.
    rewrite L0. apply nth_error_Some. congruence. }
  pose proof (in_combine_l _ _ _ _ Hin). pose proof (in_combine_r _ _ _ _ Hin).
  pose proof (G _ _ _ E1 H0). pose proof (G _ _ _ E2 H1). lia.
Qed.

Lemma sequence_map {B C} (f : B -> option C) (g : B -> C) l r : sequence (map f l) = Some r ->
  (forall x y, f x = Some y -> g x = y) -> r = map g l.
Proof.
  intros H Hg. revert r H. induction l as [|a l IH]; intros r H; simpl in H; [now inversion H|].
  destruct (f a) eqn:E; [|discriminate]. destruct (sequence (map f l)) as [r'|]; [|discriminate].
  inversion H; subst r. simpl. rewrite (Hg _ _ E). f_equal. now apply IH.
Qed.

Lemma all_used {A} (d : ants A) : tables d -> (length (d_map d) <= length (d_used d))%nat ->
  forall a, (a < length (d_ants d))%nat -> takes_part d a.
Proof.
  intros (T1 & T2 & T3 & T4 & T5 & T6) Hge.
  assert (Inj : NoDup (d_used d)).
  { apply NoDup_nth_error. intros i j Hi Eij.
    destruct (nth_error (d_used d) i) as [a|] eqn:Ei; [|apply nth_error_None in Ei; lia].
    symmetry in Eij. apply T4 in Ei. apply T4 in Eij. congruence. }
  assert (Inc : incl (d_used d) (seq 0 (length (d_ants d)))).
  { intros a Ha. apply In_nth_error in Ha. destruct Ha as [k Hk]. apply T5, T3 in Hk. apply in_seq. lia. }
  assert (Rev : incl (seq 0 (length (d_ants d))) (d_used d)).
  { apply NoDup_length_incl; auto. rewrite seq_length. lia. }
  intros a Ha. assert (Hin : In a (d_used d)) by (apply Rev, in_seq; lia).
  apply In_nth_error in Hin. destruct Hin as [k Hk]. now apply (T5 k).
Qed.

Theorem remove_unused_spec {A} (d d' : ants A) : tables d -> remove_unused d = Some d' ->
  tables d' /\ renumbered d d' /\ (forall k, (k < length (d_ants d'))%nat -> takes_part d' k).
Proof.
  intros T. pose proof T as (T1 & T2 & T3 & T4 & T5 & T6). unfold remove_unused.
  destruct (Nat.ltb_spec (length (d_used d)) (length (d_map d))) as [Hlt|Hge].
  - destruct (sequence (map (nth_error (d_ants d)) (d_used d))) as [an|] eqn:Ean; [|discriminate].
    destruct (sequence (map (map_ant (d_map d)) (d_ant1 d))) as [a1|] eqn:E1; [|discriminate].
    destruct (sequence (map (map_ant (d_map d)) (d_ant2 d))) as [a2|] eqn:E2; [|discriminate].
    destruct (sequence_nth _ _ _ Ean) as [L0 N0].
    destruct (sequence_nth _ _ _ E1) as [L1 N1]. destruct (sequence_nth _ _ _ E2) as [L2 N2].
    intros HS. apply set_ant_used_tables in HS; [|lia]. destruct HS as (S1 & S2 & S3 & S4).
    set (f := fun a => match nth a (d_map d) None with Some k => k | None => 0%nat end).
    assert (F : forall a, takes_part d a -> nth_error (d_used d) (f a) = Some a).
    { intros a Ha. destruct (T3 a Ha) as [_ Tn]. unfold f.
      destruct (nth a (d_map d) None) as [k|] eqn:Ek; [|congruence]. now apply T4. }
    assert (M1 : a1 = map f (d_ant1 d)).
    { eapply sequence_map; eauto. intros x y Hxy. unfold map_ant in Hxy. unfold f. now rewrite Hxy. }
    assert (M2 : a2 = map f (d_ant2 d)).
    { eapply sequence_map; eauto. intros x y Hxy. unfold map_ant in Hxy. unfold f. now rewrite Hxy. }
    assert (R : renumbered d d').
    { exists f. rewrite S2, S3, S4. split; [|split; [|split; [|split]]]; auto.
      + intros a b Ha Hb Hab. destruct (Nat.lt_trichotomy (f a) (f b)) as [H|[H|H]]; auto; exfalso.
        * pose proof (F a Ha) as Fa. pose proof (F b Hb) as Fb. rewrite H in Fa. rewrite Fa in Fb. inversion Fb. lia.
        * pose proof (T6 _ _ _ _ (F b Hb) (F a Ha) H). lia.
      + intros a Ha. destruct (T3 a Ha) as [Tl _].
        destruct (nth_error (d_ants d) a) as [x|] eqn:Ex; [|apply nth_error_None in Ex; lia].
        exists x. split; auto. rewrite <- Ex. apply N0. now apply F.
      + intros k Hk. rewrite L0 in Hk.
        destruct (nth_error (d_used d) k) as [a|] eqn:Ea; [|apply nth_error_None in Ea; lia].
        exists a. split; [now apply (T5 k)|]. apply T4 in Ea. unfold f. now rewrite Ea. }
    split; auto. split; auto.
    intros k Hk. destruct R as (g & _ & _ & G1 & G2 & G3). destruct (G3 k Hk) as (a & Ha & <-).
    unfold takes_part. rewrite G1, G2. destruct Ha; [left|right]; now apply in_map.
  - intros E. inversion E; subst d'. split; auto. split; [|now apply all_used].
    exists (fun a => a). rewrite !map_id. repeat split; auto.
    + intros a Ha. destruct (T3 a Ha) as [Tl _].
      destruct (nth_error (d_ants d) a) as [x|] eqn:Ex; [|apply nth_error_None in Ex; lia]. eauto.
    + intros k Hk. exists k. split; auto. now apply all_used.
Qed.

Lemma reachable_tables {A} (d : ants A) : reachable d -> tables d.
Proof.
  induction 1.
  - unfold set_antennas in H. destruct (Nat.eqb_spec (length a1) (length a2)); [|discriminate].
    now apply set_ant_used_tables in H.
  - unfold select_baselines in H0. destruct (forallb _ bl); [|discriminate].
    apply set_ant_used_tables in H0; [tauto|]. now rewrite !map_length.
  - now apply (remove_unused_spec d d').
Qed.

(** Removing twice changes nothing more. *)
Lemma remove_idempotent {A} (d d' : ants A) : tables d -> remove_unused d = Some d' -> remove_unused d' = Some d'.
Proof.
  intros T H. destruct (remove_unused_spec d d' T H) as ((T1 & T2 & T3 & T4 & T5 & T6) & _ & U).
  unfold remove_unused. destruct (Nat.ltb_spec (length (d_used d')) (length (d_map d'))) as [Hlt|]; auto.
  exfalso. rewrite T1 in Hlt.
  assert (Inc : incl (seq 0 (length (d_ants d'))) (d_used d')).
  { intros a Ha. apply in_seq in Ha. destruct (T3 a) as [_ Tn]; [apply U; lia|].
    destruct (nth a (d_map d') None) as [k|] eqn:Ek; [|congruence]. apply T4 in Ek. eapply nth_error_In; eauto. }
  pose proof (NoDup_incl_length (seq_NoDup (length (d_ants d')) 0) Inc) as Hl. rewrite seq_length in Hl. lia.
Qed.

(** * Autocorrelations *)

Lemma list_max_nth l i a : nth_error l i = Some a -> (a <= list_max l)%nat.
Proof.
  intros H. apply nth_error_In in H. pose proof (proj1 (list_max_le l (list_max l)) (Nat.le_refl _)) as F.
  rewrite Forall_forall in F. auto.
Qed.

Lemma auto_corr_spec ant1 ant2 t : length ant1 = length ant2 -> auto_corr_index ant1 ant2 = Some t ->
  forall a, auto_entry ant1 ant2 a (nth a t None).
Proof.
  intros HL. unfold auto_corr_index.
  destruct ant1 as [|x ant1]; [discriminate|]. destruct ant2 as [|y ant2]; [discriminate|].
  set (l1 := x :: ant1) in *. set (l2 := y :: ant2) in *. clearbody l1 l2. clear x y ant1 ant2.
  set (nant := S (Nat.max (list_max l1) (list_max l2))).
  intros E. apply (f_equal (fun o => match o with Some x => x | None => [] end)) in E. cbv beta iota in E. subst t.
  set (f := fun (l : list (option nat)) (i : nat) => let a := nth i l1 0%nat in
            if (a =? nth i l2 0%nat)%nat then set_nth l a (Some i) else l) in *.
  assert (G : forall n, (n <= length l1)%nat ->
     let r := fold_left f (seq 0 n) (repeat None nant) in
     length r = nant /\ forall a,
       match nth a r None with
       | Some i => nth_error l1 i = Some a /\ nth_error l2 i = Some a /\
                   forall j, (i < j < n)%nat -> ~ (nth_error l1 j = Some a /\ nth_error l2 j = Some a)
       | None => forall j, (j < n)%nat -> ~ (nth_error l1 j = Some a /\ nth_error l2 j = Some a)
       end).
  { induction n as [|n IH]; intros Hn; cbv zeta.
    - cbn [seq fold_left]. rewrite repeat_length. split; auto. intros a.
      destruct (Nat.lt_ge_cases a nant) as [H|H].
      + rewrite nth_repeat. intros j Hj. lia.
      + rewrite nth_overflow by (rewrite repeat_length; lia). intros j Hj. lia.
    - rewrite seq_S, fold_left_app. cbn [fold_left Nat.add]. destruct IH as [IL IA]; [lia|].
      set (r := fold_left f (seq 0 n) (repeat None nant)) in *. clearbody r.
      destruct (nth_error l1 n) as [a1|] eqn:E1; [|apply nth_error_None in E1; lia].
      destruct (nth_error l2 n) as [a2|] eqn:E2; [|apply nth_error_None in E2; lia].
      unfold f. rewrite (nth_error_nth _ _ 0%nat E1), (nth_error_nth _ _ 0%nat E2).
      assert (B : (a1 < nant)%nat) by (pose proof (list_max_nth _ _ _ E1); unfold nant; lia).
      destruct (Nat.eqb_spec a1 a2) as [->|Ne].
      + split; [now rewrite set_nth_length|]. intros a. destruct (Nat.eq_dec a2 a) as [->|Na].
        * rewrite set_nth_same by lia. repeat split; auto. intros j Hj. lia.
        * rewrite set_nth_other by auto. specialize (IA a). destruct (nth a r None) as [i|].
          -- destruct IA as (A1 & A2 & A3). repeat split; auto. intros j Hj.
             destruct (Nat.eq_dec j n) as [->|]; [intros [C _]; congruence|]. apply A3. lia.
          -- intros j Hj. destruct (Nat.eq_dec j n) as [->|]; [intros [C _]; congruence|]. apply IA. lia.
      + split; auto. intros a. specialize (IA a). destruct (nth a r None) as [i|].
        * destruct IA as (A1 & A2 & A3). repeat split; auto. intros j Hj.
          destruct (Nat.eq_dec j n) as [->|]; [intros [C D]; congruence|]. apply A3. lia.
        * intros j Hj. destruct (Nat.eq_dec j n) as [->|]; [intros [C D]; congruence|]. apply IA. lia. }
  destruct (G (length l1) (Nat.le_refl _)) as [_ GA]. intros a. specialize (GA a). unfold auto_entry.
  destruct (nth a (fold_left f (seq 0 (length l1)) (repeat None nant)) None) as [i|].
  - destruct GA as (A1 & A2 & A3). split; auto. split; auto. intros j Hj C. apply (A3 j); auto.
    split; auto. apply nth_error_Some. destruct C. congruence.
  - intros j C. apply (GA j); auto. apply nth_error_Some. destruct C. congruence.
Qed.
