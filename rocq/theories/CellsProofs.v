(** Proofs about what the reader of a measurement set delivers for a time slot. *)
From Coq Require Import QArith Qround Qcanon List Bool Arith ZArith Lia.
From Verif Require Import QcUtil AverageModel InfoModel InfoProofs CellsModel CellsSpec.
Import ListNotations.
Open Scope nat_scope.

Lemma nth_flat_blocks {X Y} (f : X -> list Y) n dx d : forall l b k, Forall (fun x => length (f x) = n) l -> b < length l -> k < n ->
  nth (b * n + k) (flat_map f l) d = nth k (f (nth b l dx)) d.
Proof.
  induction l as [|x l IH]; intros b k H Hb Hk; cbn in Hb; [lia|]. inversion H; subst. cbn [flat_map]. destruct b as [|b]; cbn [nth].
  - rewrite app_nth1 by lia. reflexivity.
  - rewrite app_nth2 by nia. replace (S b * length (f x) + k - length (f x)) with (b * length (f x) + k) by nia. apply IH; auto. lia.
Qed.
Lemma length_flat_blocks {X Y} (f : X -> list Y) n : forall l, Forall (fun x => length (f x) = n) l -> length (flat_map f l) = length l * n.
Proof. induction l as [|x l IH]; intros H; auto. inversion H; subst. cbn. rewrite app_length, IH by auto. reflexivity. Qed.
Lemma concat_blocks {Y} (l : list (list Y)) : concat l = flat_map (fun x => x) l.
Proof. induction l; cbn; congruence. Qed.
Lemma nth_repeat' {Y} (x d : Y) n k : k < n -> nth k (repeat x n) d = x.
Proof. revert k. induction n; intros [|k] H; cbn; auto; try lia. apply IHn. lia. Qed.
Lemma nth_firstn' {Y} (l : list Y) n k d : k < n -> nth k (firstn n l) d = nth k l d.
Proof. revert n k. induction l as [|x l IH]; intros [|n] [|k] H; cbn; auto; try lia. apply IH. lia. Qed.
Lemma nth_skipn' {Y} (l : list Y) n k d : nth k (skipn n l) d = nth (n + k) l d.
Proof. revert n. induction l as [|x l IH]; intros [|n]; cbn; auto. now destruct k. Qed.

Lemma below a b n m : a < n -> b < m -> a * m + b < n * m.
Proof. intros H1 H2. pose proof (Nat.mul_le_mono_r (a + 1) n m ltac:(lia)). lia. Qed.
Lemma below_cube b c p nb nc np : b < nb -> c < nc -> p < np -> (b * nc + c) * np + p < nb * nc * np.
Proof. intros. apply below; auto. now apply below. Qed.

(** Flags of a sample *)
Section Flags.
Variables (D : Type) (zero : D) (finite : D -> bool) (ncorr : nat) (data : list D).

Lemma fill_length n : forall i flags, length (fill_flags n i flags) = length flags.
Proof. induction n; intros i flags; cbn; auto. unfold fill_flags in IHn. rewrite IHn. apply set_nth_length. Qed.
Lemma fill_nth n : forall i flags k, k < length flags ->
  nth k (fill_flags n i flags) false = ((i <=? k) && (k <? i + n)) || nth k flags false.
Proof.
  induction n; intros i flags k Hk.
  - cbn [fill_flags seq fold_left]. replace ((i <=? k) && (k <? i + 0)) with false; auto.
    symmetry. apply andb_false_iff. destruct (Nat.leb_spec i k); auto. right. apply Nat.ltb_ge. lia.
  - unfold fill_flags in *. cbn [seq fold_left]. rewrite IHn by now rewrite set_nth_length. destruct (Nat.eq_dec i k) as [->|N].
    + rewrite set_nth_same by auto. rewrite orb_true_r. rewrite Nat.leb_refl. replace (k <? k + S n) with true; auto. symmetry. apply Nat.ltb_lt. lia.
    + rewrite set_nth_other by auto. f_equal.
      destruct (Nat.leb_spec i k), (Nat.leb_spec (S i) k); try lia; cbn [andb]; auto.
      destruct (Nat.ltb_spec k (S i + n)), (Nat.ltb_spec k (i + S n)); auto; lia.
Qed.

Definition bad (k : nat) : bool := negb (finite (nth k data zero)).
Definition hit (flags : list bool) (k : nat) : bool := bad k || nth k flags false.

Lemma sample_flags : forall n i j flags counts,
  fst (flag_sample zero finite ncorr data i j n (flags, counts)) = if existsb (hit flags) (seq j n) then fill_flags ncorr i flags else flags.
Proof.
  induction n; intros i j flags counts; cbn [flag_sample seq existsb]; auto.
  unfold hit at 1, bad at 1. destruct (negb (finite (nth j data zero))); cbn [orb]; auto.
  destruct (nth j flags false); cbn [orb]; auto. rewrite <- IHn with (counts := counts). now rewrite Nat.add_1_r.
Qed.
Lemma sample_counts : forall n i j flags counts k, k < length counts -> i <= j ->
  nth k (snd (flag_sample zero finite ncorr data i j n (flags, counts))) 0 =
  nth k counts 0 + if (j <=? i + k) && (i + k <? j + n) && bad (i + k) && negb (existsb (hit flags) (seq j (i + k - j))) then 1 else 0.
Proof.
  induction n; intros i j flags counts k Hk Hij; cbn [flag_sample].
  - replace ((j <=? i + k) && (i + k <? j + 0)) with false; [cbn; lia|]. symmetry. apply andb_false_iff.
    destruct (Nat.leb_spec j (i + k)); auto. right. apply Nat.ltb_ge. lia.
  - fold (bad j). destruct (Nat.eq_dec j (i + k)) as [E|N].
    + subst j. rewrite Nat.leb_refl, Nat.sub_diag. cbn [seq existsb negb]. replace (i + k <? i + k + S n) with true by (symmetry; apply Nat.ltb_lt; lia).
      cbn [andb]. replace (i + k - i) with k by lia. destruct (bad (i + k)) eqn:E; cbn [orb andb snd].
      * rewrite set_nth_same by auto. reflexivity.
      * destruct (nth (i + k) flags false); [cbn; lia|]. rewrite IHn by (auto; lia). 
        replace (i + k + 1 <=? i + k) with false by (symmetry; apply Nat.leb_gt; lia). reflexivity.
    + destruct (bad j || nth j flags false) eqn:E.
      * cbn [snd].
        replace (nth k (if bad j then set_nth counts (j - i) (nth (j - i) counts 0 + 1) else counts) 0) with (nth k counts 0).
        2: { destruct (bad j); auto. rewrite set_nth_other; auto. lia. }
        destruct (Nat.leb_spec j (i + k)) as [L|L]; [|cbn; lia].
        destruct (i + k - j) as [|r] eqn:Er; [lia|]. cbn [seq existsb]. unfold hit at 1. rewrite E. cbn [orb negb]. rewrite andb_false_r. lia.
      * apply orb_false_iff in E as [E1 E2]. rewrite E1, IHn by (auto; lia). f_equal.
        destruct (Nat.leb_spec j (i + k)), (Nat.leb_spec (j + 1) (i + k)); try lia; cbn [andb]; auto.
        replace (i + k <? j + 1 + n) with (i + k <? j + S n) by (f_equal; lia). destruct (_ && bad (i + k)); cbn [andb]; auto.
        destruct (i + k - j) as [|r] eqn:Er; [lia|]. cbn [seq existsb]. unfold hit at 2. rewrite E1, E2. cbn [orb].
        replace (i + k - (j + 1)) with r by lia. now rewrite Nat.add_1_r.
Qed.
Lemma sample_counts_length : forall n i j flags counts, length (snd (flag_sample zero finite ncorr data i j n (flags, counts))) = length counts.
Proof.
  induction n; intros i j flags counts; cbn [flag_sample]; auto. fold (bad j).
  destruct (bad j); cbn [orb]; [cbn; apply set_nth_length|]. destruct (nth j flags false); cbn [orb]; auto.
Qed.

Lemma hit_ext flags flags' s n : (forall k, s <= k < s + n -> nth k flags' false = nth k flags false) ->
  existsb (hit flags') (seq s n) = existsb (hit flags) (seq s n).
Proof.
  intros H. revert s H. induction n; intros s H; cbn; auto. unfold hit at 1 3. rewrite H by lia. f_equal. apply IHn. intros. apply H. lia.
Qed.
(** the samples one after the other *)
Lemma samples : forall m s flags counts, (s + m) * ncorr <= length flags ->
  let r := fold_left (fun st i => flag_sample zero finite ncorr data i i ncorr st) (map (fun g => g * ncorr) (seq s m)) (flags, counts) in
  length (fst r) = length flags /\ length (snd r) = length counts /\
  (forall k, k < length flags -> nth k (fst r) false =
     if (s * ncorr <=? k) && (k <? (s + m) * ncorr) then existsb (hit flags) (seq (k / ncorr * ncorr) ncorr) else nth k flags false) /\
  (forall k, k < length counts -> k < ncorr -> nth k (snd r) 0 = nth k counts 0 +
     number (fun g => bad (g * ncorr + k) && negb (existsb (hit flags) (seq (g * ncorr) k))) (seq s m)).
Proof.
  induction m as [|m IH]; intros s flags counts Hl r.
  - subst r. cbn [seq map fold_left fst snd]. repeat split; auto.
    intros k Hk. destruct (Nat.leb_spec (s * ncorr) k); cbn [andb]; auto.
    destruct (Nat.ltb_spec k ((s + 0) * ncorr)); auto. replace (s + 0) with s in * by lia. lia.
  - cbn [seq map fold_left] in r.
    destruct (flag_sample zero finite ncorr data (s * ncorr) (s * ncorr) ncorr (flags, counts)) as [f1 c1] eqn:E.
    assert (F : f1 = if existsb (hit flags) (seq (s * ncorr) ncorr) then fill_flags ncorr (s * ncorr) flags else flags).
    { rewrite <- sample_flags with (counts := counts). now rewrite E. }
    assert (Hlen : length f1 = length flags) by (rewrite F; destruct existsb; auto using fill_length).
    assert (F1 : forall k, k < length flags -> nth k f1 false =
       if (s * ncorr <=? k) && (k <? (s + 1) * ncorr) then existsb (hit flags) (seq (s * ncorr) ncorr) else nth k flags false).
    { intros k Hk. rewrite F. destruct ((s * ncorr <=? k) && (k <? (s + 1) * ncorr)) eqn:R.
      - apply andb_true_iff in R as [R1 R2]. apply Nat.leb_le in R1. apply Nat.ltb_lt in R2.
        destruct (existsb _ _) eqn:X.
        + rewrite fill_nth by auto. replace (s * ncorr <=? k) with true by (symmetry; apply Nat.leb_le; lia).
          replace (k <? s * ncorr + ncorr) with true by (symmetry; apply Nat.ltb_lt; lia). reflexivity.
        + destruct (nth k flags false) eqn:N; auto. exfalso. apply not_true_iff_false in X. apply X. apply existsb_exists.
          exists k. split; [apply in_seq; lia|]. unfold hit. now rewrite N, orb_true_r.
      - destruct (existsb _ _); auto. rewrite fill_nth by auto.
        replace ((s * ncorr <=? k) && (k <? s * ncorr + ncorr)) with false; auto.
        rewrite <- R. f_equal. f_equal. lia. }
    specialize (IH (S s) f1 c1). destruct IH as (I1 & I2 & I3 & I4); [rewrite Hlen; lia|]. subst r. 
    assert (Hc : length c1 = length counts).
    { rewrite <- (sample_counts_length ncorr (s * ncorr) (s * ncorr) flags counts). now rewrite E. }
    assert (X : forall n g, S s <= g -> n <= ncorr -> existsb (hit f1) (seq (g * ncorr) n) = existsb (hit flags) (seq (g * ncorr) n)).
    { intros n g Hg Hn. apply hit_ext. intros k Hk. destruct (Nat.lt_ge_cases k (length flags)) as [L|L].
      - rewrite F1 by auto. replace (k <? (s + 1) * ncorr) with false; [now rewrite andb_false_r|]. symmetry. apply Nat.ltb_ge. pose proof (Nat.mul_le_mono_r (s + 1) g ncorr ltac:(lia)). lia.
      - rewrite !nth_overflow by lia. reflexivity. }
    split; [congruence|]. split; [congruence|]. split.
    + intros k Hk. rewrite I3 by lia. destruct (Nat.eq_dec ncorr 0) as [Z0|NZ].
      { rewrite F1 by auto. rewrite Z0, !Nat.mul_0_r. reflexivity. }
      destruct (Nat.leb_spec (s * ncorr) k) as [L1|L1]; cbn [andb].
      * destruct (Nat.leb_spec (S s * ncorr) k) as [L2|L2]; cbn [andb].
        -- replace (S s + m) with (s + S m) by lia. destruct (k <? (s + S m) * ncorr).
           ++ apply X; auto. apply Nat.div_le_lower_bound; lia.
           ++ rewrite F1 by auto. replace (k <? (s + 1) * ncorr) with false by (symmetry; apply Nat.ltb_ge; lia). now rewrite andb_false_r.
        -- pose proof (Nat.mul_le_mono_r (S s) (s + S m) ncorr ltac:(lia)) as M1. assert (M2 : S s * ncorr = s * ncorr + ncorr) by lia.
           replace (k <? (s + S m) * ncorr) with true by (symmetry; apply Nat.ltb_lt; lia).
           rewrite F1 by auto. replace (s * ncorr <=? k) with true by (symmetry; now apply Nat.leb_le).
           replace (k <? (s + 1) * ncorr) with true by (symmetry; apply Nat.ltb_lt; lia). cbn [andb].
           replace (k / ncorr) with s; auto. clear - L1 L2 M2. apply Nat.div_unique with (k - s * ncorr); rewrite ?(Nat.mul_comm ncorr s); lia.
      * replace (S s * ncorr <=? k) with false by (symmetry; apply Nat.leb_gt; pose proof (Nat.mul_le_mono_r s (S s) ncorr ltac:(lia)); lia). cbn [andb]. rewrite F1 by auto.
        now replace (s * ncorr <=? k) with false by (symmetry; apply Nat.leb_gt; lia).
    + intros k Hk Hn. rewrite I4 by lia.
      assert (C : nth k c1 0 = nth k counts 0 + if bad (s * ncorr + k) && negb (existsb (hit flags) (seq (s * ncorr) k)) then 1 else 0).
      { pose proof (sample_counts ncorr (s * ncorr) (s * ncorr) flags counts k Hk (le_n _)) as C. rewrite E in C. cbn [snd] in C. rewrite C. f_equal.
        replace (s * ncorr <=? s * ncorr + k) with true by (symmetry; apply Nat.leb_le; lia).
        replace (s * ncorr + k <? s * ncorr + ncorr) with true by (symmetry; apply Nat.ltb_lt; lia). cbn [andb].
        replace (s * ncorr + k - s * ncorr) with k by lia. reflexivity. }
      rewrite C. unfold number. cbn [filter]. rewrite <- Nat.add_assoc. f_equal.
      assert (Y : filter (fun g => bad (g * ncorr + k) && negb (existsb (hit f1) (seq (g * ncorr) k))) (seq (S s) m) =
                  filter (fun g => bad (g * ncorr + k) && negb (existsb (hit flags) (seq (g * ncorr) k))) (seq (S s) m)).
      { apply filter_ext_in. intros g Hg. apply in_seq in Hg. now rewrite X by lia. }
      rewrite Y. cbn [seq filter]. destruct (bad (s * ncorr + k) && _); reflexivity.
Qed.
End Flags.

(** Columns *)
Lemma slice_shape {A} s (l : list (list A)) nall : shaped nall (n_corr s) l -> start s + n_chan s <= nall ->
  length (slice s l) = n_chan s * n_corr s.
Proof.
  intros [H1 H2] H. unfold slice. rewrite concat_blocks, length_flat_blocks with (n := n_corr s).
  - f_equal. rewrite firstn_length, skipn_length. lia.
  - apply Forall_forall. intros x Hx. apply In_nth with (d := []) in Hx as (k & Hk & <-).
    rewrite firstn_length, skipn_length in Hk. rewrite nth_firstn', nth_skipn' by lia.
    rewrite Forall_forall in H2. apply H2. apply nth_In. lia.
Qed.
Lemma slice_nth {A} s (l : list (list A)) nall c p d : shaped nall (n_corr s) l -> start s + n_chan s <= nall -> c < n_chan s -> p < n_corr s ->
  nth (c * n_corr s + p) (slice s l) d = stored l (start s + c) p d.
Proof.
  intros [H1 H2] H Hc Hp. unfold slice. rewrite concat_blocks, nth_flat_blocks with (n := n_corr s) (dx := []); auto.
  - rewrite nth_firstn', nth_skipn' by lia. reflexivity.
  - apply Forall_forall. intros x Hx. apply In_nth with (d := []) in Hx as (k & Hk & <-).
    rewrite firstn_length, skipn_length in Hk. rewrite nth_firstn', nth_skipn' by lia.
    rewrite Forall_forall in H2. apply H2. apply nth_In. lia.
  - rewrite firstn_length, skipn_length. lia.
Qed.
Lemma blocks_value {X A} s (f : X -> list A) rows b c p dx d : Forall (fun r => length (f r) = n_chan s * n_corr s) rows ->
  b < length rows -> c < n_chan s -> p < n_corr s ->
  value (n_chan s) (n_corr s) (flat_map f rows) b c p d = nth (c * n_corr s + p) (f (nth b rows dx)) d.
Proof.
  intros H Hb Hc Hp. unfold value. replace ((b * n_chan s + c) * n_corr s + p) with (b * (n_chan s * n_corr s) + (c * n_corr s + p)) by nia.
  apply nth_flat_blocks; auto. nia.
Qed.
