(** Properties of the weighting of visibilities for the solver. *)
From Coq Require Import List Bool Arith ZArith Lia.
From Verif Require Import InfoModel InfoProofs WeighModel WeighSpec.
Import ListNotations.
Open Scope nat_scope.

Lemma nth_flat_map {A B} (f : A -> list B) n (da : A) d l : (forall x, In x l -> length (f x) = n) -> forall i j, j < n -> i < length l ->
  nth (i * n + j) (flat_map f l) d = nth j (f (nth i l da)) d.
Proof.
  induction l as [|x l IH]; intros H i j Hj Hi; [cbn in Hi; lia|]. cbn [flat_map]. pose proof (H x (or_introl eq_refl)) as L.
  destruct i as [|i]; cbn [nth]; [rewrite app_nth1; [reflexivity|lia]|]. rewrite app_nth2 by lia. rewrite L.
  replace (S i * n + j - n) with (i * n + j) by lia. apply IH; [intros y I; apply H; now right|auto|cbn in Hi; lia].
Qed.
Lemma flat_map_length_const {A B} (f : A -> list B) n l : (forall x, In x l -> length (f x) = n) -> length (flat_map f l) = length l * n.
Proof. induction l as [|x l IH]; intros H; [reflexivity|]. cbn [flat_map length]. rewrite app_length, IH, H; cbn; auto. intros; apply H; now right. Qed.

Section Regular.
Context {F : Type}.
Variables (mul : F -> F -> F) (zero : F) (finite : F -> bool) (prepare : F -> F).
Lemma nth_skipn' {A} (l : list A) a i d : nth i (skipn a l) d = nth (a + i) l d.
Proof. revert l. induction a as [|a IH]; intros l; [reflexivity|]. destruct l; [now destruct i|]. cbn [skipn Nat.add nth]. apply IH. Qed.
Lemma nth_firstn' {A} (l : list A) n i d : i < n -> nth i (firstn n l) d = nth i l d.
Proof. revert l i. induction n as [|n IH]; intros l i H; [lia|]. destruct l; [reflexivity|]. destruct i; cbn; auto. apply IH. lia. Qed.
Lemma times_nth n mask l at_ w j : mask n j < n -> j < n -> at_ + n <= length l ->
  nth j (times F mul (load F n l at_) (swizzle F zero n mask (load F n w 0))) zero = mul (nth (at_ + j) l zero) (nth (mask n j) w zero).
Proof.
  intros Hm Hj Hl. unfold times. assert (L1 : length (load F n l at_) = n) by (unfold load; rewrite firstn_length, skipn_length; lia).
  assert (L2 : length (swizzle F zero n mask (load F n w 0)) = n) by (unfold swizzle; now rewrite map_length, seq_length).
  rewrite (nth_indep _ zero (mul zero zero)) by (rewrite map_length, combine_length; lia).
  change (mul zero zero) with ((fun p => mul (fst p) (snd p)) (zero, zero)). rewrite map_nth, combine_nth by lia. cbn [fst snd]. f_equal.
  - unfold load. rewrite nth_firstn', nth_skipn' by lia. reflexivity.
  - unfold swizzle. rewrite (nth_indep _ zero (nth (mask n 0) (load F n w 0) zero)) by (rewrite map_length, seq_length; lia).
    rewrite (map_nth (fun i => nth (mask n i) (load F n w 0) zero)), seq_nth by lia. cbn [Nat.add]. unfold load. rewrite nth_firstn' by lia. reflexivity.
Qed.
Lemma load_skip n w i : load F n w i = load F n (skipn i w) 0.
Proof. reflexivity. Qed.
Lemma batch_nth h l w i k : 0 < h -> k < 4 * h -> i * 2 + 4 * h <= length l ->
  nth k (batch F mul zero (2 * h) l w i) zero = mul (nth (i * 2 + k) l zero) (nth (i + k / 2) w zero).
Proof.
  intros Hh Hk Hl. unfold batch. rewrite (load_skip (2 * h) w i). assert (L1 : length (times F mul (load F (2 * h) l (i * 2)) (swizzle F zero (2 * h) duplicate_low (load F (2 * h) (skipn i w) 0))) = 2 * h).
  { unfold times. rewrite map_length, combine_length. unfold load at 1, swizzle. rewrite firstn_length, skipn_length, map_length, seq_length. lia. }
  destruct (Nat.lt_ge_cases k (2 * h)) as [C|C].
  - rewrite app_nth1 by lia. assert (k / 2 < 2 * h) by (apply Nat.div_lt_upper_bound; lia). rewrite times_nth by (unfold duplicate_low; lia). rewrite nth_skipn'. reflexivity.
  - rewrite app_nth2, L1 by lia.
    assert (D : duplicate_high (2 * h) (k - 2 * h) = k / 2).
    { unfold duplicate_high. replace (2 * h / 2) with h by (rewrite Nat.mul_comm, Nat.div_mul; lia).
      replace k with (k - 2 * h + h * 2) at 2 by lia. rewrite Nat.div_add; lia. }
    assert (k / 2 < 2 * h) by (apply Nat.div_lt_upper_bound; lia).
    rewrite times_nth by (rewrite ?D; lia). rewrite nth_skipn', D. f_equal. f_equal. lia.
Qed.
Lemma batch_length h l w i : i * 2 + 4 * h <= length l -> length (batch F mul zero (2 * h) l w i) = 4 * h.
Proof.
  intros H. unfold batch, times. rewrite app_length, !map_length, !combine_length. unfold load at 1 3, swizzle.
  rewrite !firstn_length, !skipn_length, !map_length, !seq_length. lia.
Qed.
(** Any batch size that is even, any number of visibilities. *)
Lemma weigh_spec h size l w : 0 < h -> length l = size * 2 ->
  length (weigh F mul zero (2 * h) size l w) = size * 2 /\
  forall k, k < size * 2 -> nth k (weigh F mul zero (2 * h) size l w) zero = mul (nth k l zero) (nth (k / 2) w zero).
Proof.
  intros Hh L. unfold weigh. set (m := size / (2 * h)). assert (Hm : m * (2 * h) <= size).
  { unfold m. pose proof (Nat.mul_div_le size (2 * h) ltac:(lia)). lia. }
  assert (B : forall k, In k (seq 0 m) -> length (batch F mul zero (2 * h) l w (k * (2 * h))) = 4 * h).
  { intros k I. apply in_seq in I. apply batch_length. nia. }
  assert (L1 : length (flat_map (fun k => batch F mul zero (2 * h) l w (k * (2 * h))) (seq 0 m)) = m * (4 * h)).
  { rewrite (flat_map_length_const _ (4 * h)) by exact B. now rewrite seq_length. }
  split.
  - rewrite app_length, L1, (flat_map_length_const _ 2) by reflexivity. rewrite seq_length. lia.
  - intros k Hk. destruct (Nat.lt_ge_cases k (m * (4 * h))) as [C|C].
    + rewrite app_nth1 by lia. pose proof (Nat.div_mod k (4 * h) ltac:(lia)) as D. pose proof (Nat.mod_upper_bound k (4 * h) ltac:(lia)) as U.
      set (a := k / (4 * h)) in *. set (b := k mod (4 * h)) in *. assert (a < m) by (apply Nat.div_lt_upper_bound; lia).
      replace k with (a * (4 * h) + b) by lia. rewrite (nth_flat_map _ (4 * h) 0) by (auto; rewrite seq_length; auto).
      rewrite seq_nth by auto. cbn [Nat.add]. rewrite batch_nth by nia. f_equal; f_equal; [lia|].
      replace (a * (4 * h) + b) with (b + (a * (2 * h)) * 2) by lia. rewrite Nat.div_add by lia. lia.
    + rewrite app_nth2, L1 by lia. pose proof (Nat.div_mod k 2 ltac:(lia)) as D. pose proof (Nat.mod_upper_bound k 2 ltac:(lia)) as U.
      set (i := k / 2) in *. set (p := k mod 2) in *. replace (k - m * (4 * h)) with ((i - m * (2 * h)) * 2 + p) by lia.
      rewrite (nth_flat_map _ 2 0) by (auto; rewrite seq_length; lia). rewrite seq_nth by lia. replace (m * (2 * h) + (i - m * (2 * h))) with i by lia.
      destruct p as [|[|p]]; [| |lia]; cbn [nth]; f_equal; f_equal; lia.
Qed.

Lemma fold_or {A} (g : A -> bool) l f : fold_left (fun f m => f || g m) l f = f || existsb g l.
Proof. revert f. induction l as [|a l IH]; intros f; cbn; [now rewrite orb_false_r|]. now rewrite IH, orb_assoc. Qed.
Lemma bad_sample_spec n_corr data flags models s :
  bad_sample F zero finite n_corr data flags models s = true <-> bad finite zero n_corr flags (data :: models) s.
Proof.
  unfold bad_sample, bad.
  assert (E : forall l f, fold_left (fun f cr => let i := s * n_corr + cr in
    fold_left (fun f m => f || negb (finite_vis F zero finite m i)) models (f || (nth i flags false || negb (finite_vis F zero finite data i)))) l f =
    f || existsb (fun cr => nth (s * n_corr + cr) flags false || existsb (fun a => negb (finite_vis F zero finite a (s * n_corr + cr))) (data :: models)) l).
  { induction l as [|cr l IH]; intros f; cbn [fold_left existsb]; [now rewrite orb_false_r|]. cbv zeta. rewrite fold_or, IH. cbn [existsb]. now rewrite !orb_assoc. }
  rewrite E. cbn [orb]. rewrite existsb_exists. split.
  - intros (cr & I & H). apply in_seq in I. exists cr. split; [lia|]. apply orb_prop in H as [H|H]; [now left|right].
    apply existsb_exists in H as (a & I2 & H). exists a. split; auto. apply negb_true_iff in H. unfold finite_vis in H. now apply andb_false_iff in H.
  - intros (cr & I & H). exists cr. split; [apply in_seq; lia|]. apply orb_true_iff. destruct H as [H|(a & I2 & H)]; [now left|right].
    apply existsb_exists. exists a. split; auto. apply negb_true_iff. unfold finite_vis. now apply andb_false_iff.
Qed.
Lemma nth_masked n_corr b l k : k < length l -> nth k (masked F zero n_corr b l) zero = if nth (k / 2 / n_corr) b false then zero else nth k l zero.
Proof.
  intros H. unfold masked. assert (G : forall (l : list F) a k, k < length l ->
    nth k (map (fun p => if nth (fst p / 2 / n_corr) b false then zero else snd p) (combine (seq a (length l)) l)) zero = if nth ((a + k) / 2 / n_corr) b false then zero else nth k l zero).
  { clear. induction l as [|x l IH]; intros a k H; [cbn in H; lia|]. destruct k as [|k]; cbn; [now rewrite Nat.add_0_r|].
    rewrite IH by (cbn in H; lia). now rewrite Nat.add_succ_r. }
  now rewrite G.
Qed.
Lemma masked_length n_corr b l : length (masked F zero n_corr b l) = length l.
Proof. unfold masked. rewrite map_length, combine_length, seq_length. lia. Qed.
End Regular.

(** * C68: regular data *)
(** For any even batch size of the processor, numbers of samples and correlations, weights, flags and directions: all data and model data are weighted with the
    weight (or its square root) of their own visibility, and are zero if anything of the sample is flagged or not finite. *)
Theorem C68_regular : forall F (mul : F -> F -> F) zero finite prepare h n_corr n_samples data weights flags models data' models', 0 < h ->
  length data = n_samples * n_corr * 2 -> length weights = n_samples * n_corr -> Forall (fun m => length m = n_samples * n_corr * 2) models ->
  assign_and_weight F mul zero finite prepare (2 * h) n_corr n_samples data weights flags models = (data', models') ->
  Forall2 (weighted mul zero n_corr n_samples (bad finite zero n_corr flags (data :: models)) (map prepare weights)) (data :: models) (data' :: models').
Proof.
  intros F mul zero finite prepare h n_corr n_samples data weights flags models data' models' Hh Ld Lw Lm H.
  unfold assign_and_weight in H. injection H as <- <-.
  assert (G : forall l, length l = n_samples * n_corr * 2 ->
    weighted mul zero n_corr n_samples (bad finite zero n_corr flags (data :: models)) (map prepare weights) l
      (masked F zero n_corr (map (bad_sample F zero finite n_corr data flags models) (seq 0 n_samples)) (weigh F mul zero (2 * h) (n_samples * n_corr) l (map prepare weights)))).
  { intros l Ll. destruct (weigh_spec mul zero h (n_samples * n_corr) l (map prepare weights) Hh Ll) as [W1 W2].
    split; [now rewrite masked_length|]. intros s cr p Hs Hc Hp. cbv zeta. set (i := s * n_corr + cr).
    assert (Hi : i < n_samples * n_corr) by (unfold i; nia). assert (Hk : i * 2 + p < n_samples * n_corr * 2) by lia.
    rewrite nth_masked by now rewrite W1. rewrite W2 by exact Hk.
    assert (E1 : (i * 2 + p) / 2 = i) by (rewrite Nat.div_add_l by lia; rewrite (Nat.div_small p 2) by lia; lia). rewrite E1.
    assert (E2 : i / n_corr = s) by (unfold i; rewrite Nat.div_add_l by lia; rewrite (Nat.div_small cr n_corr) by lia; lia). rewrite E2.
    rewrite (nth_indep _ false (bad_sample F zero finite n_corr data flags models 0)) by (rewrite map_length, seq_length; auto).
    rewrite map_nth, seq_nth by auto. cbn [Nat.add]. pose proof (bad_sample_spec zero finite n_corr data flags models s) as B.
    destruct (bad_sample F zero finite n_corr data flags models s); [|now split; [intros X; apply B in X|]]. split; [reflexivity|]. intros X. exfalso. apply X, B. reflexivity. }
  constructor; [now apply G|]. revert G. generalize (bad finite zero n_corr flags (data :: models)) (map (bad_sample F zero finite n_corr data flags models) (seq 0 n_samples)).
  intros p b G. clear - Lm G. induction models as [|m models IH]; cbn [map]; [constructor|]. inversion Lm; subst. constructor; auto.
Qed.
Print Assumptions C68_regular.
(** The case: batches of two, five visibilities in five samples; the middle one is flagged.  Negative numbers are not finite. *)
Example C68_regular_case :
  assign_and_weight nat Nat.mul 0 (fun x => x <? 100) S 2 1 5 [1; 2; 3; 4; 5; 6; 7; 8; 9; 10] [1; 2; 3; 4; 5] [false; false; true; false; false]
    [[1; 1; 1; 1; 1; 1; 100; 1; 1; 1]] = ([2; 4; 9; 12; 0; 0; 0; 0; 54; 60], [[2; 2; 3; 3; 0; 0; 0; 0; 6; 6]]).
Proof. reflexivity. Qed.

(** * C68: BDA data *)
Section Bda.
Context {V W R : Type}.
Variables (scale : V -> R -> V) (root : W -> R) (zero : V) (finite : V -> bool) (w0 : W).
Notation weigh4 := (weigh4 V W R scale root zero finite w0).
Definition touched (index i : nat) : bool := (index <=? i) && (i <? index + 4).
Lemma weigh4_spec fl weights index f l f' l' : index + 4 <= length l -> weigh4 fl weights index (f, l) = (f', l') ->
  length l' = length l /\
  (forall i, nth i l' zero = if touched index i then scale (nth i l zero) (root (nth i weights w0)) else nth i l zero) /\
  (f' = true <-> f = true \/ exists cr, cr < 4 /\ (fl cr = true \/ finite (nth (index + cr) l zero) = false)).
Proof.
  intros L H. unfold WeighModel.weigh4, n_corr in H. cbn [seq fold_left] in H. injection H as <- <-.
  split; [now rewrite !set_nth_length|]. split.
  - intros i. unfold touched. destruct (Nat.leb_spec index i) as [G|G]; cbn [andb].
    + destruct (Nat.ltb_spec i (index + 4)) as [G2|G2].
      * assert (C : i = index + 0 \/ i = index + 1 \/ i = index + 2 \/ i = index + 3) by lia.
        destruct C as [->|[->|[->| ->]]]; repeat (rewrite set_nth_other by lia); rewrite set_nth_same by (rewrite ?set_nth_length; lia);
          repeat (rewrite set_nth_other by lia); reflexivity.
      * repeat (rewrite set_nth_other by lia). reflexivity.
    + repeat (rewrite set_nth_other by lia). reflexivity.
  - repeat (rewrite set_nth_other by lia). rewrite !orb_true_iff, !negb_true_iff. split.
    + intros [[[[H|[H|H]]|[H|H]]|[H|H]]|[H|H]]; auto; right;
        [exists 0|exists 0|exists 1|exists 1|exists 2|exists 2|exists 3|exists 3]; (split; [lia|]); auto.
    + intros [H|(cr & Hc & H)]; [tauto|]. assert (C : cr = 0 \/ cr = 1 \/ cr = 2 \/ cr = 3) by lia.
      destruct C as [->|[->|[->| ->]]]; tauto.
Qed.
Lemma weigh_models_spec weights index models : forall f f' models', Forall (fun m => index + 4 <= length m) models ->
  weigh_models V W R scale root zero finite w0 weights index f models = (f', models') ->
  Forall2 (fun m m' => length m' = length m /\ forall i, nth i m' zero = if touched index i then scale (nth i m zero) (root (nth i weights w0)) else nth i m zero) models models' /\
  (f' = true <-> f = true \/ exists m, In m models /\ exists cr, cr < 4 /\ finite (nth (index + cr) m zero) = false).
Proof.
  induction models as [|m models IH]; intros f f' models' L H; cbn [weigh_models] in H.
  - injection H as <- <-. split; [constructor|]. split; [now left|]. intros [H|(m & [] & _)]; auto.
  - inversion L as [|? ? L1 L2]; subst. destruct (weigh4 (fun _ => false) weights index (f, m)) as [f1 m1] eqn:E1.
    destruct (weigh_models V W R scale root zero finite w0 weights index f1 models) as [f2 r2] eqn:E2. injection H as <- <-.
    destruct (weigh4_spec _ _ _ _ _ _ _ L1 E1) as (A1 & A2 & A3). destruct (IH _ _ _ L2 E2) as (B1 & B2). split; [constructor; auto|].
    rewrite B2, A3. split.
    + intros [[H|(cr & Hc & [H|H])]|(x & I & H)]; auto; [discriminate| |]; right; [exists m|exists x]; (split; [cbn; auto|]); eauto.
    + intros [H|(x & [<-|I] & cr & Hc & H)]; auto; [left; right|right]; eauto.
Qed.
Lemma clear4_spec index (l : list V) : index + 4 <= length l -> length (clear4 V zero index l) = length l /\
  forall i, nth i (clear4 V zero index l) zero = if touched index i then zero else nth i l zero.
Proof.
  intros L. unfold clear4, n_corr. cbn [seq fold_left]. split; [now rewrite !set_nth_length|]. intros i. unfold touched.
  destruct (Nat.leb_spec index i) as [G|G]; cbn [andb].
  - destruct (Nat.ltb_spec i (index + 4)) as [G2|G2].
    + assert (C : i = index + 0 \/ i = index + 1 \/ i = index + 2 \/ i = index + 3) by lia.
      destruct C as [->|[->|[->| ->]]]; repeat (rewrite set_nth_other by lia); apply set_nth_same; rewrite ?set_nth_length; lia.
    + repeat (rewrite set_nth_other by lia). reflexivity.
  - repeat (rewrite set_nth_other by lia). reflexivity.
Qed.

(** After [k] channels: those are weighted, the others are untouched *)
Definition partly (k : nat) (is_bad : nat -> Prop) (weights : list W) (a b : list V) : Prop :=
  length b = length a /\ (forall i, k * 4 <= i -> nth i b zero = nth i a zero) /\
  forall ch cr, ch < k -> cr < 4 -> let i := ch * 4 + cr in
    (is_bad ch -> nth i b zero = zero) /\ (~ is_bad ch -> nth i b zero = scale (nth i a zero) (root (nth i weights w0))).
Lemma bad_dec flags arrays ch : bda_bad finite zero flags arrays ch \/ ~ bda_bad finite zero flags arrays ch.
Proof.
  set (t := existsb (fun cr => nth (ch * 4 + cr) flags false || existsb (fun a => negb (finite (nth (ch * 4 + cr) a zero))) arrays) (seq 0 4)).
  assert (E : t = true <-> bda_bad finite zero flags arrays ch).
  { unfold t, bda_bad. rewrite existsb_exists. split.
    - intros (cr & I & H). apply in_seq in I. exists cr. split; [lia|]. apply orb_prop in H as [H|H]; [now left|right].
      apply existsb_exists in H as (a & I2 & H). exists a. split; auto. now apply negb_true_iff.
    - intros (cr & I & H). exists cr. split; [apply in_seq; lia|]. apply orb_true_iff. destruct H as [H|(a & I2 & H)]; [now left|right].
      apply existsb_exists. exists a. split; auto. now apply negb_true_iff. }
  destruct t; [left; now apply E|right; rewrite <- E; discriminate].
Qed.
Lemma channel_spec flags weights k n data models data1 models1 data2 models2 : k < n -> n * 4 <= length data -> Forall (fun m => n * 4 <= length m) models ->
  Forall2 (partly k (bda_bad finite zero flags (data :: models)) weights) (data :: models) (data1 :: models1) ->
  weigh_channel V W R scale root zero finite w0 flags weights (data1, models1) k = (data2, models2) ->
  Forall2 (partly (S k) (bda_bad finite zero flags (data :: models)) weights) (data :: models) (data2 :: models2).
Proof.
  intros Hk Ld Lm P H. inversion P as [|? ? ? ? P1 P2]; subst. clear P. set (isb := bda_bad finite zero flags (data :: models)) in *. unfold weigh_channel, n_corr in H.
  destruct (weigh4 (fun cr => nth (k * 4 + cr) flags false) weights (k * 4) (false, data1)) as [f1 d1] eqn:E1.
  destruct (weigh_models V W R scale root zero finite w0 weights (k * 4) f1 models1) as [f2 m2] eqn:E2.
  assert (L1 : k * 4 + 4 <= length data1) by (destruct P1 as (-> & _); lia).
  assert (L2 : Forall (fun m => k * 4 + 4 <= length m) models1).
  { clearbody isb. clear - P2 Lm Hk. induction P2 as [|a b la lb Pab P2 IH]; constructor; inversion Lm; subst; [destruct Pab as (-> & _); lia|auto]. }
  destruct (weigh4_spec _ _ _ _ _ _ _ L1 E1) as (A1 & A2 & A3). destruct (weigh_models_spec _ _ _ _ _ _ L2 E2) as (B1 & B2).
  assert (Bad : f2 = true <-> isb k).
  { rewrite B2, A3. unfold isb, bda_bad. split.
    - intros [[|(cr & Hc & [H1|H1])]|(m1 & I & cr & Hc & H1)]; [discriminate| | |]; exists cr; (split; [exact Hc|]); [now left|right..].
      + exists data. split; [now left|]. destruct P1 as (_ & P1 & _). rewrite P1 in H1 by lia. exact H1.
      + assert (X : exists m, In m models /\ partly k isb weights m m1).
        { clearbody isb. clear - P2 I. induction P2 as [|a b la lb Pab P2 IH]; [destruct I|]. destruct I as [->|I]; [exists a; split; [now left|auto]|].
          destruct (IH I) as (m & J1 & J2). exists m. split; [now right|auto]. }
        destruct X as (m & J1 & (_ & J2 & _)). exists m. split; [now right|]. rewrite J2 in H1 by lia. exact H1.
    - intros (cr & Hc & [H1|(a & [<-|I] & H1)]).
      + left. right. exists cr. auto.
      + left. right. exists cr. split; [exact Hc|]. right. destruct P1 as (_ & P1 & _). rewrite P1 by lia. exact H1.
      + right. assert (X : exists m1, In m1 models1 /\ partly k isb weights a m1).
        { clearbody isb. clear - P2 I. induction P2 as [|x y la lb Pab P2 IH]; [destruct I|]. destruct I as [->|I]; [exists y; split; [now left|auto]|].
          destruct (IH I) as (m & J1 & J2). exists m. split; [now right|auto]. }
        destruct X as (m1 & J1 & (_ & J2 & _)). exists m1. split; [exact J1|]. exists cr. split; [exact Hc|]. rewrite J2 by lia. exact H1. }
  assert (One : forall a b c (t : bool), partly k isb weights a b -> length c = length b ->
     (forall i, nth i c zero = if touched (k * 4) i then (if t then zero else scale (nth i b zero) (root (nth i weights w0))) else nth i b zero) ->
     (t = true <-> isb k) -> partly (S k) isb weights a c).
  { clearbody isb. clear. intros a b c t (Q1 & Q2 & Q3) Lc N Ht. split; [congruence|]. split.
    - intros i Hi. rewrite N. unfold touched. destruct (Nat.ltb_spec i (k * 4 + 4)); [lia|]. rewrite andb_false_r. apply Q2. lia.
    - intros ch cr Hch Hcr. cbv zeta. rewrite N. unfold touched. destruct (Nat.eq_dec ch k) as [->|Ne].
      + replace ((k * 4 <=? k * 4 + cr) && (k * 4 + cr <? k * 4 + 4)) with true by (symmetry; apply andb_true_intro; split; [apply Nat.leb_le|apply Nat.ltb_lt]; lia).
        destruct t; [split; [reflexivity|intros X; exfalso; apply X, Ht; reflexivity]|]. split; [intros X; apply Ht in X; discriminate|].
        intros _. rewrite Q2 by lia. reflexivity.
      + replace (k * 4 <=? ch * 4 + cr) with false by (symmetry; apply Nat.leb_gt; lia). cbn [andb]. apply Q3; lia. }
  destruct f2; injection H as <- <-; constructor.
  - apply (One data data1 _ true P1); [| |exact Bad].
    + destruct (clear4_spec (k * 4) d1) as [-> _]; [lia|exact A1].
    + intros i. destruct (clear4_spec (k * 4) d1) as [_ ->]; [lia|]. rewrite A2. destruct (touched (k * 4) i); reflexivity.
  - clearbody isb. clear - P2 B1 One Bad L2. revert m2 B1. induction P2 as [|a b la lb Pab P2 IH]; intros m2 B1; inversion B1 as [|? y ? lc (C1 & C2) B1']; subst; cbn [map]; [constructor|].
    inversion L2; subst. constructor; [|apply IH; auto]. apply (One a b _ true Pab); [| |exact Bad].
    + destruct (clear4_spec (k * 4) y) as [-> _]; [lia|exact C1].
    + intros i. destruct (clear4_spec (k * 4) y) as [_ ->]; [lia|]. rewrite C2. destruct (touched (k * 4) i); reflexivity.
  - apply (One data data1 _ false P1); auto.
  - clearbody isb. clear - P2 B1 One Bad. revert m2 B1. induction P2 as [|a b la lb Pab P2 IH]; intros m2 B1; inversion B1 as [|? y ? lc (C1 & C2) B1']; subst; constructor; [|apply IH; auto].
    apply (One a b _ false Pab); auto.
Qed.
End Bda.

(** The same for the rows of BDA data, which have four correlations. *)
Theorem C68_bda : forall V W R (scale : V -> R -> V) (root : W -> R) zero finite w0 n flags weights data models data' models',
  n * 4 <= length data -> n * 4 <= length weights -> Forall (fun m => n * 4 <= length m) models ->
  weigh_row V W R scale root zero finite w0 n flags weights data models = (data', models') ->
  Forall2 (bda_weighted scale zero (root w0) n (bda_bad finite zero flags (data :: models)) (map root weights)) (data :: models) (data' :: models').
Proof.
  intros V W R scale root zero finite w0 n flags weights data models data' models' Ld Lw Lm H.
  assert (G : forall k, k <= n -> exists d m, fold_left (weigh_channel V W R scale root zero finite w0 flags weights) (seq 0 k) (data, models) = (d, m) /\
    Forall2 (partly scale root zero w0 k (bda_bad finite zero flags (data :: models)) weights) (data :: models) (d :: m)).
  { induction k as [|k IH]; intros Hk.
    - exists data, models. split; [reflexivity|]. clear. generalize (bda_bad finite zero flags (data :: models)). intros p. generalize (data :: models). intros l.
      induction l as [|a l IH]; constructor; [|exact IH]. split; [reflexivity|]. split; [reflexivity|]. intros; lia.
    - destruct (IH ltac:(lia)) as (d & m & E & P). rewrite seq_S, fold_left_app, E. cbn [fold_left Nat.add].
      destruct (weigh_channel V W R scale root zero finite w0 flags weights (d, m) k) as [d2 m2] eqn:E2. exists d2, m2. split; [reflexivity|].
      eapply (channel_spec scale root zero finite w0); [|exact Ld|exact Lm|exact P|exact E2]. lia. }
  destruct (G n (le_n n)) as (d & m & E & P). unfold weigh_row in H. rewrite E in H. injection H as <- <-.
  assert (X : forall a b, partly scale root zero w0 n (bda_bad finite zero flags (data :: models)) weights a b ->
    bda_weighted scale zero (root w0) n (bda_bad finite zero flags (data :: models)) (map root weights) a b).
  { intros a b (P1 & P2 & P3). split; [exact P1|]. intros ch cr H1 H2. cbv zeta. rewrite map_nth. apply P3; auto. }
  revert P X. generalize (bda_bad finite zero flags (data :: models)). intros p P X. clear - P X. induction P; constructor; auto.
Qed.
Print Assumptions C68_bda.
Example C68_bda_case : weigh_row nat nat nat Nat.mul S 0 (fun x => x <? 100) 0 3 [false; false; false; false; false; true; false; false] [1; 2; 3; 4; 5; 6; 7; 8; 9; 9; 9; 9]
  [1; 1; 1; 1; 2; 2; 2; 2; 3; 3; 3; 3] [[2; 2; 2; 2; 5; 5; 5; 5; 1; 1; 1; 100]] =
  ([2; 3; 4; 5; 0; 0; 0; 0; 0; 0; 0; 0], [[4; 6; 8; 10; 0; 0; 0; 0; 0; 0; 0; 0]]).
Proof. reflexivity. Qed.

(** Only the visibilities are looked at, not the weights: a weight whose square root is not a number makes visibilities that are not finite.  Here [None] is not
    a number. *)
Theorem C68_weights_refuted : exists (weights : list Z) data data' models',
  Forall (fun x => x <> None) data /\
  weigh_row (option Z) Z (option Z) (fun v r => match v, r with Some v, Some r => Some (v * r)%Z | _, _ => None end)
    (fun w => if (w <? 0)%Z then None else Some (Z.sqrt w)) (Some 0%Z) (fun v => match v with Some _ => true | None => false end) 0%Z 1
    [false; false; false; false] weights data [] = (data', models') /\ In None data'.
Proof.
  exists [4; 4; -1; 4]%Z, [Some 1; Some 2; Some 3; Some 4]%Z. do 2 eexists. split; [repeat constructor; discriminate|]. split; [reflexivity|].
  cbn. auto.
Qed.
Print Assumptions C68_weights_refuted.
