(** Proofs about the AOFlagger step *)
From Coq Require Import List Bool Arith Lia ZifyBool.
From Verif Require Import AverageModel InfoModel GainModel AoFlagModel AoFlagSpec DdecalProofs.
Import ListNotations.
Open Scope nat_scope.

Lemma mapi_get {A B} (f : nat -> A -> B) l i : nth_error (mapi f l) i = option_map (f i) (nth_error l i).
Proof.
  unfold mapi. rewrite nth_error_map, combine_nth_error, seq_nth_error. destruct (Nat.ltb_spec i (length l)) as [H|H].
  - now destruct (nth_error l i).
  - apply nth_error_None in H. now rewrite H.
Qed.
Lemma mapi_len {A B} (f : nat -> A -> B) l : length (mapi f l) = length l.
Proof. unfold mapi. rewrite map_length, combine_length, seq_length. lia. Qed.

Section Flagger.
Context {D T : Type}.
Variables window overlap n_bl : nat.
Variable selected : nat -> bool.
Variable detect : nat -> list (T * list D) -> nat -> nat -> bool.
Notation slot := (slot D T).
Notation state := (state D T).
Notation flag_baseline := (flag_baseline selected detect).
Implicit Types (s : slot) (l h : list slot) (st : state).

(** What a window [h] does with the slot at place [i], for the baselines before [k] *)
Definition win (k : nat) (h : list slot) (i : nat) (s : slot) : slot :=
  Slot (time s) (data s) (mapi (fun bl r => if (bl <? k) && selected bl then mapi (fun j f => set_channel (detect bl (image bl h) i j) f) r else r) (flags s)).
Lemma image_win k h bl : image bl (mapi (win k h) h) = image bl h.
Proof.
  unfold image. apply nth_error_same. intros i. rewrite !nth_error_map, mapi_get. now destruct (nth_error h i).
Qed.
Lemma mapi_id {A} (f : nat -> A -> A) (l : list A) : (forall i x, nth_error l i = Some x -> f i x = x) -> mapi f l = l.
Proof. intros H. apply nth_error_same. intros i. rewrite mapi_get. destruct (nth_error l i) eqn:E; cbn [option_map]; [f_equal; now apply H|reflexivity]. Qed.
Lemma win_0 h i s : win 0 h i s = s.
Proof. destruct s as [t d f]. unfold win. cbn [time data flags]. f_equal. apply mapi_id. reflexivity. Qed.

Lemma fold_held k st : held (fold_left flag_baseline (seq 0 k) st) = mapi (win k (held st)) (held st) /\ sent (fold_left flag_baseline (seq 0 k) st) = sent st.
Proof.
  induction k as [|k [IH1 IH2]].
  - cbn [seq fold_left]. split; [|reflexivity]. symmetry. apply mapi_id. intros. apply win_0.
  - rewrite seq_S, fold_left_app. cbn [fold_left Nat.add]. set (st' := fold_left flag_baseline (seq 0 k) st) in *. unfold AoFlagModel.flag_baseline. destruct (selected k) eqn:Es.
    + cbn [held sent]. split; [|exact IH2]. rewrite IH1, image_win. apply nth_error_same. intros i. rewrite !mapi_get. destruct (nth_error (held st) i) as [s|]; [|reflexivity]. cbn [option_map].
      f_equal. unfold set_slot, win. cbn [time data flags]. f_equal. apply nth_error_same. intros bl. rewrite set_nth_get, !mapi_get.
      destruct (Nat.eqb_spec bl k) as [->|N].
      * destruct (nth_error (flags s) k) as [r|] eqn:Er; [|reflexivity]. cbn [option_map]. f_equal. rewrite Es.
        replace (k <? S k) with true by (symmetry; apply Nat.ltb_lt; lia). cbn [andb]. f_equal.
        apply nth_error_nth. rewrite mapi_get, Er. cbn [option_map]. now rewrite Nat.ltb_irrefl.
      * destruct (nth_error (flags s) bl) as [r|]; [|reflexivity]. cbn [option_map]. f_equal.
        replace (bl <? S k) with (bl <? k) by (apply eq_true_iff_eq; rewrite !Nat.ltb_lt; lia). reflexivity.
    + split; [|exact IH2]. rewrite IH1. apply nth_error_same. intros i. rewrite !mapi_get. destruct (nth_error (held st) i) as [s|]; [|reflexivity]. cbn [option_map].
      f_equal. unfold win. f_equal. apply nth_error_same. intros bl. rewrite !mapi_get. destruct (nth_error (flags s) bl); [|reflexivity]. cbn [option_map]. f_equal.
      destruct (Nat.eqb_spec bl k) as [->|N]; [rewrite Es, !andb_false_r; reflexivity|].
      replace (bl <? S k) with (bl <? k) by (apply eq_true_iff_eq; rewrite !Nat.ltb_lt; lia). reflexivity.
Qed.

(** *** Windows one after the other *)
Definition covers (t : nat) (w : nat * nat) : bool := (fst w <=? t) && (t <? snd w).
(** What the windows [ws] of the time slots [l] do with slot number [t] *)
Definition judge (l : list slot) (ws : list (nat * nat)) (t : nat) (s : slot) : slot :=
  fold_left (fun s w => if covers t w then win n_bl (slice (fst w) (snd w) l) (t - fst w) s else s) ws s.
Definition full (k : nat) : nat * nat := (k * window, k * window + window + 2 * overlap).
Lemma judge_view l ws t s : time (judge l ws t s) = time s /\ data (judge l ws t s) = data s.
Proof.
  unfold judge. revert s. induction ws as [|w ws IH]; intros s; [split; reflexivity|]. cbn [fold_left]. destruct (IH (if covers t w then win n_bl (slice (fst w) (snd w) l) (t - fst w) s else s)) as [A B].
  rewrite A, B. destruct (covers t w); split; reflexivity.
Qed.
Lemma slice_get {A} (l : list A) a b i : nth_error (slice a b l) i = if i <? b - a then nth_error l (a + i) else None.
Proof. unfold slice. now rewrite nth_error_firstn', nth_error_skipn'. Qed.
Lemma win_image k h h' i s : (forall bl, image bl h = image bl h') -> win k h i s = win k h' i s.
Proof. intros E. unfold win. f_equal. apply nth_error_same. intros bl. rewrite !mapi_get. destruct (nth_error (flags s) bl); cbn [option_map]; [|reflexivity]. now rewrite E. Qed.

(** The state after the time slots [firstn t l] *)
Definition inv (l : list slot) (t K : nat) (st : state) : Prop :=
  length (sent st) = K * window /\ sent st ++ held st = mapi (judge l (map full (seq 0 K))) (firstn t l) /\
  t < K * window + window + 2 * overlap /\ (K = 0 \/ K * window + 2 * overlap <= t) /\ K * window <= t <= length l.

Lemma flag_ok l t ws a st n : length (sent st) = a -> a <= t <= length l -> sent st ++ held st = mapi (judge l ws) (firstn t l) -> n <= length (held st) ->
  exists st', flag 4 n_bl selected detect n st = Ok st' /\ length (sent st') = a + n /\ sent st' ++ held st' = mapi (judge l (ws ++ [(a, t)])) (firstn t l).
Proof.
  intros La Ht E Ln. unfold flag. rewrite Nat.eqb_refl. destruct (fold_held n_bl st) as [Eh Es]. eexists. split; [reflexivity|]. cbn [sent held]. rewrite Eh, Es. split.
  - rewrite app_length, firstn_length, mapi_len. lia.
  - rewrite <- app_assoc, firstn_skipn. apply nth_error_same. intros i. rewrite mapi_get.
    assert (G : nth_error (sent st ++ held st) i = option_map (judge l ws i) (nth_error (firstn t l) i)) by now rewrite E, mapi_get.
    assert (Lh : length (held st) = t - a). { apply (f_equal (@length slot)) in E. rewrite app_length, mapi_len, firstn_length in E. lia. }
    assert (J : forall s, judge l (ws ++ [(a, t)]) i s = if (a <=? i) && (i <? t) then win n_bl (slice a t l) (i - a) (judge l ws i s) else judge l ws i s).
    { intros s. unfold judge at 1. rewrite fold_left_app. cbn [fold_left fst snd]. reflexivity. }
    destruct (Nat.lt_ge_cases i a) as [L|L].
    + rewrite nth_error_app1 in * by lia. rewrite G. destruct (nth_error (firstn t l) i) as [s|]; [|reflexivity]. cbn [option_map]. f_equal. rewrite J.
      replace (a <=? i) with false by (symmetry; apply Nat.leb_gt; lia). reflexivity.
    + rewrite nth_error_app2 in * by lia. rewrite mapi_get, G. destruct (nth_error (firstn t l) i) as [s|] eqn:El; [|reflexivity]. cbn [option_map]. f_equal. rewrite J.
      assert (i < t). { rewrite nth_error_firstn' in El. destruct (Nat.ltb_spec i t); [assumption|discriminate]. }
      replace ((a <=? i) && (i <? t)) with true by (symmetry; apply andb_true_iff; split; [apply Nat.leb_le|apply Nat.ltb_lt]; lia).
      rewrite La. apply win_image. intros bl. unfold image. apply nth_error_same. intros j. rewrite !nth_error_map, slice_get.
      assert (Gj : nth_error (held st) j = option_map (judge l ws (a + j)) (nth_error (firstn t l) (a + j))).
      { rewrite <- mapi_get, <- E, nth_error_app2 by lia. f_equal. lia. }
      rewrite Gj, nth_error_firstn'. replace (a + j <? t) with (j <? t - a) by (apply eq_true_iff_eq; rewrite !Nat.ltb_lt; lia).
      destruct (j <? t - a); [|reflexivity]. destruct (nth_error l (a + j)) as [x|]; [|reflexivity]. cbn [option_map]. destruct (judge_view l ws (a + j) x) as [A B]. now rewrite A, B.
Qed.

Lemma judge_late l K t s : (K = 0 \/ K * window + 2 * overlap <= t) -> judge l (map full (seq 0 K)) t s = s.
Proof.
  intros H. unfold judge. assert (G : forall ws, Forall (fun w => covers t w = false) ws -> fold_left (fun s w => if covers t w then win n_bl (slice (fst w) (snd w) l) (t - fst w) s else s) ws s = s).
  { induction ws as [|w ws IH]; intros F; [reflexivity|]. apply Forall_cons_iff in F. destruct F as [F1 F2]. cbn [fold_left]. rewrite F1. auto. }
  apply G. apply Forall_forall. intros w Hw. apply in_map_iff in Hw. destruct Hw as (k & <- & Hk). apply in_seq in Hk. unfold covers, full. cbn [fst snd].
  assert (k * window + window <= K * window) by nia. destruct (Nat.ltb_spec t (k * window + window + 2 * overlap)); [lia|]. apply andb_false_r.
Qed.

Lemma process_ok l t K st s : 0 < window -> inv l t K st -> nth_error l t = Some s -> exists st' K', process window overlap 4 n_bl selected detect st s = Ok st' /\ inv l (t + 1) K' st'.
Proof.
  intros Hw (I1 & I2 & I3 & I4 & I5) El. assert (Lt : t < length l) by (apply nth_error_Some; congruence).
  assert (F : firstn (t + 1) l = firstn t l ++ [s]).
  { apply nth_error_same. intros i. rewrite nth_error_firstn'. destruct (Nat.lt_ge_cases i t) as [L|L].
    - rewrite nth_error_app1 by (rewrite firstn_length; lia). rewrite nth_error_firstn'. replace (i <? t) with true by (symmetry; apply Nat.ltb_lt; lia).
      now replace (i <? t + 1) with true by (symmetry; apply Nat.ltb_lt; lia).
    - rewrite nth_error_app2 by (rewrite firstn_length; lia). rewrite firstn_length, Nat.min_l by lia. destruct (Nat.eq_dec i t) as [->|N].
      + rewrite Nat.sub_diag. now replace (t <? t + 1) with true by (symmetry; apply Nat.ltb_lt; lia).
      + replace (i <? t + 1) with false by (symmetry; apply Nat.ltb_ge; lia). destruct (i - t) as [|j] eqn:Ej; [lia|]. now destruct j. }
  assert (E : sent st ++ held st ++ [s] = mapi (judge l (map full (seq 0 K))) (firstn (t + 1) l)).
  { rewrite app_assoc, I2. apply nth_error_same. intros i. rewrite F, mapi_get. destruct (Nat.lt_ge_cases i t) as [L|L].
    - rewrite !nth_error_app1 by (rewrite ?mapi_len, firstn_length; lia). now rewrite mapi_get.
    - rewrite !nth_error_app2 by (rewrite ?mapi_len, firstn_length; lia). rewrite mapi_len, firstn_length, Nat.min_l by lia. destruct (i - t) as [|j] eqn:Ej; [|now destruct j].
      cbn [nth_error option_map]. f_equal. replace i with t by lia. symmetry. now apply judge_late. }
  assert (Lh : length (held st ++ [s]) = t + 1 - K * window). { apply (f_equal (@length slot)) in E. rewrite app_length, mapi_len, firstn_length in E. lia. }
  unfold process. cbn [held]. rewrite Lh. destruct (Nat.eqb_spec (t + 1 - K * window) (window + 2 * overlap)) as [Ew|Nw].
  - destruct (flag_ok l (t + 1) (map full (seq 0 K)) (K * window) (State (held st ++ [s]) (counted st) (stats st) (sent st)) window) as (st' & E1 & E2 & E3).
    { exact I1. } { lia. } { exact E. } { cbn [held]. lia. }
    exists st', (S K). split; [exact E1|]. unfold inv. rewrite seq_S, map_app. cbn [Nat.add map]. unfold full at 2.
    replace (K * window + window + 2 * overlap) with (t + 1) by lia. split; [rewrite E2; lia|]. split; [exact E3|]. split; [cbn [Nat.mul]; lia|]. split; [right; cbn [Nat.mul]; lia|cbn [Nat.mul]; lia].
  - exists (State (held st ++ [s]) (counted st) (stats st) (sent st)), K. split; [reflexivity|]. unfold inv. cbn [sent held]. split; [exact I1|]. split; [exact E|]. split; [lia|]. split; [destruct I4; [left|right]; lia|lia].
Qed.
Lemma process_all_ok l : 0 < window -> forall r t K st, inv l t K st -> skipn t l = r -> exists st' K', process_all window overlap 4 n_bl selected detect st r = Ok st' /\ inv l (length l) K' st'.
Proof.
  intros Hw. induction r as [|s r IH]; intros t K st I E.
  - exists st, K. split; [reflexivity|]. assert (t <= length l) by apply I. assert (length l <= t). { apply (f_equal (@length slot)) in E. rewrite skipn_length in E. cbn in E. lia. }
    now replace (length l) with t by lia.
  - assert (El : nth_error l t = Some s). { rewrite <- (Nat.add_0_r t), <- nth_error_skipn', E. reflexivity. }
    destruct (process_ok l t K st s Hw I El) as (st1 & K1 & E1 & I1). cbn [process_all]. rewrite E1. cbn [bind]. apply (IH (t + 1) K1 st1 I1).
    rewrite Nat.add_comm. cbn [Nat.add]. change (S t) with (1 + t). apply nth_error_same. intros i. rewrite nth_error_skipn'. replace (1 + t + i) with (t + (1 + i)) by lia. rewrite <- nth_error_skipn', E. reflexivity.
Qed.
Lemma run_ok l : 0 < window -> exists st ws, run window overlap 4 n_bl selected detect l = Ok st /\ sent st = mapi (judge l ws) l /\ held st = [] /\
  forall a b, In (a, b) ws <-> is_window window overlap (length l) a b.
Proof.
  intros Hw. destruct (process_all_ok l Hw l 0 0 init) as (st & K & E & I1 & I2 & I3 & I4 & I5).
  { unfold inv. cbn [sent held init length seq map firstn app]. repeat split; try lia. } { reflexivity. }
  unfold run. rewrite E. cbn [bind]. rewrite firstn_all in I2. set (tot := length l) in *.
  assert (W : forall a b, In (a, b) (map full (seq 0 K)) <-> exists k, a = k * window /\ b = a + window + 2 * overlap /\ b <= tot).
  { intros a b. rewrite in_map_iff. split.
    - intros (k & F & Hk). apply in_seq in Hk. unfold full in F. injection F as <- <-. exists k. repeat split; try lia. assert (k * window + window <= K * window) by nia. lia.
    - intros (k & -> & -> & L). exists k. split; [reflexivity|]. apply in_seq. split; [lia|]. cbn [Nat.add]. destruct (Nat.lt_ge_cases k K) as [|G]; [assumption|]. assert (K * window <= k * window) by nia. lia. }
  assert (Lh : length (held st) = tot - K * window). { apply (f_equal (@length slot)) in I2. rewrite app_length, mapi_len in I2. fold tot in I2. lia. }
  unfold finish. destruct (held st) as [|s0 h] eqn:Eh.
  - exists st, (map full (seq 0 K)). split; [reflexivity|]. split; [now rewrite <- I2, app_nil_r|]. split; [exact Eh|]. cbn [length] in Lh. intros a b. rewrite W. unfold is_window. split.
    + intros (k & A & B & C). exists k. split; [exact A|left; auto].
    + intros (k & A & [[B C]|(B & C & F & G)]); exists k; [auto|]. exfalso.
      assert (k < K). { destruct (Nat.lt_ge_cases k K); [assumption|]. assert (K * window <= k * window) by nia. lia. } assert (k * window + window <= K * window) by nia. destruct I4; lia.
  - rewrite <- Eh in *. destruct (flag_ok l tot (map full (seq 0 K)) (K * window) st (length (held st))) as (st' & E1 & E2 & E3); [exact I1|lia| |lia|].
    { rewrite I2. now unfold tot; rewrite firstn_all. }
    rewrite E1. exists st', (map full (seq 0 K) ++ [(K * window, tot)]). split; [reflexivity|]. unfold tot in E3. rewrite firstn_all in E3. fold tot in E3.
    assert (Z : held st' = []). { apply length_zero_iff_nil. apply (f_equal (@length slot)) in E3. rewrite app_length, mapi_len in E3. fold tot in E3. lia. }
    rewrite Z, app_nil_r in E3. split; [exact E3|]. split; [exact Z|]. intros a b. rewrite in_app_iff, W. unfold is_window. assert (P : 0 < length (held st)) by (rewrite Eh; cbn; lia). split.
    + intros [(k & A & B & C)|[F|[]]]; [exists k; auto|]. injection F as <- <-. exists K. split; [reflexivity|]. right. destruct I4; repeat split; try lia; auto.
    + intros (k & A & [[B C]|(B & C & F & G)]); [left; eauto|]. right. left. subst a b. f_equal. f_equal.
      assert (K <= k). { destruct (Nat.lt_ge_cases k K); [|assumption]. assert (k * window + window <= K * window) by nia. destruct I4; lia. }
      destruct (Nat.eq_dec k K); [lia|]. assert (K * window + window <= k * window) by nia. lia.
Qed.

(** *** A visibility *)
Lemma at_win k h i s bl ch : at_ (win k h i s) bl ch = option_map (fun f => if (bl <? k) && selected bl then set_channel (detect bl (image bl h) i ch) f else f) (at_ s bl ch).
Proof.
  unfold at_, win. cbn [flags]. rewrite mapi_get. destruct (nth_error (flags s) bl) as [r|]; [|reflexivity]. cbn [option_map]. destruct ((bl <? k) && selected bl); [rewrite mapi_get; now destruct (nth_error r ch)|]. now destruct (nth_error r ch).
Qed.
Lemma set_channel_uniform mask b : set_channel mask (repeat b 4) = repeat (b || mask) 4.
Proof. now destruct b, mask. Qed.
Lemma at_judge l ws t s bl ch b : bl < n_bl -> at_ s bl ch = Some (repeat b 4) ->
  at_ (judge l ws t s) bl ch = Some (repeat (b || selected bl && existsb (fun w => covers t w && detect bl (image bl (slice (fst w) (snd w) l)) (t - fst w) ch) ws) 4).
Proof.
  intros Hb. unfold judge. revert s b. induction ws as [|w ws IH]; intros s b E; [cbn; now rewrite andb_false_r, orb_false_r|]. cbn [fold_left existsb].
  rewrite (IH _ (b || selected bl && (covers t w && detect bl (image bl (slice (fst w) (snd w) l)) (t - fst w) ch))).
  - do 2 f_equal. destruct b, (selected bl); cbn; reflexivity.
  - destruct (covers t w); [|rewrite E; cbn; now rewrite andb_false_r, orb_false_r]. rewrite at_win, E. cbn [option_map]. replace (bl <? n_bl) with true by (symmetry; now apply Nat.ltb_lt). cbn [andb].
    destruct (selected bl); [now rewrite set_channel_uniform|cbn; now rewrite orb_false_r].
Qed.
Lemma at_judge_none l ws t s bl ch : at_ s bl ch = None <-> at_ (judge l ws t s) bl ch = None.
Proof.
  unfold judge. revert s. induction ws as [|w ws IH]; intros s; [reflexivity|]. cbn [fold_left]. rewrite <- IH. destruct (covers t w); [|reflexivity]. rewrite at_win. now destruct (at_ s bl ch).
Qed.

(** *** Counts *)
Definition total (h : list slot) (bl ch : nat) : nat := list_sum (map (fun s => if open_ s bl ch then 1 else 0) h).
Definition pair_dec (x y : nat * nat) : {x = y} + {x <> y}.
Proof. decide equality; apply Nat.eq_dec. Defined.
Notation count st bl ch := (count_occ pair_dec (counted st) (bl, ch)).
Lemma count_concat {A} (g : nat -> A -> list (nat * nat)) (l : list A) x : count_occ pair_dec (concat (mapi g l)) x = list_sum (mapi (fun i a => count_occ pair_dec (g i a) x) l).
Proof. unfold mapi. induction (combine (seq 0 (length l)) l) as [|p q IH]; [reflexivity|]. cbn [map concat list_sum fold_right]. rewrite count_occ_app, IH. reflexivity. Qed.
Lemma count_channels (P : nat -> list bool -> bool) bl bl0 ch r : count_occ pair_dec (concat (mapi (fun j f => if P j f then [(bl, j)] else []) r)) (bl0, ch) =
  if bl =? bl0 then match nth_error r ch with Some f => if P ch f then 1 else 0 | None => 0 end else 0.
Proof.
  unfold mapi. assert (G : forall a, count_occ pair_dec (concat (map (fun p => if P (fst p) (snd p) then [(bl, fst p)] else []) (combine (seq a (length r)) r))) (bl0, ch) =
    if (bl =? bl0) && (a <=? ch) then match nth_error r (ch - a) with Some f => if P ch f then 1 else 0 | None => 0 end else 0).
  { induction r as [|f r IH]; intros a; [cbn; destruct (ch - a); now destruct ((bl =? bl0) && (a <=? ch))|]. cbn [length seq combine map concat]. rewrite count_occ_app, IH. cbn [fst snd].
    assert (E : count_occ pair_dec (if P a f then [(bl, a)] else []) (bl0, ch) = if (bl =? bl0) && (a =? ch) && P a f then 1 else 0).
    { destruct (P a f); cbn [count_occ]; [|now rewrite andb_false_r]. destruct (pair_dec (bl, a) (bl0, ch)) as [F|F].
      - injection F as -> ->. now rewrite !Nat.eqb_refl.
      - rewrite andb_true_r. destruct (Nat.eqb_spec bl bl0), (Nat.eqb_spec a ch); subst; cbn; congruence. }
    rewrite E. destruct (bl =? bl0); [|reflexivity]. cbn [andb]. clear E IH. destruct (Nat.eqb_spec a ch) as [Ea|N]; [subst a|].
    - rewrite Nat.leb_refl, Nat.sub_diag. replace (S ch <=? ch) with false by (symmetry; apply Nat.leb_gt; lia). cbn [nth_error andb]. now destruct (P ch f).
    - cbn [andb]. destruct (Nat.leb_spec a ch) as [L|L].
      + replace (S a <=? ch) with true by (symmetry; apply Nat.leb_le; lia). replace (ch - a) with (S (ch - S a)) by lia. reflexivity.
      + now replace (S a <=? ch) with false by (symmetry; apply Nat.leb_gt; lia). }
  rewrite G, andb_true_r, Nat.sub_0_r. reflexivity.
Qed.
Lemma count_slot_ok bl mask s bl0 ch : count_occ pair_dec (count_slot bl mask s) (bl0, ch) = if (bl =? bl0) && open_ s bl0 ch && mask ch then 1 else 0.
Proof.
  unfold count_slot. rewrite (count_channels (fun j f => negb (nth 0 f false) && mask j)). destruct (Nat.eqb_spec bl bl0) as [->|]; [|reflexivity]. cbn [andb]. unfold open_, at_.
  destruct (nth_error (flags s) bl0) as [r|] eqn:E; [rewrite (nth_error_nth _ _ _ E); now destruct (nth_error r ch)|]. apply nth_error_None in E. rewrite nth_overflow by lia. now destruct ch.
Qed.
Lemma open_set_slot bl mask s bl0 ch : open_ (set_slot bl mask s) bl0 ch = open_ s bl0 ch && negb ((bl =? bl0) && mask ch).
Proof.
  unfold open_, at_, set_slot. cbn [flags]. rewrite set_nth_get. rewrite (Nat.eqb_sym bl bl0). destruct (Nat.eqb_spec bl0 bl) as [->|]; [|now rewrite andb_true_r]. cbn [andb].
  destruct (nth_error (flags s) bl) as [r|] eqn:E; [|reflexivity]. cbn [option_map]. rewrite (nth_error_nth _ _ _ E), mapi_get. destruct (nth_error r ch) as [f|]; [|reflexivity]. cbn [option_map].
  unfold set_channel. destruct (nth 0 f false) eqn:Ef; cbn [negb andb]; [now rewrite Ef|]. destruct (mask ch); cbn; [reflexivity|now rewrite Ef].
Qed.
Lemma sum_mapi (f g k : nat -> slot -> nat) h : (forall i s, f i s + g i s = k i s) -> list_sum (mapi f h) + list_sum (mapi g h) = list_sum (mapi k h).
Proof. intros H. unfold mapi. induction (combine (seq 0 (length h)) h) as [|p q IH]; [reflexivity|]. cbn [map list_sum fold_right] in *. specialize (H (fst p) (snd p)). unfold list_sum in IH. lia. Qed.
Lemma map_mapi {A B C} (f : B -> C) (g : nat -> A -> B) (l : list A) : map f (mapi g l) = mapi (fun i a => f (g i a)) l.
Proof. unfold mapi. now rewrite map_map. Qed.
Lemma map_as_mapi {A B} (f : A -> B) (l : list A) : map f l = mapi (fun _ a => f a) l.
Proof. apply nth_error_same. intros i. rewrite nth_error_map, mapi_get. reflexivity. Qed.
Lemma flag_baseline_count st bl0 bl ch : count (flag_baseline st bl0) bl ch + total (held (flag_baseline st bl0)) bl ch = count st bl ch + total (held st) bl ch.
Proof.
  unfold AoFlagModel.flag_baseline. destruct (selected bl0); [|reflexivity]. cbn [counted held]. rewrite count_occ_app, count_concat, <- Nat.add_assoc. f_equal. unfold total.
  rewrite map_mapi, map_as_mapi. apply sum_mapi. intros i s. rewrite count_slot_ok, open_set_slot. destruct (bl0 =? bl), (open_ s bl ch), (detect bl0 (image bl0 (held st)) i ch); reflexivity.
Qed.
Lemma fold_count k st bl ch : count (fold_left flag_baseline (seq 0 k) st) bl ch + total (held (fold_left flag_baseline (seq 0 k) st)) bl ch = count st bl ch + total (held st) bl ch.
Proof. induction k as [|k IH]; [reflexivity|]. rewrite seq_S, fold_left_app. cbn [fold_left]. now rewrite flag_baseline_count. Qed.
Lemma total_app a b bl ch : total (a ++ b) bl ch = total a bl ch + total b bl ch.
Proof. unfold total. now rewrite map_app, list_sum_app. Qed.
Lemma flag_count n st st' bl ch : flag 4 n_bl selected detect n st = Ok st' -> count st' bl ch + total (sent st' ++ held st') bl ch = count st bl ch + total (sent st ++ held st) bl ch.
Proof.
  unfold flag. rewrite Nat.eqb_refl. intros E. injection E as <-. cbn [counted sent held]. rewrite <- app_assoc, firstn_skipn, !total_app.
  destruct (fold_held n_bl st) as [_ Es]. rewrite Es. pose proof (fold_count n_bl st bl ch). lia.
Qed.
Lemma process_all_count l : forall st st' bl ch, process_all window overlap 4 n_bl selected detect st l = Ok st' ->
  count st' bl ch + total (sent st' ++ held st') bl ch = count st bl ch + total (sent st ++ held st) bl ch + total l bl ch.
Proof.
  induction l as [|s l IH]; intros st st' bl ch E; [injection E as <-; unfold total; cbn; lia|]. cbn [process_all] in E.
  destruct (process window overlap 4 n_bl selected detect st s) as [st1| |] eqn:E1; try discriminate. cbn [bind] in E. rewrite (IH st1 st' bl ch E).
  assert (G : count st1 bl ch + total (sent st1 ++ held st1) bl ch = count st bl ch + total (sent st ++ held st ++ [s]) bl ch).
  { unfold process in E1. destruct (_ =? _) in E1; [apply (flag_count _ _ _ bl ch) in E1; exact E1|]. injection E1 as <-. reflexivity. }
  rewrite G. change (s :: l) with ([s] ++ l). rewrite !total_app. lia.
Qed.
Lemma run_count l st bl ch : run window overlap 4 n_bl selected detect l = Ok st -> count st bl ch + total (sent st ++ held st) bl ch = total l bl ch.
Proof.
  unfold run. destruct (process_all window overlap 4 n_bl selected detect init l) as [st1| |] eqn:E1; try discriminate. cbn [bind]. intros E. pose proof (process_all_count l _ _ bl ch E1) as C.
  unfold total in C at 2. cbn in C. rewrite <- C. unfold finish in E. destruct (held st1) eqn:Eh; [injection E as <-; now rewrite Eh|]. rewrite <- Eh in *. now rewrite (flag_count _ _ _ bl ch E).
Qed.
Lemma newly_total before : forall after bl ch, length after = length before -> (forall i s s', nth_error before i = Some s -> nth_error after i = Some s' -> open_ s' bl ch = true -> open_ s bl ch = true) ->
  newly before after bl ch + total after bl ch = total before bl ch.
Proof.
  induction before as [|s l IH]; intros [|s' l'] bl ch L H; try discriminate; [reflexivity|]. unfold newly, total in *. cbn [combine filter map list_sum fold_right fst snd].
  assert (E : length (filter (fun p : slot * slot => open_ (fst p) bl ch && negb (open_ (snd p) bl ch)) (combine l l')) + list_sum (map (fun s => if open_ s bl ch then 1 else 0) l') = list_sum (map (fun s => if open_ s bl ch then 1 else 0) l)).
  { apply (IH l' bl ch); [cbn in L; lia|]. intros i x x' A B. apply (H (S i) x x' A B). }
  specialize (H 0 s s' eq_refl eq_refl). unfold list_sum in E. destruct (open_ s bl ch), (open_ s' bl ch); cbn [andb negb length]; try lia.
Qed.
End Flagger.
