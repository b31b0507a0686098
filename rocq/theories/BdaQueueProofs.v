(** Proofs about the queue of BdaDdeCal. *)
From Coq Require Import List Bool Arith Lia ZifyBool ZifyNat.
From Verif Require Import AverageModel InfoModel GainModel DdecalProofs BdaQueueModel BdaQueueSpec.
Import ListNotations.
Open Scope nat_scope.

Section Queue.
Context {D M F W : Type}.
Variables (n_steps n_dir : nat) (only_predict keep_model : bool) (uvw : buffer D M F W -> F) (predict : nat -> F * W -> M) (sum : list M -> D).
Hypothesis Hn : n_steps <= n_dir.
Notation buf := (buffer D M F W).
Notation P d b := (predict d (flags b, rest b)).

(** Buffer number [i], if the step of direction [d] gave [r d] results *)
Definition mk (r : nat -> nat) (i : nat) (b : buf) : buf :=
  Buffer (main b) (flags b) (rest b) (map (fun d => if d <? n_steps then if i <? r d then Some (P d b) else None else nth d (models b) None) (seq 0 n_dir)).
Definition full (b : buf) : buf :=
  Buffer (main b) (flags b) (rest b) (map (fun d => if d <? n_steps then Some (P d b) else nth d (models b) None) (seq 0 n_dir)).
Definition Q (r : nat -> nat) (j : nat) (s : list buf) : list buf := map (fun p => mk r (fst p) (snd p)) (combine (seq j (length s)) s).
Definition upd (r : nat -> nat) (d x : nat) : nat -> nat := fun e => if e =? d then x else r e.

Lemma mk_ext r r' i b : (forall d, d < n_steps -> (i <? r d) = (i <? r' d)) -> mk r i b = mk r' i b.
Proof. intros H. unfold mk. f_equal. apply map_ext. intros d. destruct (Nat.ltb_spec d n_steps) as [L|L]; [now rewrite (H d L)|reflexivity]. Qed.
Lemma Q_ext r r' s : forall j, (forall i d, j <= i -> i < j + length s -> d < n_steps -> (i <? r d) = (i <? r' d)) -> Q r j s = Q r' j s.
Proof.
  induction s as [|b s IH]; intros j H; [reflexivity|]. change (mk r j b :: Q r (S j) s = mk r' j b :: Q r' (S j) s). cbn [length] in H. f_equal.
  - apply mk_ext. intros d Hd. apply H; lia.
  - apply IH. intros i d Hi Hl Hd. apply H; lia.
Qed.
Lemma mk_models r i b d : d < n_dir -> nth d (models (mk r i b)) None = if d <? n_steps then if i <? r d then Some (P d b) else None else nth d (models b) None.
Proof.
  intros H. cbn [mk models].
  assert (E := nth_seq_map (fun d => if d <? n_steps then if i <? r d then Some (P d b) else None else nth d (models b) None) n_dir d).
  assert (L : (d <? n_dir) = true) by lia. rewrite L in E. exact (nth_error_nth _ _ None E).
Qed.
Lemma set_model_mk r d b : d < n_steps -> set_model d (P d b) (mk r (r d) b) = mk (upd r d (S (r d))) (r d) b.
Proof.
  intros Hd. unfold set_model. cbn [mk main flags rest models]. unfold mk. f_equal. apply nth_error_same. intros e. rewrite set_nth_get, !nth_seq_map.
  unfold upd. destruct (Nat.eqb_spec e d) as [E|E].
  - subst e. assert (L : (d <? n_dir) = true) by lia. rewrite L. cbn [option_map]. assert (L2 : (d <? n_steps) = true) by lia. rewrite L2.
    assert (L3 : (r d <? S (r d)) = true) by lia. now rewrite L3.
  - reflexivity.
Qed.
Lemma place_one d s : d < n_steps -> forall r j b, j <= r d -> nth_error s (r d - j) = Some b ->
  get (Q r j s) (r d - j) = Ok (mk r (r d) b) /\ set_nth (Q r j s) (r d - j) (set_model d (P d b) (mk r (r d) b)) = Q (upd r d (S (r d))) j s.
Proof.
  intros Hd r. induction s as [|x s IH]; intros j b Hj E; [now destruct (r d - j)|].
  change (Q r j (x :: s)) with (mk r j x :: Q r (S j) s). change (Q (upd r d (S (r d))) j (x :: s)) with (mk (upd r d (S (r d))) j x :: Q (upd r d (S (r d))) (S j) s).
  destruct (Nat.eq_dec (r d) j) as [Z|Z].
  - replace (r d - j) with 0 in * by lia. injection E as ->. rewrite <- Z. split; [reflexivity|]. cbn [set_nth]. f_equal; [now apply set_model_mk|].
    apply Q_ext. intros i e Hi _ He. unfold upd. destruct (Nat.eqb_spec e d) as [X|X]; [subst e; lia|reflexivity].
  - replace (r d - j) with (S (r d - S j)) in * by lia. cbn [nth_error] in E. destruct (IH (S j) b ltac:(lia) E) as [G1 G2]. split.
    + unfold get in *. cbn [nth_error]. exact G1.
    + cbn [set_nth]. rewrite G2. f_equal. apply mk_ext. intros e He. unfold upd. destruct (Nat.eqb_spec e d) as [X|X]; [subst e; lia|reflexivity].
Qed.
Lemma place_ok d s j : d < n_steps -> forall k r, j <= r d -> r d + k <= j + length s ->
  place d (map (fun b => P d b) (firstn k (skipn (r d - j) s))) (r d - j) (Q r j s) = Ok (Q (upd r d (r d + k)) j s).
Proof.
  intros Hd. induction k as [|k IH]; intros r Hj Hk.
  - cbn [firstn map place]. f_equal. apply Q_ext. intros i e _ _ _. unfold upd. destruct (Nat.eqb_spec e d) as [X|X]; [subst e; f_equal; lia|reflexivity].
  - destruct (nth_error s (r d - j)) as [b|] eqn:E; [|apply nth_error_None in E; lia].
    assert (K : skipn (r d - j) s = b :: skipn (S (r d) - j) s).
    { replace (S (r d) - j) with (S (r d - j)) by lia. clear - E. revert E. generalize (r d - j) as i. intros i. revert s. induction i as [|i IH]; intros [|x s] E; try discriminate.
      - injection E as ->. reflexivity.
      - cbn [skipn]. now apply IH. }
    rewrite K. cbn [firstn map place]. destruct (place_one d s Hd r j b Hj E) as [G1 G2]. rewrite G1. cbn [bind]. rewrite G2.
    set (r' := upd r d (S (r d))). assert (R : r' d = S (r d)) by (unfold r', upd; now rewrite Nat.eqb_refl).
    pose proof (IH r') as I. rewrite R in I. replace (S (r d - j)) with (S (r d) - j) by lia. rewrite I by lia. f_equal. apply Q_ext. intros i e _ _ _. unfold r', upd.
    destruct (Nat.eqb_spec e d); [f_equal; lia|reflexivity].
Qed.
Lemma find_free_ok d s r : d < n_steps -> forall j, j <= r d -> r d <= j + length s -> find_free d (Q r j s) = r d - j.
Proof.
  intros Hd. induction s as [|b s IH]; intros j H1 H2.
  - cbn in *. lia.
  - change (Q r j (b :: s)) with (mk r j b :: Q r (S j) s). cbn [find_free]. rewrite mk_models by lia. assert (L : (d <? n_steps) = true) by lia. rewrite L. cbn [length] in H2.
    destruct (Nat.ltb_spec j (r d)) as [G|G]; [rewrite IH by lia; lia|lia].
Qed.
Definition pend (r : nat -> nat) (l : list buf) (d m : nat) : list (list M) := map (fun d => map (fun b => P d b) (skipn (r d) l)) (seq d m).
Lemma skipn_skipn' {T} a b (l : list T) : skipn a (skipn b l) = skipn (b + a) l.
Proof. apply nth_error_same. intros i. rewrite !nth_error_skipn'. f_equal. lia. Qed.
Lemma firstn_min {T} k (l : list T) : firstn k l = firstn (Nat.min k (length l)) l.
Proof. apply nth_error_same. intros i. rewrite !nth_error_firstn'. destruct (Nat.ltb_spec i k), (Nat.ltb_spec i (Nat.min k (length l))); try reflexivity; [apply nth_error_None|]; lia. Qed.
Lemma extract_ok k l j m : forall d r, d + m <= n_steps -> j <= length l -> (forall e, e < n_steps -> j <= r e <= length l) ->
  exists r', extract k d (pend r l d m) (Q r j (skipn j l)) = Ok (pend r' l d m, Q r' j (skipn j l)) /\
    forall e, r' e = if (d <=? e) && (e <? d + m) then Nat.min (r e + k e) (length l) else r e.
Proof.
  induction m as [|m IH]; intros d r Hd Hj Hr.
  - exists r. split; [reflexivity|]. intros e. destruct (Nat.leb_spec d e), (Nat.ltb_spec e (d + 0)); cbn [andb]; try reflexivity; lia.
  - unfold pend. cbn [seq map]. fold (pend r l (S d) m). cbn [extract]. specialize (Hr d ltac:(lia)) as Hrd. rewrite find_free_ok by (rewrite ?skipn_length; lia).
    set (c := Nat.min (k d) (length l - r d)).
    assert (E1 : firstn (k d) (map (fun b => P d b) (skipn (r d) l)) = map (fun b => P d b) (firstn c (skipn (r d - j) (skipn j l)))).
    { rewrite skipn_skipn'. replace (j + (r d - j)) with (r d) by lia. rewrite firstn_map. f_equal. rewrite firstn_min, skipn_length. reflexivity. }
    rewrite E1, place_ok by (rewrite ?skipn_length; lia). cbn [bind]. set (r1 := upd r d (r d + c)).
    assert (E2 : pend r l (S d) m = pend r1 l (S d) m).
    { unfold pend. apply map_ext_in. intros e He. apply in_seq in He. unfold r1, upd. destruct (Nat.eqb_spec e d); [lia|reflexivity]. }
    rewrite E2. destruct (IH (S d) r1) as (r' & E3 & R'); [lia|exact Hj| |].
    { intros e He. unfold r1, upd. destruct (Nat.eqb_spec e d); [lia|now apply Hr]. }
    rewrite E3. cbn [bind]. exists r'. split.
    + do 2 f_equal. unfold pend. cbn [seq map]. f_equal. rewrite R'. assert (X : (S d <=? d) = false) by lia. rewrite X. cbn [andb]. unfold r1, upd. rewrite Nat.eqb_refl.
      rewrite skipn_map, skipn_skipn'. f_equal. apply nth_error_same. intros i. rewrite !nth_error_skipn'. unfold c. destruct (Nat.le_gt_cases (k d) (length l - r d)) as [G|G].
      * now rewrite Nat.min_l by lia.
      * rewrite Nat.min_r by lia. assert (A : nth_error l (r d + k d + i) = None) by (apply nth_error_None; lia). rewrite A. symmetry. apply nth_error_None. lia.
    + intros e. rewrite R'. unfold r1, upd. destruct (Nat.eqb_spec e d) as [X|X].
      * subst e. assert (X1 : (S d <=? d) = false) by lia. rewrite X1. assert (X2 : (d <=? d) && (d <? d + S m) = true) by lia. rewrite X2. cbn [andb]. unfold c. lia.
      * assert (X2 : ((S d <=? e) && (e <? S d + m)) = ((d <=? e) && (e <? d + S m))) by lia. rewrite X2. reflexivity.
Qed.

(** The model data that is not made is there *)
Definition there (b : buf) : Prop := forall d, n_steps <= d -> d < n_dir -> exists m, nth_error (models b) d = Some (Some m).
Lemma there_nth b d : there b -> n_steps <= d -> d < n_dir -> exists m, nth d (models b) None = Some m.
Proof. intros T H1 H2. destruct (T d H1 H2) as (m & E). exists m. exact (nth_error_nth _ _ None E). Qed.
Lemma has_all_mk r i b : there b -> (has_all (mk r i b) = true <-> forall d, d < n_steps -> i < r d).
Proof.
  intros T. unfold has_all. rewrite forallb_forall. split.
  - intros H d Hd. specialize (H (nth d (models (mk r i b)) None)). rewrite mk_models in H by lia. assert (L : (d <? n_steps) = true) by lia. rewrite L in H.
    destruct (Nat.ltb_spec i (r d)) as [G|G]; [exact G|]. exfalso. assert (X : false = true); [|discriminate]. apply H.
    assert (Y : In (nth d (models (mk r i b)) None) (models (mk r i b))) by (apply nth_In; cbn [mk models]; rewrite map_length, seq_length; lia).
    rewrite mk_models, L in Y by lia. assert (Z : (i <? r d) = false) by lia. now rewrite Z in Y.
  - intros H o Ho. cbn [mk models] in Ho. apply in_map_iff in Ho as (d & <- & Hd). apply in_seq in Hd. destruct (Nat.ltb_spec d n_steps) as [G|G].
    + specialize (H d G). assert (Z : (i <? r d) = true) by lia. now rewrite Z.
    + destruct (there_nth b d T G ltac:(lia)) as (m & E). now rewrite E.
Qed.
Lemma mk_full r i b : (forall d, d < n_steps -> i < r d) -> mk r i b = full b.
Proof.
  intros H. unfold mk, full. f_equal. apply map_ext. intros d. destruct (Nat.ltb_spec d n_steps) as [G|G]; [|reflexivity]. specialize (H d G).
  assert (Z : (i <? r d) = true) by lia. now rewrite Z.
Qed.
Lemma not_all (r : nat -> nat) i n : ~ (forall d, d < n -> i < r d) -> exists d, d < n /\ r d <= i.
Proof.
  induction n as [|n IH]; intros H; [exfalso; apply H; lia|]. destruct (Nat.lt_ge_cases i (r n)) as [G|G]; [|exists n; lia].
  destruct IH as (d & D1 & D2); [|exists d; lia]. intros K. apply H. intros d Hd. destruct (Nat.eq_dec d n) as [->|]; [exact G|apply K; lia].
Qed.
Notation emit := (emit only_predict keep_model sum).
Lemma pop_ok r s : Forall there s -> forall j, (forall d, d < n_steps -> j <= r d) ->
  exists m, pop only_predict keep_model sum (Q r j s) = (map (fun b => emit (full b)) (firstn m s), Q r (j + m) (skipn m s)) /\ m <= length s /\
    (forall d, d < n_steps -> j + m <= r d) /\ (m = length s \/ exists d, d < n_steps /\ r d = j + m).
Proof.
  intros T. induction s as [|b s IH]; intros j Hj.
  - exists 0. rewrite Nat.add_0_r. split; [reflexivity|]. split; [lia|]. split; [exact Hj|now left].
  - apply Forall_cons_iff in T as [T0 T]. change (Q r j (b :: s)) with (mk r j b :: Q r (S j) s). cbn [pop]. destruct (has_all (mk r j b)) eqn:E.
    + pose proof (proj1 (has_all_mk r j b T0) E) as E1. clear E. rename E1 into E. destruct (IH T (S j)) as (m & G1 & G2 & G3 & G4); [intros d Hd; now specialize (E d Hd)|].
      rewrite G1. exists (S m). rewrite (mk_full r j b E). cbn [firstn skipn map]. replace (j + S m) with (S j + m) by lia. split; [reflexivity|]. split; [cbn; lia|]. split; [exact G3|].
      cbn [length]. destruct G4 as [G4|G4]; [left; lia|right; exact G4].
    + exists 0. rewrite Nat.add_0_r. cbn [firstn map skipn]. split; [reflexivity|]. split; [lia|]. split; [exact Hj|]. right.
      destruct (not_all r j n_steps) as (d & D1 & D2); [intros K; pose proof (proj2 (has_all_mk r j b T0) K); congruence|]. exists d. specialize (Hj d D1). lia.
Qed.

Definition fresh (b : buf) : Prop := length (models b) = n_dir /\ forall d, d < n_steps -> nth_error (models b) d = Some None.
Lemma mk_fresh r i b : fresh b -> (forall d, d < n_steps -> r d <= i) -> mk r i b = b.
Proof.
  intros [L Z] H. destruct b as [m f w l]. unfold mk. cbn [main flags rest models] in *. f_equal. apply nth_error_same. intros d. rewrite nth_seq_map.
  destruct (Nat.ltb_spec d n_dir) as [G|G]; [|symmetry; apply nth_error_None; lia]. destruct (Nat.ltb_spec d n_steps) as [G2|G2].
  - specialize (H d G2). assert (X : (i <? r d) = false) by lia. rewrite X. symmetry. now apply Z.
  - symmetry. apply nth_error_nth'. lia.
Qed.
Lemma Q_app r b s : forall j, fresh b -> (forall d, d < n_steps -> r d <= j + length s) -> Q r j (s ++ [b]) = Q r j s ++ [b].
Proof.
  induction s as [|x s IH]; intros j Hb H.
  - change (Q r j ([] ++ [b])) with [mk r j b]. cbn [app]. rewrite mk_fresh; [reflexivity|exact Hb|]. cbn in H. intros d Hd. specialize (H d Hd). lia.
  - change (Q r j ((x :: s) ++ [b])) with (mk r j x :: Q r (S j) (s ++ [b])). change (Q r j (x :: s)) with (mk r j x :: Q r (S j) s). cbn [app]. f_equal. apply IH; [exact Hb|].
    cbn [length] in H. intros d Hd. specialize (H d Hd). lia.
Qed.

(** The state after buffers [l] (with flags of the UVW flagger) *)
Definition holds (l : list buf) (st : state D M F W) : Prop := exists j r, j <= length l /\ (forall d, d < n_steps -> j <= r d <= length l) /\
  st = State (Q r j (skipn j l)) (pend r l 0 n_steps) (map (fun b => emit (full b)) (firstn j l)) /\ (j = length l \/ exists d, d < n_steps /\ r d = j).
Lemma collect_ok k l j r : Forall there l -> j <= length l -> (forall d, d < n_steps -> j <= r d <= length l) ->
  exists j' r', collect_models only_predict keep_model sum k (State (Q r j (skipn j l)) (pend r l 0 n_steps) (map (fun b => emit (full b)) (firstn j l))) =
      Ok (State (Q r' j' (skipn j' l)) (pend r' l 0 n_steps) (map (fun b => emit (full b)) (firstn j' l))) /\ j' <= length l /\
    (forall d, d < n_steps -> j' <= r' d <= length l /\ r' d = Nat.min (r d + k d) (length l)) /\ (j' = length l \/ exists d, d < n_steps /\ r' d = j').
Proof.
  intros T Hj Hr. unfold collect_models. cbn [pending queue sent]. destruct (extract_ok k l j n_steps 0 r ltac:(lia) Hj Hr) as (r' & E & R'). rewrite E. cbn [bind].
  assert (R : forall d, d < n_steps -> r' d = Nat.min (r d + k d) (length l)).
  { intros d Hd. rewrite R'. assert (X : (0 <=? d) && (d <? 0 + n_steps) = true) by lia. now rewrite X. }
  destruct (pop_ok r' (skipn j l)) with (j := j) as (m & G1 & G2 & G3 & G4).
  { apply Forall_forall. intros b Hb. rewrite Forall_forall in T. apply T. rewrite <- (firstn_skipn j l). apply in_or_app. now right. }
  { intros d Hd. rewrite (R d Hd). specialize (Hr d Hd). lia. }
  rewrite G1. exists (j + m), r'. rewrite skipn_length in *. split.
  - rewrite skipn_skipn'. do 2 f_equal. rewrite <- map_app. f_equal. apply nth_error_same. intros i. rewrite <- (firstn_skipn j (firstn (j + m) l)). f_equal.
    f_equal; [now rewrite firstn_firstn, Nat.min_l by lia|]. rewrite skipn_firstn_comm. f_equal. lia.
  - split; [lia|]. split; [intros d Hd; specialize (G3 d Hd); rewrite (R d Hd) in *; lia|]. destruct G4 as [G4|G4]; [left; lia|right; exact G4].
Qed.
Notation fb b := (Buffer (main b) (uvw b) (rest b) (models b)).
Lemma has_reused_there b : length (models b) = n_dir -> (has_reused n_steps b = true <-> there b).
Proof.
  intros L. unfold has_reused, there. rewrite forallb_forall. split.
  - intros H d H1 H2. destruct (nth_error (models b) d) as [o|] eqn:E; [|apply nth_error_None in E; lia]. destruct o as [m|]; [now exists m|].
    exfalso. assert (X : false = true); [|discriminate]. apply (H None). apply (nth_error_In _ (d - n_steps)). rewrite nth_error_skipn'. rewrite <- E. f_equal. lia.
  - intros H o Ho. apply In_nth_error in Ho as (i & E). rewrite nth_error_skipn' in E. assert (n_steps + i < n_dir) by (rewrite <- L; apply nth_error_Some; congruence).
    destruct (H (n_steps + i)) as (m & Em); [lia|lia|]. rewrite E in Em. now injection Em as ->.
Qed.
Lemma pend_app r l b : (forall d, d < n_steps -> r d <= length l) ->
  map (fun p : nat * list M => snd p ++ [P (fst p) b]) (combine (seq 0 (length (pend r l 0 n_steps))) (pend r l 0 n_steps)) = pend r (l ++ [b]) 0 n_steps.
Proof.
  intros H. unfold pend at 1. rewrite map_length, seq_length.
  assert (A : forall n a, a + n <= n_steps -> map (fun p : nat * list M => snd p ++ [P (fst p) b]) (combine (seq a n) (pend r l a n)) = pend r (l ++ [b]) a n).
  { induction n as [|n IH]; intros a Ha; [reflexivity|]. unfold pend in *. cbn [seq map combine fst snd]. rewrite IH by lia. f_equal.
    specialize (H a ltac:(lia)). rewrite skipn_app. replace (r a - length l) with 0 by lia. cbn [skipn]. now rewrite map_app. }
  apply A. lia.
Qed.
Notation process := (process n_steps only_predict keep_model uvw predict sum).
Lemma process_ok k l st b : Forall there l -> holds l st -> fresh b -> there b -> exists st', process k st b = Ok st' /\ holds (l ++ [fb b]) st'.
Proof.
  intros T (j & r & Hj & Hr & -> & _) Hb Tb. unfold BdaQueueModel.process. assert (E : has_reused n_steps b = true) by (apply has_reused_there; [apply Hb|exact Tb]). rewrite E.
  cbn [pending queue sent]. rewrite (pend_app r l (fb b)) by (intros d Hd; apply Hr, Hd).
  rewrite <- (Q_app r (fb b)); [|exact Hb|intros d Hd; specialize (Hr d Hd); rewrite skipn_length; lia].
  replace (skipn j l ++ [fb b]) with (skipn j (l ++ [fb b])) by (rewrite skipn_app; replace (j - length l) with 0 by lia; reflexivity).
  replace (firstn j l) with (firstn j (l ++ [fb b])) by (rewrite firstn_app; replace (j - length l) with 0 by lia; cbn; now rewrite app_nil_r).
  destruct (collect_ok k (l ++ [fb b]) j r) as (j' & r' & G1 & G2 & G3 & G4).
  - apply Forall_app. split; [exact T|]. constructor; [exact Tb|constructor].
  - rewrite app_length. lia.
  - intros d Hd. specialize (Hr d Hd). rewrite app_length. lia.
  - rewrite G1. eexists. split; [reflexivity|]. exists j', r'. split; [exact G2|]. split; [intros d Hd; apply (G3 d Hd)|]. split; [reflexivity|exact G4].
Qed.
Notation process_all := (process_all n_steps only_predict keep_model uvw predict sum).
Lemma there_all l : Forall (fun b => there b) l -> Forall there (map (fun b : buf => fb b) l).
Proof. intros H. apply Forall_forall. intros b Hb. apply in_map_iff in Hb as (x & <- & Hx). rewrite Forall_forall in H. exact (H x Hx). Qed.
Lemma process_all_ok k l : Forall fresh l -> Forall there l -> forall i pre st, Forall there pre -> holds pre st -> exists st', process_all k i st l = Ok st' /\ holds (pre ++ map (fun b => fb b) l) st'.
Proof.
  induction l as [|b l IH]; intros Fr T i pre st Tp H; [exists st; split; [reflexivity|now rewrite app_nil_r]|]. apply Forall_cons_iff in Fr as [Fb Fr]. apply Forall_cons_iff in T as [Tb T].
  cbn [BdaQueueModel.process_all]. destruct (process_ok (k i) pre st b Tp H Fb Tb) as (st1 & E & H1). rewrite E. cbn [bind].
  destruct (IH Fr T (S i) (pre ++ [fb b]) st1) as (st' & E' & H'); [apply Forall_app; split; [exact Tp|constructor; [exact Tb|constructor]]|exact H1|].
  exists st'. split; [exact E'|]. cbn [map]. now rewrite <- app_assoc in H'.
Qed.
Lemma holds_init : holds [] (init n_steps).
Proof.
  exists 0, (fun _ => 0). split; [cbn; lia|]. split; [cbn; lia|]. split; [|now left]. unfold init. cbn. f_equal. unfold pend. apply nth_error_same. intros i.
  rewrite nth_seq_map. destruct (Nat.ltb_spec i n_steps) as [G|G]; [now rewrite nth_error_repeat|apply nth_error_None; rewrite repeat_length; lia].
Qed.
Lemma finish_ok l st : Forall there l -> holds l st -> exists st', finish only_predict keep_model sum st = Ok st' /\ queue st' = [] /\ sent st' = map (fun b => emit (full b)) l.
Proof.
  intros T (j & r & Hj & Hr & -> & _). unfold finish. cbn [pending].
  destruct (collect_ok (fun d => length (nth d (pend r l 0 n_steps) [])) l j r T Hj Hr) as (j' & r' & G1 & G2 & G3 & G4). rewrite G1. eexists. split; [reflexivity|]. cbn [queue sent].
  assert (j' = length l).
  { destruct G4 as [G4|(d & D1 & D2)]; [exact G4|]. destruct (G3 d D1) as [A B]. specialize (Hr d D1).
    assert (L : length (nth d (pend r l 0 n_steps) []) = length l - r d).
    { assert (E : nth_error (pend r l 0 n_steps) d = Some (map (fun b => P d b) (skipn (r d) l))) by (unfold pend; rewrite nth_seq_map; assert (X : (d <? n_steps) = true) by lia; now rewrite X).
      rewrite (nth_error_nth _ _ [] E), map_length, skipn_length. reflexivity. }
    rewrite L in B. lia. }
  subst j'. rewrite skipn_all, firstn_all. split; reflexivity.
Qed.
End Queue.
