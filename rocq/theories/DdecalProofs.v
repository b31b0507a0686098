(** Lemmas on the model of DDECal. *)
From Coq Require Import List Bool Arith Lia ZifyBool ZifyNat.
From Verif Require Import AverageModel InfoModel InfoProofs GainModel DdecalModel DdecalSpec.
Import ListNotations.
Open Scope nat_scope.

(** * Lists in parts *)
Lemma nth_error_same {T} (a b : list T) : (forall i, nth_error a i = nth_error b i) -> a = b.
Proof.
  revert b. induction a as [|x a IH]; intros [|y b] E; [reflexivity|now specialize (E 0)|now specialize (E 0)|].
  pose proof (E 0) as E0. injection E0 as ->. f_equal. apply IH. intros i. apply (E (S i)).
Qed.
Lemma nth_error_firstn' {T} (l : list T) n i : nth_error (firstn n l) i = if i <? n then nth_error l i else None.
Proof.
  revert l i. induction n as [|n IH]; intros l i; [now destruct l, i|]. destruct l as [|x l]; [cbn [firstn]; destruct i; cbn [nth_error]; now destruct (_ <? _)|].
  destruct i as [|i]; [reflexivity|]. cbn [firstn nth_error]. rewrite IH. reflexivity.
Qed.
Lemma nth_error_skipn' {T} (l : list T) n i : nth_error (skipn n l) i = nth_error l (n + i).
Proof. revert l. induction n as [|n IH]; intros l; [reflexivity|]. destruct l as [|x l]; [now destruct i|]. apply IH. Qed.
Lemma set_nth_get {T} (l : list T) i x j : nth_error (set_nth l i x) j = if j =? i then option_map (fun _ => x) (nth_error l i) else nth_error l j.
Proof.
  revert i j. induction l as [|y l IH]; intros i j; [cbn [set_nth]; destruct i, j; cbn [nth_error option_map]; try reflexivity; now destruct (_ =? _)|].
  destruct i as [|i], j as [|j]; try reflexivity. cbn [set_nth nth_error]. rewrite IH. reflexivity.
Qed.
Section Parts.
Context {T : Type} (s : nat) (Hs : 0 < s).
Implicit Types l : list T.
Lemma part_nth l k i : nth_error (part s k l) i = if i <? s then nth_error l (k * s + i) else None.
Proof. unfold part. rewrite nth_error_firstn', nth_error_skipn'. reflexivity. Qed.
Lemma part_length l k : length (part s k l) = min s (length l - k * s).
Proof. unfold part. rewrite firstn_length, skipn_length. reflexivity. Qed.
Lemma part_app l r k : (k + 1) * s <= length l -> part s k (l ++ r) = part s k l.
Proof.
  intros H. apply nth_error_same. intros i. rewrite !part_nth. destruct (Nat.ltb_spec i s); [|reflexivity].
  apply nth_error_app1. lia.
Qed.
Lemma part_app2 l r c k : length l = c * s -> part s (c + k) (l ++ r) = part s k r.
Proof.
  intros H. apply nth_error_same. intros i. rewrite !part_nth. destruct (Nat.ltb_spec i s); [|reflexivity].
  rewrite nth_error_app2 by lia. f_equal. lia.
Qed.
Lemma parts_div n : parts s n = if n mod s =? 0 then n / s else S (n / s).
Proof.
  unfold parts. pose proof (Nat.div_mod n s ltac:(lia)) as E. pose proof (Nat.mod_upper_bound n s ltac:(lia)) as U.
  destruct (Nat.eqb_spec (n mod s) 0) as [Z|Z].
  - symmetry. apply (Nat.div_unique _ _ _ (s - 1)); lia.
  - symmetry. apply (Nat.div_unique _ _ _ (n mod s - 1)); lia.
Qed.
Lemma parts_le n k : k < parts s n <-> k * s < n.
Proof.
  rewrite parts_div. pose proof (Nat.div_mod n s ltac:(lia)) as E. pose proof (Nat.mod_upper_bound n s ltac:(lia)) as U.
  destruct (Nat.eqb_spec (n mod s) 0); split; intros H; nia.
Qed.
Lemma parts_mul c n : parts s (c * s + n) = c + parts s n.
Proof.
  unfold parts. replace (c * s + n + s - 1) with (n + s - 1 + c * s) by lia. rewrite Nat.div_add by lia. lia.
Qed.
(** All parts *)
Definition chunks l : list (list T) := map (fun k => part s k l) (seq 0 (parts s (length l))).
Lemma chunks_length l : length (chunks l) = parts s (length l).
Proof. unfold chunks. now rewrite map_length, seq_length. Qed.
Lemma nth_seq_map {U} (f : nat -> U) n k : nth_error (map f (seq 0 n)) k = if k <? n then Some (f k) else None.
Proof.
  destruct (Nat.ltb_spec k n) as [H|H].
  - rewrite (map_nth_error f k (seq 0 n) (d := k)); [reflexivity|]. rewrite (nth_error_nth' _ 0) by now rewrite seq_length. now rewrite seq_nth.
  - apply nth_error_None. now rewrite map_length, seq_length.
Qed.
Lemma chunks_nth l k : nth_error (chunks l) k = if k <? parts s (length l) then Some (part s k l) else None.
Proof. unfold chunks. now rewrite nth_seq_map. Qed.
Lemma concat_parts {U} (h : nat -> T -> U) l n : forall i,
  nth_error (concat (map (fun j => map (h j) (part s j l)) (seq 0 n))) i = if i <? n * s then option_map (h (i / s)) (nth_error l i) else None.
Proof.
  induction n as [|n IH]; [intros i; cbn; now destruct i|]. intros i.
  rewrite seq_S, map_app, concat_app. cbn [map concat Nat.add]. rewrite app_nil_r.
  set (a := concat _) in *. assert (La : length a = min (n * s) (length l)).
  { apply Nat.le_antisymm.
    - apply Nat.nlt_ge. intros C. assert (N : nth_error a (min (n * s) (length l)) <> None) by (apply nth_error_Some; lia).
      apply N. rewrite IH. destruct (Nat.ltb_spec (min (n * s) (length l)) (n * s)); [|reflexivity].
      replace (nth_error l _) with (@None T); [reflexivity|]. symmetry. apply nth_error_None. lia.
    - apply Nat.nlt_ge. intros C. assert (N : nth_error a (length a) = None) by (apply nth_error_None; lia).
      rewrite IH in N. destruct (Nat.ltb_spec (length a) (n * s)); [|lia].
      destruct (nth_error l (length a)) eqn:E; [easy|]. apply nth_error_None in E. lia. }
  destruct (Nat.lt_ge_cases i (length a)) as [H|H].
  - rewrite nth_error_app1 by assumption. rewrite IH. destruct (Nat.ltb_spec i (n * s)); [|lia]. destruct (Nat.ltb_spec i (S n * s)); [reflexivity|lia].
  - rewrite nth_error_app2 by assumption. rewrite nth_error_map, part_nth.
    destruct (Nat.lt_ge_cases (length l) (n * s)) as [L|L].
    + replace (nth_error l i) with (@None T) by (symmetry; apply nth_error_None; lia).
      replace (nth_error l (n * s + (i - length a))) with (@None T) by (symmetry; apply nth_error_None; lia).
      destruct (_ <? _); now destruct (_ <? _).
    + replace (length a) with (n * s) in * by lia. replace (n * s + (i - n * s)) with i by lia.
      destruct (Nat.ltb_spec (i - n * s) s); destruct (Nat.ltb_spec i (S n * s)); try lia; [|reflexivity].
      replace (i / s) with n; [reflexivity|]. apply (Nat.div_unique _ _ _ (i - n * s)); lia.
Qed.
Lemma concat_chunks l : concat (chunks l) = l.
Proof.
  apply nth_error_same. intros i. unfold chunks.
  rewrite (map_ext _ (fun j => map (fun x => x) (part s j l))) by (intros j; symmetry; apply map_id).
  rewrite (concat_parts (fun _ x => x)). destruct (Nat.ltb_spec i (parts s (length l) * s)) as [H|H]; [now destruct (nth_error l i)|].
  symmetry. apply nth_error_None. apply Nat.nlt_ge. intros C.
  assert (~ parts s (length l) * s < length l) by (rewrite <- parts_le; lia). lia.
Qed.
Lemma div_lt_parts i n : i < n -> i / s < parts s n.
Proof. intros H. apply parts_le. pose proof (Nat.mul_div_le i s ltac:(lia)). lia. Qed.
Lemma set_chunks l i x : i < length l ->
  set_nth (chunks l) (i / s) (set_nth (part s (i / s) l) (i mod s) x) = chunks (set_nth l i x).
Proof.
  intros H. apply nth_error_same. intros k. rewrite set_nth_get, !chunks_nth, set_nth_length.
  pose proof (Nat.div_mod i s ltac:(lia)) as E. pose proof (Nat.mod_upper_bound i s ltac:(lia)) as U.
  assert (Sm : forall t, t < s -> (k * s + t =? i) = (k =? i / s) && (t =? i mod s)).
  { intros t Ht. destruct (Nat.eqb_spec k (i / s)) as [->|N].
    - cbn [andb]. destruct (Nat.eqb_spec t (i mod s)); [apply Nat.eqb_eq|apply Nat.eqb_neq]; lia.
    - cbn [andb]. apply Nat.eqb_neq. intros C. apply N. apply (Nat.div_unique _ _ _ t); lia. }
  destruct (Nat.eqb_spec k (i / s)) as [->|N].
  - pose proof (div_lt_parts i (length l) H) as L. apply Nat.ltb_lt in L. rewrite L. cbn [option_map]. f_equal. apply nth_error_same. intros t.
    rewrite set_nth_get, !part_nth. rewrite set_nth_get. apply Nat.ltb_lt in U as U'. rewrite U'.
    destruct (Nat.ltb_spec t s) as [Ht|Ht].
    + rewrite Sm by assumption. cbn [andb]. destruct (t =? i mod s); [|reflexivity]. replace (i / s * s + i mod s) with i by lia. reflexivity.
    + destruct (Nat.eqb_spec t (i mod s)); [lia|reflexivity].
  - destruct (k <? parts s (length l)); [|reflexivity]. f_equal. apply nth_error_same. intros t. rewrite !part_nth.
    destruct (Nat.ltb_spec t s) as [Ht|Ht]; [|reflexivity]. rewrite set_nth_get, Sm by assumption. reflexivity.
Qed.
End Parts.
Lemma part_map {T U} (f : T -> U) s k l : part s k (map f l) = map f (part s k l).
Proof. unfold part. now rewrite skipn_map, firstn_map. Qed.
Lemma chunks_map {T U} (f : T -> U) s l : chunks s (map f l) = map (map f) (chunks s l).
Proof. unfold chunks. rewrite map_length, map_map. apply map_ext. intros k. apply part_map. Qed.
Lemma parts_small s r : 0 < r -> r <= s -> parts s r = 1.
Proof. intros H1 H2. unfold parts. symmetry. apply (Nat.div_unique _ _ _ (r - 1)); lia. Qed.
Lemma parts_zero s : 0 < s -> parts s 0 = 0.
Proof. intros H. unfold parts. apply Nat.div_small. lia. Qed.
Lemma last_app {T} (l : list T) x d : last (l ++ [x]) d = x.
Proof. apply last_last. Qed.

Section Run.
Context {D F W M S : Type}.
Variables (cfg : settings) (uvw : buffer D F W M -> F) (predict : nat -> buffer D F W M -> M) (low : list (buffer D F W M) -> F -> F) (all_flagged : F -> F)
  (fresh : list (buffer D F W M) -> S) (solver : list (buffer D F W M) -> list (D * F * W * list M) -> S -> S * nat) (correct : S -> D * list M -> D * list M)
  (sum : list M -> D).
Notation buf := (buffer D F W M).
Notation tuple := (D * F * W * list M)%type.
Notation state := (@state D F W M S).
Notation s := (solint cfg).
Notation U := (flagged uvw).
Hypotheses (Hs : 0 < s) (HN : 0 < n_intervals cfg).

(** * Buffers are held in parts *)
Lemma hold_chunks (b : buf) q : hold cfg b (chunks s q) = chunks s (q ++ [b]).
Proof.
  set (a := length q / s). set (r := length q mod s).
  pose proof (Nat.div_mod (length q) s ltac:(lia)) as E. pose proof (Nat.mod_upper_bound (length q) s ltac:(lia)) as Hr. fold a r in E, Hr.
  assert (P1 : parts s (length (q ++ [b])) = Datatypes.S a).
  { rewrite app_length. cbn [length]. replace (length q + 1) with (a * s + (r + 1)) by lia. rewrite parts_mul by assumption.
    rewrite parts_small by lia. lia. }
  assert (X : map (fun k => part s k (q ++ [b])) (seq 0 a) = map (fun k => part s k q) (seq 0 a)).
  { apply map_ext_in. intros k Hk. apply in_seq in Hk. apply part_app; try assumption. enough ((k + 1) * s <= a * s) by lia. apply Nat.mul_le_mono_r. lia. }
  assert (Y : chunks s (q ++ [b]) = map (fun k => part s k q) (seq 0 a) ++ [part s a (q ++ [b])]).
  { unfold chunks. rewrite P1, seq_S, map_app, X. reflexivity. }
  rewrite Y. destruct (Nat.eq_dec r 0) as [Z|Z].
  - assert (P0 : parts s (length q) = a). { replace (length q) with (a * s + 0) by lia. rewrite parts_mul, parts_zero by assumption. lia. }
    assert (C : chunks s q = map (fun k => part s k q) (seq 0 a)) by (unfold chunks; now rewrite P0). rewrite C.
    assert (B : part s a (q ++ [b]) = [b]).
    { replace a with (a + 0) at 1 by lia. rewrite part_app2 by lia. unfold part. cbn [skipn Nat.mul]. destruct s as [|s'] eqn:Es; [lia|]. cbn [firstn]. now rewrite firstn_nil. }
    rewrite B. destruct (Nat.eq_dec a 0) as [A0|A0]; [rewrite A0; reflexivity|].
    assert (Sa : seq 0 a = seq 0 (a - 1) ++ [a - 1]) by (change [a - 1] with [0 + (a - 1)]; rewrite <- seq_S; f_equal; lia). rewrite Sa.
    rewrite map_app. cbn [map]. set (f := map _ (seq 0 (a - 1))). unfold hold. rewrite last_app.
    assert (L : length (part s (a - 1) q) = s).
    { rewrite part_length. enough (s <= length q - (a - 1) * s) by lia. replace (length q) with (a * s) by lia. rewrite <- Nat.mul_sub_distr_r. replace (a - (a - 1)) with 1 by lia. lia. }
    rewrite L, Nat.eqb_refl. destruct (f ++ [part s (a - 1) q]) eqn:Eq; [now destruct f|reflexivity].
  - assert (P0 : parts s (length q) = Datatypes.S a). { replace (length q) with (a * s + r) by lia. rewrite parts_mul by assumption. rewrite parts_small; lia. }
    assert (C : chunks s q = map (fun k => part s k q) (seq 0 a) ++ [part s a q]) by (unfold chunks; rewrite P0, seq_S, map_app; reflexivity). rewrite C.
    set (f := map _ (seq 0 a)). unfold hold. rewrite last_app, removelast_last, part_length.
    replace (min s (length q - a * s)) with r by lia. replace (r =? s) with false by (symmetry; apply Nat.eqb_neq; lia).
    destruct (f ++ [part s a q]) eqn:Eq; [now destruct f|]. do 2 f_equal.
    apply nth_error_same. intros i. rewrite part_nth.
    assert (Lp : length (part s a q) = r) by (rewrite part_length; lia).
    destruct (Nat.lt_ge_cases i r) as [H|H].
    + rewrite !nth_error_app1 by lia. rewrite part_nth. reflexivity.
    + rewrite nth_error_app2 by lia. rewrite Lp. destruct (Nat.ltb_spec i s).
      * rewrite nth_error_app2 by lia. f_equal. lia.
      * apply nth_error_None. cbn [length]. lia.
Qed.
Lemma hold_form (X : list (list buf)) : exists Y Z, forall b, hold cfg b X = Y ++ [Z ++ [b]].
Proof.
  unfold hold. destruct X as [|x X]; [exists [], []; reflexivity|]. set (l := x :: X). destruct (_ =? _).
  - exists l, []. reflexivity.
  - exists (removelast l), (last l []). reflexivity.
Qed.
Lemma hold_replace (b b' : buf) X : removelast (hold cfg b X) ++ [removelast (last (hold cfg b X) []) ++ [b']] = hold cfg b' X.
Proof. destruct (hold_form X) as (Y & Z & H). rewrite !H, removelast_last, last_app, removelast_last. reflexivity. Qed.

(** * The state while buffers of a batch come in *)
Definition results_of (q : list buf) : list (list M) :=
  map (fun p : nat * bool => if snd p then map (fun b => predict (fst p) (U b)) q else []) (combine (seq 0 (length (has_step cfg))) (has_step cfg)).
Definition saved_ok (sv : nat -> nat -> option F) (q : list buf) : Prop :=
  save_flags cfg = true -> forall i b, nth_error q i = Some b -> sv (i / s) (i mod s) = Some (flags b).
Definition holds (q : list buf) (st : state) : Prop :=
  held st = chunks s (map U q) /\ results st = results_of q /\ saved_ok (saved st) q.
Lemma last_chunk (q : list buf) b : length (last (chunks s (q ++ [b])) []) = length q mod s + 1 /\ length (chunks s (q ++ [b])) = length q / s + 1.
Proof.
  pose proof (Nat.div_mod (length q) s ltac:(lia)) as E. pose proof (Nat.mod_upper_bound (length q) s ltac:(lia)) as Hr.
  assert (P1 : parts s (length (q ++ [b])) = Datatypes.S (length q / s)).
  { rewrite app_length. cbn [length]. replace (length q + 1) with (length q / s * s + (length q mod s + 1)) by lia. rewrite parts_mul by assumption.
    rewrite parts_small by lia. lia. }
  split; [|rewrite chunks_length; lia]. unfold chunks. rewrite P1, seq_S, map_app. cbn [map Nat.add]. rewrite last_app, part_length, app_length. cbn [length]. lia.
Qed.
Lemma combine_map3 {A B C} (f : nat -> A -> list B) (g : nat * (A * list B) -> C) n (l : list A) :
  map g (combine (seq n (length l)) (combine l (map (fun p => f (fst p) (snd p)) (combine (seq n (length l)) l)))) =
  map (fun p => g (fst p, (snd p, f (fst p) (snd p)))) (combine (seq n (length l)) l).
Proof. revert n. induction l as [|x l IH]; intros n; [reflexivity|]. cbn [length seq combine map fst snd]. f_equal. apply IH. Qed.
Lemma prepare_holds q st b : holds q st ->
  holds (q ++ [b]) (prepare cfg uvw predict st b) /\
  first (prepare cfg uvw predict st b) = first st /\ sols (prepare cfg uvw predict st b) = sols st /\
  sent (prepare cfg uvw predict st b) = sent st /\ calls (prepare cfg uvw predict st b) = calls st.
Proof.
  intros (H1 & H2 & H3). unfold prepare. cbn [first sols sent calls]. split; [|auto]. repeat split; cbn [held results saved].
  - rewrite H1, hold_replace, map_app. apply (hold_chunks (U b)).
  - rewrite H2. unfold results_of.
    rewrite (combine_map3 (fun d (step : bool) => if step then map (fun b => predict d (U b)) q else [])). apply map_ext. intros [d step]. cbn [fst snd].
    destruct step; [|reflexivity]. now rewrite map_app.
  - intros Sv. specialize (H3 Sv). rewrite Sv, H1, hold_chunks.
    destruct (last_chunk (map U q) b) as [L1 L2]. rewrite L1, L2, map_length.
    rewrite !Nat.add_sub.
    intros i b' Hi. unfold save.
    destruct (Nat.lt_ge_cases i (length q)) as [L|L].
    + rewrite nth_error_app1 in Hi by assumption. rewrite (H3 _ _ Hi).
      replace ((i / s =? length q / s) && (i mod s =? length q mod s)) with false; [reflexivity|].
      symmetry. apply not_true_iff_false. intros C. apply andb_true_iff in C as [C1 C2]. apply Nat.eqb_eq in C1, C2.
      pose proof (Nat.div_mod i s ltac:(lia)). pose proof (Nat.div_mod (length q) s ltac:(lia)). rewrite C1, C2 in *. lia.
    + rewrite nth_error_app2 in Hi by assumption. destruct (i - length q) as [|j] eqn:Ej; [|now destruct j]. injection Hi as <-.
      replace i with (length q) by lia. now rewrite !Nat.eqb_refl.
Qed.

(** * The model data is moved to the buffers *)
Lemma move_spec d ms : forall i (q : list buf), i + length ms <= length q ->
  exists q', move cfg d ms i (chunks s q) = Ok (chunks s q') /\ length q' = length q /\
    forall k, nth_error q' k = if (i <=? k) && (k <? i + length ms) then
      match nth_error ms (k - i), nth_error q k with Some m, Some b => Some (set_model d m b) | _, _ => None end else nth_error q k.
Proof.
  induction ms as [|m ms IH]; intros i q H.
  - exists q. repeat split. intros k. cbn [length]. destruct (Nat.leb_spec i k), (Nat.ltb_spec k (i + 0)); try lia; reflexivity.
  - cbn [length] in H. cbn [move]. unfold get. rewrite chunks_nth by assumption.
    assert (Hi : i < length q) by lia. pose proof (div_lt_parts s Hs i (length q) Hi) as P. apply Nat.ltb_lt in P. rewrite P. cbn [bind].
    pose proof (Nat.mod_upper_bound i s ltac:(lia)) as Ub. apply Nat.ltb_lt in Ub as Ub'.
    rewrite part_nth by assumption. rewrite Ub'. assert (Di : i / s * s + i mod s = i) by (pose proof (Nat.div_mod i s ltac:(lia)); lia). rewrite Di.
    destruct (nth_error q i) as [b|] eqn:Eb; [|apply nth_error_None in Eb; lia]. cbn [bind].
    rewrite set_chunks by assumption. destruct (IH (Datatypes.S i) (set_nth q i (set_model d m b))) as (q' & E1 & E2 & E3); [rewrite set_nth_length; lia|].
    exists q'. rewrite set_nth_length in E2. split; [exact E1|]. split; [exact E2|]. intros k. rewrite E3, set_nth_get, Eb. cbn [option_map length].
    destruct (Nat.eqb_spec k i) as [->|N].
    + replace (Datatypes.S i <=? i) with false by (symmetry; apply Nat.leb_gt; lia). cbn [andb]. rewrite Nat.leb_refl, Nat.sub_diag, Eb.
      replace (i <? i + Datatypes.S (length ms)) with true by (symmetry; apply Nat.ltb_lt; lia). reflexivity.
    + destruct (Nat.leb_spec i k), (Nat.leb_spec (Datatypes.S i) k); try lia; cbn [andb]; [|reflexivity].
      destruct (Nat.ltb_spec k (Datatypes.S i + length ms)), (Nat.ltb_spec k (i + Datatypes.S (length ms))); try lia; [|reflexivity].
      replace (k - i) with (Datatypes.S (k - Datatypes.S i)) by lia. reflexivity.
Qed.
(** The model data of a buffer when it is complete *)
Definition final (b : buf) : list (option M) :=
  map (fun p : nat * (bool * option M) => let '(d, (step, o)) := p in if step then Some (predict d (U b)) else o)
      (combine (seq 0 (length (has_step cfg))) (combine (has_step cfg) (models b))).
(** The buffer after the first [d] directions *)
Definition filled (d : nat) (b : buf) : buf := Buffer (data b) (uvw b) (rest b) (firstn d (final b) ++ skipn d (models b)).
Lemma combine_nth_error {A B} (a : list A) (b : list B) i : nth_error (combine a b) i = match nth_error a i, nth_error b i with Some x, Some y => Some (x, y) | _, _ => None end.
Proof.
  revert b i. induction a as [|x a IH]; intros b i; [now destruct i|]. destruct b as [|y b]; [destruct i; [reflexivity|]; cbn; now destruct (nth_error a i)|].
  destruct i as [|i]; [reflexivity|]. cbn [combine nth_error]. apply IH.
Qed.
Lemma seq_nth_error a n i : nth_error (seq a n) i = if i <? n then Some (a + i) else None.
Proof.
  destruct (Nat.ltb_spec i n); [|apply nth_error_None; now rewrite seq_length].
  rewrite (nth_error_nth' _ 0) by now rewrite seq_length. now rewrite seq_nth.
Qed.
Lemma final_nth b d step o : nth_error (has_step cfg) d = Some step -> nth_error (models b) d = Some o ->
  nth_error (final b) d = Some (if step then Some (predict d (U b)) else o).
Proof.
  intros E1 E2. assert (L : d < length (has_step cfg)) by (apply nth_error_Some; congruence).
  unfold final. rewrite (map_nth_error _ d _ (d := (d, (step, o)))); [reflexivity|].
  rewrite !combine_nth_error, seq_nth_error, E1, E2. apply Nat.ltb_lt in L. now rewrite L.
Qed.
Lemma final_length b : length (models b) = length (has_step cfg) -> length (final b) = length (has_step cfg).
Proof. intros L. unfold final. rewrite map_length, !combine_length, seq_length. lia. Qed.
Lemma filled_S d b step : length (models b) = length (has_step cfg) -> nth_error (has_step cfg) d = Some step ->
  filled (Datatypes.S d) b = if step then set_model d (predict d (U b)) (filled d b) else filled d b.
Proof.
  intros L E. assert (Hd : d < length (has_step cfg)) by (apply nth_error_Some; congruence).
  destruct (nth_error (models b) d) as [o|] eqn:Eo; [|apply nth_error_None in Eo; lia].
  pose proof (final_nth b d step o E Eo) as Fn. pose proof (final_length b L) as Lf.
  assert (G : forall k, nth_error (firstn (Datatypes.S d) (final b) ++ skipn (Datatypes.S d) (models b)) k =
     if k =? d then Some (if step then Some (predict d (U b)) else o) else nth_error (firstn d (final b) ++ skipn d (models b)) k).
  { intros k. assert (L1 : length (firstn (Datatypes.S d) (final b)) = Datatypes.S d) by (rewrite firstn_length; lia).
    assert (L2 : length (firstn d (final b)) = d) by (rewrite firstn_length; lia).
    destruct (Nat.eqb_spec k d) as [->|N].
    - rewrite nth_error_app1 by lia. rewrite nth_error_firstn'. replace (d <? Datatypes.S d) with true by (symmetry; apply Nat.ltb_lt; lia). exact Fn.
    - destruct (Nat.lt_ge_cases k d) as [K|K].
      + rewrite !nth_error_app1 by lia. rewrite !nth_error_firstn'. destruct (Nat.ltb_spec k (Datatypes.S d)), (Nat.ltb_spec k d); try lia. reflexivity.
      + rewrite !nth_error_app2 by lia. rewrite L1, L2, !nth_error_skipn'. f_equal. lia. }
  assert (Gd : nth_error (firstn d (final b) ++ skipn d (models b)) d = Some o).
  { assert (L2 : length (firstn d (final b)) = d) by (rewrite firstn_length; lia). rewrite nth_error_app2 by lia.
    rewrite L2, nth_error_skipn'. replace (d + (d - d)) with d by lia. exact Eo. }
  destruct step; unfold set_model, filled; cbn [data flags rest models]; f_equal; apply nth_error_same; intros k; rewrite G.
  - rewrite set_nth_get, Gd. reflexivity.
  - destruct (Nat.eqb_spec k d) as [->|]; [now rewrite Gd|reflexivity].
Qed.
Lemma move_all_spec (q : list buf) : Forall (fun b => length (models b) = length (has_step cfg)) q ->
  move_all cfg 0 (combine (has_step cfg) (results_of q)) (chunks s (map U q)) = Ok (chunks s (map (filled (length (has_step cfg))) q)).
Proof.
  intros Lm.
  replace (map U q) with (map (filled 0) q) by (apply map_ext; intros b; reflexivity).
  assert (G : forall n d, d + n = length (has_step cfg) ->
    move_all cfg d (skipn d (combine (has_step cfg) (results_of q))) (chunks s (map (filled d) q)) = Ok (chunks s (map (filled (length (has_step cfg))) q))).
  { induction n as [|n IH]; intros d H.
    - replace d with (length (has_step cfg)) by lia. rewrite skipn_all2; [reflexivity|]. rewrite combine_length. lia.
    - destruct (nth_error (has_step cfg) d) as [step|] eqn:E; [|apply nth_error_None in E; lia].
      assert (N : nth_error (combine (has_step cfg) (results_of q)) d = Some (step, if step then map (fun b => predict d (U b)) q else [])).
      { rewrite combine_nth_error, E. unfold results_of. rewrite nth_error_map, combine_nth_error, seq_nth_error, E.
        replace (d <? length (has_step cfg)) with true by (symmetry; apply Nat.ltb_lt; lia). reflexivity. }
      assert (Sk : skipn d (combine (has_step cfg) (results_of q)) = (step, if step then map (fun b => predict d (U b)) q else []) :: skipn (Datatypes.S d) (combine (has_step cfg) (results_of q))).
      { apply nth_error_same. intros [|k]; rewrite nth_error_skipn'; [rewrite Nat.add_0_r; exact N|]. cbn [nth_error]. rewrite nth_error_skipn'. f_equal. lia. }
      rewrite Sk. cbn [move_all].
      assert (E2 : (if step then move cfg d (if step then map (fun b => predict d (U b)) q else []) 0 (chunks s (map (filled d) q)) else Ok (chunks s (map (filled d) q)))
         = Ok (chunks s (map (filled (Datatypes.S d)) q))).
      { destruct step.
        - destruct (move_spec d (map (fun b => predict d (U b)) q) 0 (map (filled d) q)) as (q' & E1 & E2 & E3); [rewrite !map_length; lia|].
          rewrite E1. do 2 f_equal. apply nth_error_same. intros k. rewrite E3, !nth_error_map, map_length, Nat.sub_0_r.
          destruct (nth_error q k) as [b|] eqn:Eb; cbn [option_map]; [|now destruct (_ && _)].
          assert (Hk : k < length q) by (apply nth_error_Some; congruence). apply Nat.ltb_lt in Hk. cbn [Nat.leb andb Nat.add]. rewrite Hk.
          rewrite (filled_S d b true); [reflexivity| |exact E]. rewrite Forall_forall in Lm. apply Lm. apply (nth_error_In _ _ Eb).
        - do 2 f_equal. apply map_ext_in. intros b Hb. rewrite (filled_S d b false); [reflexivity| |exact E]. rewrite Forall_forall in Lm. now apply Lm. }
      rewrite E2. cbn [bind]. apply IH. lia. }
  apply (G (length (has_step cfg)) 0). lia.
Qed.

(** * Intervals *)
Definition mk (x : tuple) : buf := let '(d, f, w, m) := x in Buffer d f w (map Some m).
Fixpoint strip (l : list (option M)) : list M := match l with [] => [] | Some m :: l => m :: strip l | None :: l => strip l end.
Definition x_of (b : buf) : tuple := (data b, uvw b, rest b, strip (final b)).
Lemma strip_some l : (forall d, d < length l -> exists m, nth_error l d = Some (Some m)) -> l = map Some (strip l).
Proof.
  induction l as [|o l IH]; intros H; [reflexivity|]. destruct (H 0 ltac:(cbn; lia)) as [m Em]. injection Em as ->. cbn [strip map]. f_equal. apply IH.
  intros d Hd. apply (H (Datatypes.S d)). cbn [length]. lia.
Qed.
Definition complete (b : buf) : Prop := length (models b) = length (has_step cfg) /\ models_there (has_step cfg) b.
Lemma final_some b : complete b -> final b = map Some (strip (final b)) /\ own_models (has_step cfg) uvw predict b (strip (final b)).
Proof.
  intros [L T]. assert (A : forall d, d < length (final b) -> exists m, nth_error (final b) d = Some (Some m)).
  { intros d Hd. rewrite final_length in Hd by assumption. destruct (nth_error (has_step cfg) d) as [step|] eqn:E; [|apply nth_error_None in E; lia].
    destruct (nth_error (models b) d) as [o|] eqn:Eo; [|apply nth_error_None in Eo; lia]. rewrite (final_nth b d step o E Eo).
    destruct step; [eauto|]. destruct (T d E) as [m Em]. exists m. congruence. }
  pose proof (strip_some _ A) as Q. split; [exact Q|].
  pose proof (f_equal (@length _) Q) as Ls. rewrite map_length, final_length in Ls by assumption. symmetry in Ls.
  split; [exact Ls|]. intros d step E. assert (Hd : d < length (has_step cfg)) by (apply nth_error_Some; congruence).
  destruct (nth_error (models b) d) as [o|] eqn:Eo; [|apply nth_error_None in Eo; lia]. pose proof (final_nth b d step o E Eo) as Fn.
  rewrite Q, nth_error_map in Fn. destruct (nth_error (strip (final b)) d) as [m|]; [|easy]. injection Fn as Fn. exists m. split; [reflexivity|].
  destruct step; [congruence|]. now subst o.
Qed.
Lemma filled_mk b : complete b -> filled (length (has_step cfg)) b = mk (x_of b).
Proof.
  intros C. destruct (final_some b C) as [Q _]. destruct C as [L _]. unfold filled, x_of, mk.
  rewrite firstn_all2 by (rewrite final_length by assumption; lia). rewrite skipn_all2 by lia. rewrite app_nil_r, <- Q. reflexivity.
Qed.
Lemma has_models_there (b : buf) : length (models b) = length (has_step cfg) -> (has_models cfg b = true <-> models_there (has_step cfg) b).
Proof.
  intros L. unfold has_models. rewrite forallb_forall. split.
  - intros H d E. assert (Hd : d < length (has_step cfg)) by (apply nth_error_Some; congruence).
    destruct (nth_error (models b) d) as [o|] eqn:Eo; [|apply nth_error_None in Eo; lia].
    specialize (H (false, o)). cbn [fst snd orb] in H. destruct o as [m|]; [eauto|]. exfalso. discriminate H.
    apply (nth_error_In _ d). now rewrite combine_nth_error, E, Eo.
  - intros T [step o] I. apply In_nth_error in I as [d E]. rewrite combine_nth_error in E.
    destruct (nth_error (has_step cfg) d) as [step'|] eqn:E1; [|easy]. destruct (nth_error (models b) d) as [o'|] eqn:E2; [|easy]. injection E as -> ->.
    cbn [fst snd]. destruct step; [reflexivity|]. destruct (T d E1) as [m Em]. rewrite Em in E2. now injection E2 as <-.
Qed.

Definition cond_low (all : list buf) (f : F) : F := if use_min_vis cfg then low all f else f.
Definition mask (all : list buf) (x : tuple) : tuple := let '(d, f, w, m) := x in (d, cond_low all f, w, m).
Definition padding (x : tuple) : tuple := let '(d, f, w, m) := x in (d, all_flagged f, w, m).
Definition seen_of (all : list buf) (xs : list tuple) : list tuple :=
  match map (mask all) xs with [] => [] | x :: ys => (x :: ys) ++ repeat (padding x) (s - length xs) end.
Definition after (all : list buf) (o : option (S * nat)) (x : tuple) : buf :=
  let '(d, f, w, m) := x in
  if only_predict cfg then if keep_model cfg then mk x else Buffer (sum m) f w (map (fun _ => None) m)
  else match o with
       | None => mk x
       | Some (v, _) => if subtract cfg || keep_model cfg then
                          let '(d', m') := correct v (d, m) in Buffer d' (cond_low all f) w (if keep_model cfg then map Some m' else map (fun _ => None) m')
                        else Buffer d (cond_low all f) w (map (fun _ => None) m)
       end.
Lemma each_map {A B C} (f : B -> outcome C) (h : A -> B) (g : A -> C) l : (forall x, f (h x) = Ok (g x)) -> each f (map h l) = Ok (map g l).
Proof. intros H. induction l as [|x l IH]; [reflexivity|]. cbn [map each]. rewrite H. cbn [bind]. now rewrite IH. Qed.
Lemma get_models_some m : get_models (map Some m) = Ok (m : list M).
Proof. induction m as [|x m IH]; [reflexivity|]. cbn [map get_models]. now rewrite IH. Qed.
Lemma pad_mk xs : 0 < length xs -> length xs <= s -> forall all, pad cfg all_flagged (map mk (map (mask all) xs)) = Ok (map mk (seen_of all xs)).
Proof.
  intros H1 H2 all. unfold pad, seen_of. rewrite !map_length. destruct xs as [|x xs]; [cbn in H1; lia|]. cbn [map].
  destruct (Nat.ltb_spec (length (x :: xs)) s) as [L|L].
  - rewrite <- !app_comm_cons. cbn [map]. rewrite map_app, map_map. f_equal. f_equal. f_equal.
    assert (R : forall n (y : tuple), map mk (repeat y n) = repeat (mk y) n) by (induction n; intros y; [reflexivity|]; cbn [repeat map]; now rewrite IHn).
    rewrite R. f_equal. now destruct x as [[[? ?] ?] ?].
  - replace (s - length (x :: xs)) with 0 by lia. cbn [repeat]. rewrite app_nil_r. reflexivity.
Qed.
Lemma solve_interval_spec all (st : state) i xs : 0 < length xs -> length xs <= s ->
  solve_interval cfg low all_flagged fresh solver correct sum all st i (map mk xs) =
  if n_sol cfg <=? first st + i then Throw
  else if only_predict cfg then Ok (st, map (after all None) xs)
  else let! s0 := initialize cfg fresh all st (first st + i) in
       let r := solver all (seen_of all xs) s0 in
       if (subtract cfg || keep_model cfg) && negb (one_per_direction cfg) then Throw
       else Ok (State (held st) (saved st) (results st) (first st) (fun k => if k =? first st + i then Some r else sols st k) (sent st) (calls st ++ [(seen_of all xs, s0)]),
                map (after all (Some r)) xs).
Proof.
  intros H1 H2. unfold solve_interval. cbv zeta. destruct (_ <=? _); [reflexivity|]. destruct (only_predict cfg) eqn:Op.
  - destruct (keep_model cfg) eqn:K.
    + do 2 f_equal. apply map_ext. intros [[[d f] w] m]. unfold after. now rewrite Op, K.
    + rewrite (each_map _ _ (after all None)); [reflexivity|]. intros [[[d f] w] m]. unfold sum_models, mk, after. cbn [models flags rest data].
      rewrite get_models_some, Op, K. cbn [bind]. unfold remove_models. cbn [models flags rest data]. now rewrite map_map.
  - assert (Ml : (if use_min_vis cfg then map (fun b => Buffer (data b) (low all (flags b)) (rest b) (models b)) (map mk xs) else map mk xs) = map mk (map (mask all) xs)).
    { destruct (use_min_vis cfg) eqn:Um; rewrite !map_map; apply map_ext; intros [[[d f] w] m]; unfold mask, cond_low; now rewrite Um. }
    rewrite Ml, pad_mk by assumption. cbn [bind]. rewrite (each_map _ _ (fun x => x)).
    2: { intros [[[d f] w] m]. unfold view, mk. cbn [models data flags rest]. now rewrite get_models_some. }
    rewrite map_id. cbn [bind]. destruct (initialize _ _ _ _ _) as [s0| |]; [|reflexivity|reflexivity]. cbn [bind].
    destruct (solver all (seen_of all xs) s0) as [v n]. rewrite !map_length.
    assert (Sn : firstn (length xs) (seen_of all xs) = map (mask all) xs).
    { unfold seen_of. destruct xs as [|x xs]; [reflexivity|]. cbn [map]. rewrite firstn_app. rewrite firstn_all2 by (cbn [length]; rewrite map_length; lia).
      cbn [length]. rewrite map_length, Nat.sub_diag. cbn [firstn]. now rewrite app_nil_r. }
    destruct (subtract cfg || keep_model cfg) eqn:Sk; cbn [andb].
    + destruct (one_per_direction cfg); [|reflexivity]. cbn [negb]. rewrite firstn_map, Sn, map_map.
      rewrite (each_map _ _ (after all (Some (v, n)))); [reflexivity|]. intros [[[d f] w] m]. unfold correct_buffer, mask, mk, after. cbn [models data flags rest].
      rewrite get_models_some, Op, Sk. cbn [bind]. destruct (correct v (d, m)) as [d' m']. f_equal. destruct (keep_model cfg); [reflexivity|].
      unfold remove_models. cbn [models data flags rest]. now rewrite map_map.
    + rewrite map_map, firstn_map, Sn, map_map. do 2 f_equal. apply map_ext. intros [[[d f] w] m]. unfold remove_models, mask, mk, after. cbn [models data flags rest].
      now rewrite Op, Sk, map_map.
Qed.
(** What the solver starts with *)
Definition starts (all : list buf) (sl : nat -> option (S * nat)) (k : nat) (s0 : S) : Prop :=
  match k with
  | 0 => s0 = fresh all
  | Datatypes.S k' => if propagate cfg then exists v n, sl k' = Some (v, n) /\ s0 = if (max_iterations cfg <? n) && converged_only cfg then fresh all else v else s0 = fresh all
  end.
Lemma initialize_ok all (st : state) k : (0 < k -> sols st (k - 1) <> None) -> exists s0, initialize cfg fresh all st k = Ok s0 /\ starts all (sols st) k s0.
Proof.
  unfold initialize, starts. destruct k as [|k]; intros H; [exists (fresh all); split; reflexivity|]. replace (0 <? Datatypes.S k) with true by reflexivity. cbn [andb].
  destruct (propagate cfg); [|eauto]. replace (Datatypes.S k - 1) with k in * by lia. specialize (H ltac:(lia)).
  destruct (sols st k) as [[v n]|]; [|easy]. eexists. split; [reflexivity|]. eauto.
Qed.
Definition needs_one : bool := (subtract cfg || keep_model cfg) && negb (only_predict cfg).
(** A solution is from its interval *)
Definition solved (all : list buf) (sl : nat -> option (S * nat)) (k : nat) (xs : list tuple) (call : list tuple * S) : Prop :=
  exists s0, call = (seen_of all xs, s0) /\ sl k = Some (solver all (seen_of all xs) s0) /\ starts all sl k s0.
Lemma solve_intervals_spec all qs : forall (st : state) i, Forall (fun xs => 0 < length xs <= s) qs ->
  (only_predict cfg = false -> forall k, k < first st + i -> sols st k <> None) ->
  if ((first st + i + length qs <=? n_sol cfg) && (negb needs_one || one_per_direction cfg)) || (length qs =? 0) then
    exists sl cs,
      solve_intervals cfg low all_flagged fresh solver correct sum all st i (map (map mk) qs) =
        Ok (State (held st) (saved st) (results st) (first st) sl (sent st) (calls st ++ cs),
            map (fun p => map (after all (sl (first st + fst p))) (snd p)) (combine (seq i (length qs)) qs)) /\
      (forall k, k < first st + i -> sl k = sols st k) /\
      (only_predict cfg = true -> cs = []) /\
      (only_predict cfg = false -> length cs = length qs /\
         forall j xs, nth_error qs j = Some xs -> exists call, nth_error cs j = Some call /\ solved all sl (first st + i + j) xs call)
  else solve_intervals cfg low all_flagged fresh solver correct sum all st i (map (map mk) qs) = Throw.
Proof.
  induction qs as [|xs qs IH]; intros st i Fq Hsol.
  - cbn [length]. rewrite Nat.eqb_refl, orb_true_r. exists (sols st), []. cbn. rewrite app_nil_r. split; [destruct st; reflexivity|]. split; [reflexivity|]. split; [reflexivity|].
    intros _. split; [reflexivity|]. intros j xs E. now destruct j.
  - inversion Fq as [|? ? Hx Fq' E1]. subst. cbn [length Nat.eqb]. rewrite orb_false_r. cbn [map solve_intervals].
    rewrite solve_interval_spec by lia.
    destruct (Nat.leb_spec (n_sol cfg) (first st + i)) as [Hn|Hn].
    { replace (first st + i + Datatypes.S (length qs) <=? n_sol cfg) with false by (symmetry; apply Nat.leb_gt; lia). reflexivity. }
    destruct (only_predict cfg) eqn:Op.
    + assert (No : needs_one = false) by (unfold needs_one; rewrite Op; now rewrite andb_false_r). rewrite No in *. cbn [negb orb bind] in *. rewrite andb_true_r in *.
      specialize (IH st (Datatypes.S i) Fq' ltac:(discriminate)).
      destruct (Nat.leb_spec (first st + i + Datatypes.S (length qs)) (n_sol cfg)) as [Le|Le].
      * replace (first st + Datatypes.S i + length qs <=? n_sol cfg) with true in IH by (symmetry; apply Nat.leb_le; lia). cbn [orb andb] in IH.
        destruct IH as (sl & cs & E & A & B & _). rewrite E. cbn [bind]. exists sl, cs. split; [|split; [|split]].
        -- do 2 f_equal. cbn [seq combine map fst snd]. f_equal. apply map_ext. intros [[[d f] w] m]. unfold after. now rewrite Op.
        -- intros k Hk. apply A. lia.
        -- exact B.
        -- discriminate.
      * destruct (Nat.eqb_spec (length qs) 0) as [Z|Z]; [lia|].
        replace (first st + Datatypes.S i + length qs <=? n_sol cfg) with false in IH by (symmetry; apply Nat.leb_gt; lia). cbn [orb andb] in IH. now rewrite IH.
    + assert (Nn : needs_one = subtract cfg || keep_model cfg) by (unfold needs_one; rewrite Op; now rewrite andb_true_r).
      specialize (Hsol eq_refl). destruct (initialize_ok all st (first st + i)) as (s0 & E0 & St0); [intros Hp; apply Hsol; lia|]. rewrite E0. cbn [bind]. cbv zeta.
      rewrite <- Nn. destruct (needs_one && negb (one_per_direction cfg)) eqn:Bad.
      { apply andb_true_iff in Bad as [B1 B2]. apply negb_true_iff in B2. rewrite B1, B2. cbn [negb orb]. rewrite andb_false_r. reflexivity. }
      assert (Good : negb needs_one || one_per_direction cfg = true) by (destruct needs_one, (one_per_direction cfg); easy).
      rewrite Good in *. rewrite andb_true_r in *. cbn [bind].
      set (r := solver all (seen_of all xs) s0).
      set (st1 := State _ _ _ _ (fun k => if k =? first st + i then Some r else sols st k) _ _).
      specialize (IH st1 (Datatypes.S i) Fq'). cbn [first sols held saved results sent calls st1] in IH.
      assert (Hs1 : false = false -> forall k, k < first st + Datatypes.S i -> (if k =? first st + i then Some r else sols st k) <> None).
      { intros _ k Hk. destruct (Nat.eqb_spec k (first st + i)); [discriminate|]. apply Hsol. lia. }
      specialize (IH Hs1).
      destruct (Nat.leb_spec (first st + i + Datatypes.S (length qs)) (n_sol cfg)) as [Le|Le].
      * replace (first st + Datatypes.S i + length qs <=? n_sol cfg) with true in IH by (symmetry; apply Nat.leb_le; lia). cbn [orb andb] in IH.
        destruct IH as (sl & cs & E & A & B & C). destruct (C eq_refl) as [C1 C2]. rewrite E. cbn [bind].
        assert (Ai : sl (first st + i) = Some r) by (rewrite A by lia; now rewrite Nat.eqb_refl).
        assert (Ab : forall k, k < first st + i -> sl k = sols st k).
        { intros k Hk. rewrite A by lia. destruct (Nat.eqb_spec k (first st + i)); [lia|reflexivity]. }
        exists sl, ((seen_of all xs, s0) :: cs). split; [|split; [|split]].
        -- f_equal. f_equal; [|cbn [seq combine map fst snd]; now rewrite Ai]. f_equal. now rewrite <- app_assoc.
        -- exact Ab.
        -- discriminate.
        -- intros _. split; [cbn [length]; lia|]. intros [|j] ys Ej.
           ++ injection Ej as <-. eexists. split; [reflexivity|]. exists s0. split; [reflexivity|]. rewrite Nat.add_0_r. split; [exact Ai|].
              unfold starts in *. destruct (first st + i) as [|k'] eqn:Ek; [exact St0|]. destruct (propagate cfg); [|exact St0].
              rewrite Ab by lia. exact St0.
           ++ cbn [nth_error] in *. destruct (C2 j ys Ej) as (call & Ec & Sv). exists call. split; [exact Ec|].
              replace (first st + i + Datatypes.S j) with (first st + Datatypes.S i + j) by lia. exact Sv.
      * destruct (Nat.eqb_spec (length qs) 0) as [Z|Z]; [lia|].
        replace (first st + Datatypes.S i + length qs <=? n_sol cfg) with false in IH by (symmetry; apply Nat.leb_gt; lia). cbn [orb andb] in IH. now rewrite IH.
Qed.

(** * A batch *)
Definition setf (b y : buf) : buf := Buffer (data y) (if save_flags cfg then flags b else flags y) (rest y) (models y).
Lemma restore_spec a i (h : buf -> buf) p : forall t, (save_flags cfg = true -> forall u b, nth_error p u = Some b -> a i (t + u) = Some (flags b)) ->
  restore cfg a i t (map h p) = Ok (map (fun b => setf b (h b)) p).
Proof.
  induction p as [|b p IH]; intros t H; [reflexivity|]. cbn [map restore]. unfold setf at 1.
  assert (N : save_flags cfg = true -> forall u b', nth_error p u = Some b' -> a i (Datatypes.S t + u) = Some (flags b')).
  { intros Sv u b' E. replace (Datatypes.S t + u) with (t + Datatypes.S u) by lia. apply H; assumption. }
  destruct (save_flags cfg) eqn:Sv.
  - specialize (H eq_refl 0 b eq_refl). rewrite Nat.add_0_r in H. rewrite H. cbn [bind]. rewrite (IH _ N). reflexivity.
  - cbn [bind]. rewrite (IH _ N). reflexivity.
Qed.
Lemma restore_all_spec a (h : nat -> buf -> buf) (g : nat -> list buf) n : forall i,
  (save_flags cfg = true -> forall j u b, i <= j < i + n -> nth_error (g j) u = Some b -> a j u = Some (flags b)) ->
  restore_all cfg a i (map (fun j => map (h j) (g j)) (seq i n)) = Ok (concat (map (fun j => map (fun b => setf b (h j b)) (g j)) (seq i n))).
Proof.
  induction n as [|n IH]; intros i H; [reflexivity|]. cbn [seq map restore_all concat]. rewrite restore_spec by (intros Sv u b E; apply (H Sv i); [lia|exact E]).
  cbn [bind]. rewrite IH; [reflexivity|]. intros Sv j u b Hj E. apply (H Sv j); [lia|exact E].
Qed.
Lemma combine_seq_map {A B} (f : nat -> A) (g : nat * A -> B) n : forall i, map g (combine (seq i n) (map f (seq i n))) = map (fun j => g (j, f j)) (seq i n).
Proof. induction n as [|n IH]; intros i; [reflexivity|]. cbn [seq map combine]. f_equal. apply IH. Qed.
Definition accept (n : nat) : bool := (n <=? n_sol cfg) && (negb needs_one || one_per_direction cfg).
Lemma do_solve_spec q (st : state) : holds q st -> q <> [] -> Forall complete q -> (only_predict cfg = false -> forall k, k < first st -> sols st k <> None) ->
  if accept (first st + parts s (length q)) then
    exists sl outs cs, do_solve cfg low all_flagged fresh solver correct sum st =
        Ok (State (held st) (saved st) (results st) (first st) sl (sent st ++ outs) (calls st ++ cs)) /\
      length outs = length q /\
      (forall i b, nth_error q i = Some b -> nth_error outs i = Some (setf b (after (map U q) (sl (first st + i / s)) (x_of b)))) /\
      (forall k, k < first st -> sl k = sols st k) /\
      (only_predict cfg = true -> cs = []) /\
      (only_predict cfg = false -> length cs = parts s (length q) /\
         forall j, j < parts s (length q) -> exists call, nth_error cs j = Some call /\ solved (map U q) sl (first st + j) (map x_of (part s j q)) call)
  else do_solve cfg low all_flagged fresh solver correct sum st = Throw.
Proof.
  intros (H1 & H2 & H3) Hq Cq Hsol. unfold do_solve. cbv zeta. rewrite H1, H2, concat_chunks by assumption.
  assert (Lm : Forall (fun b => length (models b) = length (has_step cfg)) q) by (eapply Forall_impl; [|exact Cq]; intros b [A _]; exact A).
  rewrite move_all_spec by assumption. cbn [bind].
  assert (Em : chunks s (map (filled (length (has_step cfg))) q) = map (map mk) (chunks s (map x_of q))).
  { rewrite <- chunks_map, map_map. f_equal. apply map_ext_in. intros b Ib. apply filled_mk. rewrite Forall_forall in Cq. now apply Cq. }
  rewrite Em. pose proof (solve_intervals_spec (map U q) (chunks s (map x_of q)) st 0) as Sp. rewrite Nat.add_0_r in Sp.
  assert (Lp : length (chunks s (map x_of q)) = parts s (length q)) by (rewrite chunks_length, map_length; reflexivity).
  assert (Pos : 0 < length q) by (destruct q; [easy|cbn; lia]).
  assert (Pp : 0 < parts s (length q)) by (apply parts_le; lia).
  assert (Fl : Forall (fun xs => 0 < length xs <= s) (chunks s (map x_of q))).
  { apply Forall_forall. intros xs I. unfold chunks in I. apply in_map_iff in I as (k & <- & I). apply in_seq in I. rewrite map_length in I.
    assert (K : k * s < length q) by (apply parts_le; lia). rewrite part_length, map_length. lia. }
  specialize (Sp Fl Hsol). rewrite Lp in Sp. replace (parts s (length q) =? 0) with false in Sp by (symmetry; apply Nat.eqb_neq; lia). rewrite orb_false_r in Sp.
  fold (accept (first st + parts s (length q))) in Sp. destruct (accept _); [|rewrite Sp; reflexivity].
  destruct Sp as (sl & cs & E & A & B & C). rewrite E. cbn [bind saved held results first sols sent calls].
  set (h := fun j b => after (map U q) (sl (first st + j)) (x_of b)).
  assert (Eh : map (fun p => map (after (map U q) (sl (first st + fst p))) (snd p)) (combine (seq 0 (parts s (length q))) (chunks s (map x_of q))) =
    map (fun j => map (h j) (part s j q)) (seq 0 (parts s (length q)))).
  { unfold chunks. rewrite map_length, combine_seq_map. cbn [fst snd]. apply map_ext. intros j. rewrite part_map, map_map. reflexivity. }
  rewrite Eh, restore_all_spec.
  2: { intros Sv j u b Hj Eu. rewrite part_nth in Eu. destruct (Nat.ltb_spec u s) as [Hu|Hu]; [|easy]. specialize (H3 Sv _ _ Eu).
       replace ((j * s + u) / s) with j in H3 by (apply (Nat.div_unique _ _ _ u); lia). replace ((j * s + u) mod s) with u in H3 by (apply (Nat.mod_unique _ _ j); lia). exact H3. }
  cbn [bind]. set (outs := concat _).
  assert (No : forall i, nth_error outs i = option_map (fun b => setf b (h (i / s) b)) (nth_error q i)).
  { intros i. unfold outs. rewrite (concat_parts s Hs (fun j b => setf b (h j b))). destruct (Nat.ltb_spec i (parts s (length q) * s)) as [L|L]; [reflexivity|].
    replace (nth_error q i) with (@None buf); [reflexivity|]. symmetry. apply nth_error_None. apply Nat.nlt_ge. intros C'.
    assert (~ parts s (length q) * s < length q) by (rewrite <- parts_le by assumption; lia). lia. }
  exists sl, outs, cs. split; [rewrite H1, H2; reflexivity|]. split; [|split; [|split; [|split]]].
  - apply Nat.le_antisymm; apply Nat.nlt_ge; intros L.
    + assert (X : nth_error outs (length q) <> None) by now apply nth_error_Some. apply X. rewrite No. now rewrite (proj2 (nth_error_None q (length q)) ltac:(lia)).
    + assert (X : nth_error q (length outs) <> None) by now apply nth_error_Some. apply X. pose proof (No (length outs)) as X2.
      rewrite (proj2 (nth_error_None outs (length outs)) ltac:(lia)) in X2. now destruct (nth_error q (length outs)).
  - intros i b Eb. rewrite No, Eb. reflexivity.
  - exact A.
  - exact B.
  - intros Op. destruct (C Op) as [C1 C2]. split; [exact C1|]. intros j Hj. apply (C2 j (map x_of (part s j q))).
    rewrite chunks_nth by assumption. rewrite map_length. apply Nat.ltb_lt in Hj. now rewrite Hj, part_map.
Qed.

(** * All batches *)
Notation size := (n_intervals cfg * s).
Definition all_of (l : list buf) (k : nat) : list buf := map U (part size (k / n_intervals cfg) l).
Definition post (l : list buf) (sl : nat -> option (S * nat)) (out : list buf) (cs : list (list tuple * S)) : Prop :=
  length out = length l /\
  (forall i b, nth_error l i = Some b -> nth_error out i = Some (setf b (after (all_of l (i / s)) (sl (i / s)) (x_of b)))) /\
  (only_predict cfg = true -> cs = []) /\
  (only_predict cfg = false -> length cs = parts s (length l) /\
     forall k, k < parts s (length l) -> exists call, nth_error cs k = Some call /\ solved (all_of l k) sl k (map x_of (part s k l)) call).
Lemma starts_agree all (a b : nat -> option (S * nat)) k s0 n : (forall k, k < n -> a k = b k) -> k < n -> starts all b k s0 -> starts all a k s0.
Proof. intros E H St. unfold starts in *. destruct k as [|k]; [exact St|]. destruct (propagate cfg); [|exact St]. rewrite E by lia. exact St. Qed.
Lemma post_app done c q sl0 out0 cs0 sl out cs : post done sl0 out0 cs0 -> length done = c * size -> length q <= size -> 0 < length q ->
  (forall k, k < c * n_intervals cfg -> sl k = sl0 k) -> length out = length q ->
  (forall i b, nth_error q i = Some b -> nth_error out i = Some (setf b (after (map U q) (sl (c * n_intervals cfg + i / s)) (x_of b)))) ->
  (only_predict cfg = true -> cs = []) ->
  (only_predict cfg = false -> length cs = parts s (length q) /\
     forall j, j < parts s (length q) -> exists call, nth_error cs j = Some call /\ solved (map U q) sl (c * n_intervals cfg + j) (map x_of (part s j q)) call) ->
  post (done ++ q) sl (out0 ++ out) (cs0 ++ cs).
Proof.
  intros (P1 & P2 & P3 & P4) Ld Lq Pq Ag Lo Ho Hc1 Hc2. set (N := n_intervals cfg) in *.
  assert (Sz : c * (N * s) = c * N * s) by lia.
  assert (Aold : forall k, k < c * N -> all_of (done ++ q) k = all_of done k).
  { intros k Hk. unfold all_of. fold N. f_equal. assert (k / N < c) by (apply Nat.div_lt_upper_bound; lia). apply part_app; try (clear - Hs HN; subst N; nia).
    rewrite Ld. apply Nat.mul_le_mono_r. lia. }
  assert (Anew : forall j, j < N -> all_of (done ++ q) (c * N + j) = map U q).
  { intros j Hj. unfold all_of. fold N. f_equal. assert (Dj : (c * N + j) / N = c + 0) by (symmetry; apply (Nat.div_unique _ _ _ j); lia). rewrite Dj.
    rewrite part_app2; [|assumption || (clear - Hs HN; subst N; nia) ..]. unfold part. cbn [Nat.mul skipn]. now apply firstn_all2. }
  assert (Jn : forall j, j < parts s (length q) -> j < N).
  { intros j Hj. apply parts_le in Hj; [|assumption]. clear - Hj Lq Hs. subst N. nia. }
  split; [rewrite !app_length; lia|]. split; [|split].
  - intros i b Eb. destruct (Nat.lt_ge_cases i (length done)) as [L|L].
    + rewrite nth_error_app1 in Eb by assumption. rewrite nth_error_app1 by lia.
      assert (Hi : i / s < c * N) by (apply Nat.div_lt_upper_bound; lia).
      rewrite Aold by assumption. rewrite Ag by assumption. now apply P2.
    + rewrite nth_error_app2 in Eb by assumption. rewrite nth_error_app2 by lia. rewrite P1.
      assert (Hi : i - length done < length q) by (apply nth_error_Some; congruence).
      assert (Di : i / s = c * N + (i - length done) / s).
      { replace i with (i - length done + c * N * s) at 1 by lia. rewrite Nat.div_add by lia. lia. }
      rewrite Di. rewrite Anew by (apply Jn, div_lt_parts; assumption). now apply Ho.
  - intros Op. now rewrite P3, Hc1.
  - intros Op. destruct (P4 Op) as [L1 F1]. destruct (Hc2 Op) as [L2 F2].
    assert (Pd : parts s (length done) = c * N). { rewrite Ld, Sz. replace (c * N * s) with (c * N * s + 0) by lia. rewrite parts_mul, parts_zero by assumption. lia. }
    assert (Pa : parts s (length (done ++ q)) = c * N + parts s (length q)). { rewrite app_length, Ld, Sz. now rewrite parts_mul. }
    split; [rewrite app_length; lia|]. intros k Hk. rewrite Pa in Hk. rewrite Pd in *. destruct (Nat.lt_ge_cases k (c * N)) as [L|L].
    + rewrite nth_error_app1 by lia. destruct (F1 k L) as (call & Ec & s0 & -> & Es & St). eexists. split; [exact Ec|]. exists s0.
      rewrite part_app by (try assumption; rewrite Ld, Sz; apply Nat.mul_le_mono_r; lia). rewrite Aold by assumption. split; [reflexivity|].
      split; [now rewrite Ag|]. now apply (starts_agree _ _ sl0 k s0 (c * N)).
    + rewrite nth_error_app2 by lia. rewrite L1. destruct (F2 (k - c * N)) as (call & Ec & Sv); [lia|]. exists call. split; [exact Ec|].
      replace (c * N + (k - c * N)) with k in Sv by lia.
      replace (all_of (done ++ q) k) with (map U q) by (replace k with (c * N + (k - c * N)) by lia; symmetry; apply Anew; apply Jn; lia).
      replace (part s k (done ++ q)) with (part s (k - c * N) q); [exact Sv|]. replace k with (c * N + (k - c * N)) at 2 by lia. symmetry. apply part_app2; [assumption || lia ..].
Qed.

Lemma results_nil : map (fun _ => []) (has_step cfg) = results_of [].
Proof.
  unfold results_of. generalize 0. induction (has_step cfg) as [|x l IH]; intros n; [reflexivity|]. cbn [map length seq combine fst snd]. rewrite (IH (Datatypes.S n)). f_equal. now destruct x.
Qed.
Record inv (done q : list buf) (c : nat) (st : state) : Prop := {
  i_done : length done = c * size; i_q : length q < size; i_holds : holds q st; i_complete : Forall complete q;
  i_first : first st = c * n_intervals cfg; i_sols : only_predict cfg = false -> forall k, k < first st -> sols st k <> None;
  i_post : post done (sols st) (sent st) (calls st); i_accept : done <> [] -> accept (parts s (length done)) = true }.
Definition accepts (l : list buf) : bool := forallb (has_models cfg) l && (accept (parts s (length l)) || (length l =? 0)).
Lemma parts_mono a b : a <= b -> parts s a <= parts s b.
Proof. intros H. unfold parts. apply Nat.div_le_mono; lia. Qed.
Lemma accept_mono a b : a <= b -> accept b = true -> accept a = true.
Proof. unfold accept. intros H E. apply andb_true_iff in E as [E1 E2]. rewrite E2, andb_true_r. apply Nat.leb_le in E1. apply Nat.leb_le. lia. Qed.
Lemma post_sols l (st : state) : post l (sols st) (sent st) (calls st) -> only_predict cfg = false -> forall k, k < parts s (length l) -> sols st k <> None.
Proof. intros (_ & _ & _ & P4) Op k Hk. destruct (P4 Op) as [_ F1]. destruct (F1 k Hk) as (call & _ & s0 & _ & E & _). congruence. Qed.
Lemma run_from_spec l : forall done q c (st : state), inv done q c st -> Forall (fun b => length (models b) = length (has_step cfg)) l ->
  if forallb (has_models cfg) l && (accept (parts s (length (done ++ q ++ l))) || (length (done ++ q ++ l) =? 0)) then
    exists st', run_from cfg uvw predict low all_flagged fresh solver correct sum st l = Ok st' /\ post (done ++ q ++ l) (sols st') (sent st') (calls st')
  else run_from cfg uvw predict low all_flagged fresh solver correct sum st l = Throw.
Proof.
  induction l as [|b l IH]; intros done q c st I Fl; destruct I as [Id Iq Ih Ic If Is Ip Ia].
  - cbn [forallb andb run_from]. rewrite app_nil_r. unfold finish. destruct q as [|b0 q'] eqn:Eq.
    + rewrite app_nil_r. destruct Ih as (H1 & _). rewrite H1. unfold chunks. cbn [map length]. rewrite parts_zero by assumption. cbn [seq map].
      destruct done as [|x done'].
      * cbn [length]. rewrite Nat.eqb_refl, orb_true_r. eauto.
      * rewrite Ia by discriminate. cbn [orb]. eauto.
    + rewrite <- Eq in *. assert (Nq : q <> []) by (rewrite Eq; discriminate).
      assert (Pq : 0 < length q) by (rewrite Eq; cbn; lia).
      assert (Nh : exists x y, held st = x :: y).
      { destruct Ih as (H1 & _). destruct (held st) as [|x y] eqn:E; [|eauto]. exfalso. apply (f_equal (@length _)) in H1. rewrite chunks_length, map_length in H1. cbn [length] in H1.
        assert (0 < parts s (length q)) by (apply parts_le; lia). lia. }
      destruct Nh as (x & y & Nh). rewrite Nh.
      assert (Pa : parts s (length (done ++ q)) = first st + parts s (length q)).
      { rewrite app_length, Id, If. replace (c * size) with (c * n_intervals cfg * s) by lia. now rewrite parts_mul. }
      pose proof (do_solve_spec q st Ih Nq Ic Is) as Ds. rewrite <- Pa in Ds. replace (length (done ++ q) =? 0) with false by (symmetry; apply Nat.eqb_neq; rewrite app_length; lia).
      rewrite orb_false_r. destruct (accept (parts s (length (done ++ q)))); [|now rewrite Ds].
      destruct Ds as (sl & outs & cs & E & L & A & B & C1 & C2). rewrite E. cbn [bind]. eexists. split; [reflexivity|]. cbn [sols sent calls].
      rewrite If in *. apply (post_app done c q (sols st)); try assumption. lia.
  - apply Forall_cons_iff in Fl as [Lb Fl']. cbn [forallb run_from]. unfold process.
    destruct (has_models cfg b) eqn:Hb; [|reflexivity]. cbn [andb].
    assert (Cb : complete b) by (split; [exact Lb|apply has_models_there; assumption]).
    destruct (prepare_holds q st b Ih) as (Ph & P1 & P2 & P3 & P4). set (st1 := prepare cfg uvw predict st b) in *. cbv zeta.
    assert (Cq : Forall complete (q ++ [b])) by (apply Forall_app; split; [assumption|now constructor]).
    destruct (last_chunk (map U q) (U b)) as [L1 L2]. assert (He : held st1 = chunks s (map U q ++ [U b])) by (destruct Ph as (H & _); now rewrite H, map_app).
    rewrite <- He in L1, L2. rewrite map_length in L1, L2. rewrite L1, L2.
    pose proof (Nat.div_mod (length q) s ltac:(lia)) as Dm. pose proof (Nat.mod_upper_bound (length q) s ltac:(lia)) as Mb.
    replace (done ++ q ++ b :: l) with ((done ++ q ++ [b]) ++ l) by (rewrite <- !app_assoc; reflexivity).
    destruct ((length q / s + 1 =? n_intervals cfg) && (length q mod s + 1 =? s)) eqn:Full.
    + apply andb_true_iff in Full as [F1 F2]. apply Nat.eqb_eq in F1, F2.
      assert (Lq : length (q ++ [b]) = size). { rewrite app_length. cbn [length]. rewrite <- F1. clear - Dm F2. nia. }
      assert (Nq : q ++ [b] <> []) by now destruct q.
      assert (Is1 : only_predict cfg = false -> forall k, k < first st1 -> sols st1 k <> None) by (rewrite P1, P2; exact Is).
      pose proof (do_solve_spec (q ++ [b]) st1 Ph Nq Cq Is1) as Ds.
      assert (Pa : first st1 + parts s (length (q ++ [b])) = parts s (length (done ++ q ++ [b]))).
      { rewrite (app_length done), Id, P1, If. replace (c * size) with (c * n_intervals cfg * s) by lia. now rewrite parts_mul. }
      rewrite Pa in Ds. assert (Pb : parts s (length (done ++ q ++ [b])) = (c + 1) * n_intervals cfg).
      { rewrite <- Pa, P1, If, Lq. replace size with (n_intervals cfg * s + 0) by lia. rewrite parts_mul, parts_zero by assumption. lia. }
      destruct (accept (parts s (length (done ++ q ++ [b])))) eqn:Ac.
      * destruct Ds as (sl & outs & cs & E & L & A & B & C1 & C2). rewrite E. cbn [bind held saved results first sols sent calls].
        set (st2 := State [] _ _ _ _ _ _).
        assert (I2 : inv (done ++ q ++ [b]) [] (c + 1) st2).
        { assert (Po : post (done ++ q ++ [b]) sl (sent st1 ++ outs) (calls st1 ++ cs)).
          { rewrite P3, P4. rewrite P1, If, P2 in *. apply (post_app done c (q ++ [b]) (sols st)); try assumption; lia. }
          constructor.
          - rewrite (app_length done), Id, Lq. lia.
          - cbn [length]. clear - Hs HN. nia.
          - split; [|split].
            + unfold st2. cbn [held]. unfold chunks. cbn [map length]. now rewrite parts_zero.
            + unfold st2. cbn [results]. apply results_nil.
            + intros _ i b' Ei. now destruct i.
          - constructor.
          - unfold st2. cbn [first]. rewrite P1, If, L2, F1. lia.
          - intros Op k Hk. apply (post_sols (done ++ q ++ [b]) st2); [exact Po|assumption|]. unfold st2 in Hk. cbn [first] in Hk. rewrite P1, If, L2, F1 in Hk. rewrite Pb. lia.
          - exact Po.
          - intros _. exact Ac. }
        specialize (IH _ _ _ _ I2 Fl'). exact IH.
      * rewrite Ds. cbn [bind]. assert (Ac2 : accept (parts s (length ((done ++ q ++ [b]) ++ l))) = false).
        { apply not_true_iff_false. intros C. apply (accept_mono (parts s (length (done ++ q ++ [b])))) in C; [congruence|]. apply parts_mono. rewrite (app_length (done ++ q ++ [b])). lia. }
        rewrite Ac2. replace (length ((done ++ q ++ [b]) ++ l) =? 0) with false by (symmetry; apply Nat.eqb_neq; rewrite !app_length; cbn [length]; lia).
        cbn [orb]. now rewrite andb_false_r.
    + cbn [bind]. assert (Lq : length (q ++ [b]) < size).
      { rewrite app_length. cbn [length]. destruct (Nat.eq_dec (length q + 1) size) as [E|E]; [|lia]. exfalso.
        assert (Q1 : length q / s = n_intervals cfg - 1) by (symmetry; apply (Nat.div_unique _ _ _ (s - 1)); [lia|clear - E Hs HN; nia]).
        assert (Q2 : length q mod s = s - 1) by (symmetry; apply (Nat.mod_unique _ _ (n_intervals cfg - 1)); [lia|clear - E Hs HN; nia]).
        rewrite Q1, Q2 in Full. rewrite !Nat.sub_add, !Nat.eqb_refl in Full by lia. discriminate. }
      assert (I2 : inv done (q ++ [b]) c st1) by (constructor; rewrite ?P1, ?P2, ?P3, ?P4; assumption).
      specialize (IH _ _ _ _ I2 Fl'). replace ((done ++ q ++ [b]) ++ l) with (done ++ (q ++ [b]) ++ l) by (rewrite <- !app_assoc; reflexivity). exact IH.
Qed.
Theorem run_spec l : Forall (fun b => length (models b) = length (has_step cfg)) l ->
  if accepts l then exists st, run cfg uvw predict low all_flagged fresh solver correct sum l = Ok st /\ post l (sols st) (sent st) (calls st)
  else run cfg uvw predict low all_flagged fresh solver correct sum l = Throw.
Proof.
  intros Fl. apply (run_from_spec l [] [] 0 (init cfg)); [|exact Fl]. constructor.
  - reflexivity.
  - cbn [length]. clear - Hs HN. nia.
  - split; [|split].
    + unfold chunks. cbn [map length]. now rewrite parts_zero.
    + apply results_nil.
    + intros _ i b Ei. now destruct i.
  - constructor.
  - reflexivity.
  - intros _ k Hk. cbn [init first] in Hk. lia.
  - split; [reflexivity|]. split; [intros i b Ei; now destruct i|]. split; [reflexivity|]. intros _. cbn [length init calls]. rewrite parts_zero by assumption. split; [reflexivity|]. lia.
  - easy.
Qed.
End Run.
