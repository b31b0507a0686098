(** Proofs about the set trees of the preflagger. *)
From Coq Require Import QArith Qcanon List Bool Arith ZArith Ascii Lia.
From Verif Require Import QcUtil FlagExprModel FlagExprSpec FlagExprProofs PreflagModel PreflagSpec PreflagProofs.
Import ListNotations.
Open Scope nat_scope.

(** * Lists *)
Lemma mapi_nth {A B} (g : nat -> A -> B) d d' : forall l s b, b < length l ->
  nth b (map (fun '(i, x) => g i x) (combine (seq s (length l)) l)) d' = g (s + b) (nth b l d).
Proof.
  induction l as [|x l IH]; intros s b H; cbn [length] in H; [lia|]. cbn [length seq combine map].
  destruct b; cbn [nth]; [now rewrite Nat.add_0_r|]. rewrite IH by lia. now rewrite Nat.add_succ_r.
Qed.

Lemma mapi_length {A B} (g : nat -> A -> B) l s : length (map (fun '(i, x) => g i x) (combine (seq s (length l)) l)) = length l.
Proof. rewrite map_length, combine_length, seq_length. lia. Qed.

Lemma zip_nth {A B C} (f : A -> B -> C) da db dc : forall l m b, b < length l -> b < length m -> nth b (zip_with f l m) dc = f (nth b l da) (nth b m db).
Proof.
  induction l as [|x l IH]; intros [|y m] b H1 H2; cbn [length] in *; try lia. cbn [zip_with]. destruct b; cbn [nth]; auto. apply IH; lia.
Qed.

Lemma zip_length {A B C} (f : A -> B -> C) : forall l m, length l = length m -> length (zip_with f l m) = length l.
Proof. induction l as [|x l IH]; intros [|y m] H; cbn [length zip_with] in *; try lia; auto. Qed.

Lemma map_nth' {A B} (f : A -> B) d d' : forall l b, b < length l -> nth b (map f l) d' = f (nth b l d).
Proof. induction l as [|x l IH]; intros b H; cbn [length] in *; [lia|]. destruct b; cbn [map nth]; auto. apply IH. lia. Qed.

Lemma repeat_nth {A} (x d : A) n i : i < n -> nth i (repeat x n) d = x.
Proof. revert i. induction n; intros i H; [lia|]. destruct i; cbn; auto. apply IHn. lia. Qed.

Definition at2 (b c : nat) (f : pflags) : bool := nth c (nth b f []) false.
Definition shaped (nbl nchan : nat) (f : pflags) : Prop := length f = nbl /\ forall b, b < nbl -> length (nth b f []) = nchan.

Section Shapes.
Variables nbl nchan : nat.

Lemma shaped_not f : shaped nbl nchan f -> shaped nbl nchan (flags_not f).
Proof.
  intros [H1 H2]. unfold flags_not. split; [now rewrite map_length|]. intros b Hb. rewrite (map_nth' _ []) by lia. rewrite map_length. auto.
Qed.

Lemma at2_not f b c : shaped nbl nchan f -> b < nbl -> c < nchan -> at2 b c (flags_not f) = negb (at2 b c f).
Proof.
  intros [H1 H2] Hb Hc. unfold at2, flags_not. rewrite (map_nth' _ []) by lia. apply map_nth'. rewrite H2; lia.
Qed.

Lemma shaped_zip g f f' : shaped nbl nchan f -> shaped nbl nchan f' -> shaped nbl nchan (zip_with (zip_with g) f f').
Proof.
  intros [H1 H2] [H3 H4]. split; [rewrite zip_length; lia|]. intros b Hb. rewrite (zip_nth _ [] []) by lia. rewrite zip_length; [auto|]. rewrite H2, H4; auto.
Qed.

Lemma at2_zip g f f' b c : shaped nbl nchan f -> shaped nbl nchan f' -> b < nbl -> c < nchan ->
  at2 b c (zip_with (zip_with g) f f') = g (at2 b c f) (at2 b c f').
Proof.
  intros [H1 H2] [H3 H4] Hb Hc. unfold at2. rewrite (zip_nth _ [] []) by lia. apply zip_nth; [rewrite H2|rewrite H4]; lia.
Qed.

Lemma at2_or f f' b c : shaped nbl nchan f -> shaped nbl nchan f' -> b < nbl -> c < nchan -> at2 b c (flags_or f f') = at2 b c f || at2 b c f'.
Proof. apply at2_zip. Qed.
Lemma at2_and f f' b c : shaped nbl nchan f -> shaped nbl nchan f' -> b < nbl -> c < nchan -> at2 b c (flags_and f f') = at2 b c f && at2 b c f'.
Proof. apply at2_zip. Qed.

(** Evaluating an expression on arrays is evaluating it on each sample. *)
Definition sets_below (n : nat) (rpn : list ritem) : Prop := Forall (fun x => match x with RSet i => i < n | _ => True end) rpn.

Lemma eval_pointwise (res : list pflags) b c : b < nbl -> c < nchan -> (forall i, i < length res -> shaped nbl nchan (nth i res [])) ->
  forall rpn st, sets_below (length res) rpn -> Forall (shaped nbl nchan) st ->
  match eval_rpn flags_not flags_and flags_or (fun i => nth i res []) rpn st with
  | Some st' => Forall (shaped nbl nchan) st' /\
      eval_rpn negb andb orb (fun i => at2 b c (nth i res [])) rpn (map (at2 b c) st) = Some (map (at2 b c) st')
  | None => eval_rpn negb andb orb (fun i => at2 b c (nth i res [])) rpn (map (at2 b c) st) = None
  end.
Proof.
  intros Hb Hc Hres. induction rpn as [|x rpn IH]; intros st Hs Hst; cbn [eval_rpn].
  - auto.
  - apply Forall_cons_iff in Hs as [Hx Hs]. destruct x as [i|[| | |]].
    + apply (IH (nth i res [] :: st)); auto.
    + auto.
    + destruct st as [|u [|v st]]; cbn [map]; auto.
      apply Forall_cons_iff in Hst as [Hu Hst]. apply Forall_cons_iff in Hst as [Hv Hst].
      specialize (IH (flags_or v u :: st) Hs). cbn [map] in IH. rewrite at2_or in IH by assumption.
      apply IH. constructor; auto. now apply shaped_zip.
    + destruct st as [|u [|v st]]; cbn [map]; auto.
      apply Forall_cons_iff in Hst as [Hu Hst]. apply Forall_cons_iff in Hst as [Hv Hst].
      specialize (IH (flags_and v u :: st) Hs). cbn [map] in IH. rewrite at2_and in IH by assumption.
      apply IH. constructor; auto. now apply shaped_zip.
    + destruct st as [|u st]; cbn [map]; auto.
      apply Forall_cons_iff in Hst as [Hu Hst].
      specialize (IH (flags_not u :: st) Hs). cbn [map] in IH. rewrite at2_not in IH by assumption.
      apply IH. constructor; auto. now apply shaped_not.
Qed.

Lemma eval_shaped (res : list pflags) : (forall i, i < length res -> shaped nbl nchan (nth i res [])) ->
  forall rpn st st', sets_below (length res) rpn -> Forall (shaped nbl nchan) st ->
  eval_rpn flags_not flags_and flags_or (fun i => nth i res []) rpn st = Some st' -> Forall (shaped nbl nchan) st'.
Proof.
  intros Hres. induction rpn as [|x rpn IH]; intros st st' Hs Hst E; cbn [eval_rpn] in E.
  - congruence.
  - apply Forall_cons_iff in Hs as [Hx Hs]. destruct x as [i|[| | |]].
    + apply (IH (nth i res [] :: st)); auto.
    + discriminate.
    + destruct st as [|u [|v st]]; try discriminate. apply Forall_cons_iff in Hst as [Hu Hst]. apply Forall_cons_iff in Hst as [Hv Hst].
      apply (IH _ _ Hs) in E; auto. constructor; auto. now apply shaped_zip.
    + destruct st as [|u [|v st]]; try discriminate. apply Forall_cons_iff in Hst as [Hu Hst]. apply Forall_cons_iff in Hst as [Hv Hst].
      apply (IH _ _ Hs) in E; auto. constructor; auto. now apply shaped_zip.
    + destruct st as [|u st]; try discriminate. apply Forall_cons_iff in Hst as [Hu Hst].
      apply (IH _ _ Hs) in E; auto. constructor; auto. now apply shaped_not.
Qed.
End Shapes.

(** Whether the evaluation succeeds does not depend on the values. *)
Lemma eval_depth {F G} (fn : F -> F) (fa fo : F -> F -> F) (sets : nat -> F) (gn : G -> G) (ga go : G -> G -> G) (sets' : nat -> G) :
  forall rpn st st', length st = length st' ->
  match eval_rpn fn fa fo sets rpn st, eval_rpn gn ga go sets' rpn st' with
  | Some a, Some b => length a = length b | None, None => True | _, _ => False end.
Proof.
  induction rpn as [|x rpn IH]; intros st st' H; cbn [eval_rpn]; [exact H|].
  destruct x as [i|[| | |]].
  - apply IH. cbn [length]. now f_equal.
  - exact I.
  - destruct st as [|u [|v st]], st' as [|u' [|v' st']]; cbn [length] in H; try discriminate; try exact I. apply IH. cbn [length]. congruence.
  - destruct st as [|u [|v st]], st' as [|u' [|v' st']]; cbn [length] in H; try discriminate; try exact I. apply IH. cbn [length]. congruence.
  - destruct st as [|u st], st' as [|u' st']; cbn [length] in H; try discriminate; try exact I. apply IH. cbn [length]. congruence.
Qed.

(** * The loops over the baselines *)
Lemma keep_loop_spec ok : forall m i,
  length (fst (keep_loop ok i m)) = length m /\
  (forall j, nth j (fst (keep_loop ok i m)) false = nth j m false && ok (i + j)) /\
  (snd (keep_loop ok i m) = false -> forall j, nth j m false && ok (i + j) = false).
Proof.
  induction m as [|x m IH]; intros i; cbn [keep_loop].
  - cbn. split; auto. split; intros; now destruct j.
  - destruct (IH (S i)) as (H1 & H2 & H3). destruct (keep_loop ok (S i) m) as [r found]. cbn [fst snd] in *.
    assert (G : forall j, i + S j = S i + j) by (intros; lia).
    destruct x; [destruct (ok i) eqn:E|]; cbn [fst snd length]; (split; [lia|]); split.
    + intros [|j]; cbn [nth]; [now rewrite Nat.add_0_r, E|rewrite G; apply H2].
    + discriminate.
    + intros [|j]; cbn [nth]; [now rewrite Nat.add_0_r, E|rewrite G; apply H2].
    + intros Hf [|j]; cbn [nth]; [now rewrite Nat.add_0_r, E|rewrite G; now apply H3].
    + intros [|j]; cbn [nth]; [reflexivity|rewrite G; apply H2].
    + intros Hf [|j]; cbn [nth]; [reflexivity|rewrite G; now apply H3].
Qed.

Section Azel.
Variables (o : pobs) (k : crit) (d : pbuffer).
Notation ok := (azel_ok k d).
Definition ok_if (done : nat -> bool) (a : nat) : bool := negb (done a) || ok a.

(** The state while baseline [i] is being looked at. *)
Definition azel_mid (m0 : list bool) (i : nat) (m : list bool) (done : nat -> bool) : Prop :=
  length m = length m0 /\
  forall j, j < length m0 -> nth j m false = nth j m0 false &&
    (if j <? i then ok (o_ant1 o j) && ok (o_ant2 o j) else ok_if done (o_ant1 o j) && ok_if done (o_ant2 o j)).

Lemma clear_ant_nth a i m j : j < length m -> nth j (clear_ant o a i m) false =
  if (i <=? j) && ((o_ant1 o j =? a) || (o_ant2 o j =? a)) then false else nth j m false.
Proof. intros H. unfold clear_ant. now rewrite (mapi_nth (fun i0 x => if (i <=? i0) && ((o_ant1 o i0 =? a) || (o_ant2 o i0 =? a)) then false else x) false). Qed.

Lemma test_azel_mid m0 i m done a : azel_mid m0 i m done -> done a = false ->
  azel_mid m0 i (test_azel o k d i a m) (fun x => if x =? a then true else done x).
Proof.
  intros [Hl H] Hd. unfold test_azel. split.
  - destruct (ok a); auto. unfold clear_ant. now rewrite (mapi_length (fun i0 x => if (i <=? i0) && ((o_ant1 o i0 =? a) || (o_ant2 o i0 =? a)) then false else x)).
  - intros j Hj. specialize (H j Hj). unfold ok_if in *.
    assert (E : nth j (if ok a then m else clear_ant o a i m) false =
      nth j m false && negb ((i <=? j) && ((o_ant1 o j =? a) || (o_ant2 o j =? a)) && negb (ok a))).
    { destruct (ok a); [rewrite !andb_false_r; cbn [negb]; now rewrite andb_true_r|]. rewrite clear_ant_nth by lia.
      destruct ((i <=? j) && _); cbn [negb andb]; now rewrite ?andb_false_r, ?andb_true_r. }
    rewrite E, H. rewrite Nat.ltb_antisym. destruct (i <=? j); cbn [negb andb]; [|now rewrite andb_true_r].
    destruct (o_ant1 o j =? a) eqn:E1, (o_ant2 o j =? a) eqn:E2; try apply Nat.eqb_eq in E1; try apply Nat.eqb_eq in E2; rewrite ?E1, ?E2, ?Hd; cbn [orb negb andb];
      destruct (ok a), (nth j m0 false); cbn; rewrite ?andb_true_r, ?andb_false_r; auto.
Qed.

Definition azel_inv (m0 : list bool) (i : nat) (s : list bool * (nat -> bool) * bool) : Prop :=
  let '(m, done, found) := s in
  azel_mid m0 i m done /\ (found = false -> forall j, j < i -> j < length m0 -> nth j m false = false).

Lemma azel_step_inv m0 i s : i < length m0 -> azel_inv m0 i s -> azel_inv m0 (S i) (azel_step o k d s i).
Proof.
  destruct s as [[m done] found]. intros Hi [HM HF]. unfold azel_step.
  assert (Hnext : forall m done, azel_mid m0 i m done ->
     (nth i m0 false && ok_if done (o_ant1 o i) && ok_if done (o_ant2 o i) = nth i m0 false && ok (o_ant1 o i) && ok (o_ant2 o i)) -> azel_mid m0 (S i) m done).
  { intros m' done' [Hl H] E. split; auto. intros j Hj. rewrite H by exact Hj. destruct (Nat.lt_trichotomy j i) as [L|[->|L]].
    - rewrite (proj2 (Nat.ltb_lt j i) L), (proj2 (Nat.ltb_lt j (S i))) by lia. reflexivity.
    - rewrite Nat.ltb_irrefl, (proj2 (Nat.ltb_lt i (S i))) by lia. now rewrite !andb_assoc.
    - rewrite (proj2 (Nat.ltb_ge j i)), (proj2 (Nat.ltb_ge j (S i))) by lia. reflexivity. }
  assert (Hat : forall m done, azel_mid m0 i m done -> nth i m false = nth i m0 false && ok_if done (o_ant1 o i) && ok_if done (o_ant2 o i)).
  { intros m' done' [Hl H]. rewrite H by exact Hi. now rewrite Nat.ltb_irrefl, andb_assoc. }
  destruct (nth i m false) eqn:Ei.
  - (* the baseline is still selected *)
    set (p := if done (o_ant1 o i) then (m, done) else _).
    assert (H1 : azel_mid m0 i (fst p) (snd p) /\ snd p (o_ant1 o i) = true).
    { unfold p. destruct (done (o_ant1 o i)) eqn:D; cbn [fst snd]; [auto|]. split; [now apply test_azel_mid|now rewrite Nat.eqb_refl]. }
    destruct p as [m1 done1]. cbn [fst snd] in H1. destruct H1 as [H1 D1].
    set (q := if nth i m1 false && negb (done1 (o_ant2 o i)) then _ else (m1, done1)).
    assert (H2 : azel_mid m0 i (fst q) (snd q) /\ snd q (o_ant1 o i) = true /\ (nth i m1 false = true -> snd q (o_ant2 o i) = true) /\ (nth i m1 false = false -> q = (m1, done1))).
    { unfold q. destruct (nth i m1 false) eqn:N1; cbn [andb].
      - destruct (done1 (o_ant2 o i)) eqn:D2; cbn [negb fst snd].
        + split; [exact H1|]. split; [exact D1|]. split; [auto|discriminate].
        + split; [now apply test_azel_mid|]. split; [destruct (_ =? _); auto|]. split; [intros _; now rewrite Nat.eqb_refl|discriminate].
      - cbn [fst snd]. split; [exact H1|]. split; [exact D1|]. split; [discriminate|auto]. }
    destruct q as [m2 done2]. cbn [fst snd] in H2. destruct H2 as (H2 & D1' & D2 & Hsame).
    pose proof (Hat _ _ H1) as A1. pose proof (Hat _ _ H2) as A2. pose proof (Hat _ _ HM) as A0. rewrite Ei in A0.
    assert (M2 : azel_mid m0 (S i) m2 done2).
    { apply Hnext; [exact H2|]. destruct (nth i m1 false) eqn:N1.
      - unfold ok_if. rewrite D1', (D2 eq_refl). reflexivity.
      - specialize (Hsame eq_refl). assert (done2 = done1) by congruence. subst done2. rewrite <- A1.
        unfold ok_if in A1 at 1. rewrite D1 in A1. cbn [negb orb] in A1. unfold ok_if in A1.
        destruct (nth i m0 false); [|reflexivity]. cbn [andb] in *. destruct (ok (o_ant1 o i)); [|reflexivity]. cbn [andb] in *.
        destruct (done1 (o_ant2 o i)); cbn [negb orb] in A1; [auto|discriminate]. }
    split; [exact M2|].
    assert (Hkeep : forall j, j < i -> j < length m0 -> nth j m2 false = nth j m false).
    { intros j Hj Hj'. destruct H2 as [_ H2]. destruct HM as [_ HM]. rewrite H2, HM by exact Hj'. now rewrite (proj2 (Nat.ltb_lt j i) Hj). }
    destruct (nth i m2 false) eqn:N2; [discriminate|]. intros Hf j Hj Hj'. destruct (Nat.eq_dec j i) as [->|Ne]; [exact N2|].
    rewrite Hkeep by lia. apply HF; [exact Hf|lia|exact Hj'].
  - cbn [azel_inv]. split.
    + apply Hnext; [exact HM|]. rewrite <- (Hat _ _ HM), Ei. pose proof (Hat _ _ HM) as A. rewrite Ei in A. unfold ok_if in A. symmetry in A.
      destruct (nth i m0 false); [|reflexivity]. cbn [andb] in *.
      destruct (done (o_ant1 o i)), (done (o_ant2 o i)), (ok (o_ant1 o i)), (ok (o_ant2 o i)); cbn in *; auto; discriminate.
    + intros Hf j Hj Hj'. destruct (Nat.eq_dec j i) as [->|Ne]; [exact Ei|]. apply HF; [exact Hf|lia|exact Hj'].
Qed.

Lemma flag_azel_spec m :
  length (fst (flag_azel o k d m)) = length m /\
  (forall j, j < length m -> nth j (fst (flag_azel o k d m)) false = nth j m false && (ok (o_ant1 o j) && ok (o_ant2 o j))) /\
  (snd (flag_azel o k d m) = false -> forall j, j < length m -> nth j (fst (flag_azel o k d m)) false = false).
Proof.
  assert (G : forall n i s, i + n = length m -> azel_inv m i s -> azel_inv m (length m) (fold_left (azel_step o k d) (seq i n) s)).
  { induction n; intros i s Hi Hs; cbn [seq fold_left].
    - replace (length m) with i by lia. exact Hs.
    - apply IHn; [lia|]. apply azel_step_inv; [lia|exact Hs]. }
  specialize (G (length m) 0 (m, fun _ => false, false) eq_refl).
  assert (H0 : azel_inv m 0 (m, fun _ => false, false)).
  { split; [|intros; lia]. split; auto. intros j Hj. cbn. now rewrite andb_true_r. }
  specialize (G H0). unfold flag_azel.
  destruct (fold_left (azel_step o k d) (seq 0 (length m)) (m, fun _ => false, false)) as [[m' done] found]. cbn [fst snd].
  destruct G as [[Hl H] Hf]. split; [exact Hl|]. split.
  - intros j Hj. rewrite H by exact Hj. now rewrite (proj2 (Nat.ltb_lt j (length m)) Hj).
  - intros E j Hj. now apply Hf.
Qed.
End Azel.

(** * The set numbers in an expression *)
Lemma parse_below ts rpn names : parse ts = Some (rpn, names) -> sets_below (length names) rpn.
Proof.
  unfold sets_below. set (P := fun n (x : ritem) => match x with RSet i => i < n | _ => True end).
  change (parse ts = Some (rpn, names) -> Forall (P (length names)) rpn).
  assert (Mono : forall n m l, n <= m -> Forall (P n) l -> Forall (P m) l).
  { intros n m l H. apply Forall_impl. intros [i|]; cbn; auto. lia. }
  assert (PH : forall o S r n, Forall (P n) r -> Forall (P n) (fst (pop_higher o S r))).
  { induction S as [|t S IH]; intros r n H; cbn [pop_higher]; auto. destruct (oper_ltb t o); auto. apply IH. apply Forall_app. split; auto. repeat constructor. }
  assert (PP : forall S r n r' S', Forall (P n) r -> pop_paren S r = Some (r', S') -> Forall (P n) r').
  { induction S as [|t S IH]; intros r n r' S' H E; cbn [pop_paren] in E; [discriminate|].
    assert (H' : Forall (P n) (r ++ [ROp t])) by (apply Forall_app; split; [auto|repeat constructor]).
    destruct t; try (eapply IH; eauto; fail). injection E as <- <-. exact H. }
  assert (PA : forall S r n r', Forall (P n) r -> pop_all S r = Some r' -> Forall (P n) r').
  { induction S as [|t S IH]; intros r n r' H E; cbn [pop_all] in E; [injection E as <-; exact H|].
    assert (H' : Forall (P n) (r ++ [ROp t])) by (apply Forall_app; split; [auto|repeat constructor]).
    destruct t; try discriminate; eapply IH; eauto. }
  assert (ST : forall s t s', Forall (P (length (q_names s))) (q_rpn s) -> parse_step s t = Some s' -> Forall (P (length (q_names s'))) (q_rpn s')).
  { intros s t s' H E. destruct t; cbn [parse_step] in E; destruct (q_had s); try discriminate.
    - injection E as <-. cbn [q_names q_rpn]. rewrite app_length. cbn [length]. apply Forall_app. split; [eapply Mono; [|exact H]; lia|]. constructor; [cbn; lia|constructor].
    - injection E as <-. unfold push_oper. specialize (PH OpOr (q_stack s) (q_rpn s) _ H). destruct (pop_higher _ _ _); exact PH.
    - injection E as <-. unfold push_oper. specialize (PH OpAnd (q_stack s) (q_rpn s) _ H). destruct (pop_higher _ _ _); exact PH.
    - injection E as <-. unfold push_oper. specialize (PH OpNot (q_stack s) (q_rpn s) _ H). destruct (pop_higher _ _ _); exact PH.
    - injection E as <-. exact H.
    - destruct (pop_paren (q_stack s) (q_rpn s)) as [[r' S']|] eqn:E'; [|discriminate]. injection E as <-. cbn [q_names q_rpn]. eapply PP; eauto. }
  assert (LP : forall ts s s', Forall (P (length (q_names s))) (q_rpn s) -> parse_loop s ts = Some s' -> Forall (P (length (q_names s'))) (q_rpn s')).
  { clear -ST. induction ts as [|t ts IH]; intros s s' H E; cbn [parse_loop] in E; [injection E as <-; exact H|].
    destruct (parse_step s t) as [s1|] eqn:E1; [|discriminate]. eapply IH; [eapply ST; eauto|exact E]. }
  unfold parse. destruct (parse_loop pinit ts) as [s|] eqn:E; [|discriminate]. destruct (q_had s); [|discriminate].
  destruct (pop_all (q_stack s) (q_rpn s)) as [r|] eqn:E'; [|discriminate]. intros [= <- <-].
  eapply PA; [|exact E']. eapply LP; [|exact E]. constructor.
Qed.

(** * The criteria of one set *)
Section Sets.
Variables (o : pobs) (d : pbuffer).
Notation nbl := (o_nbl o).
Notation nchan := (o_nchan o).
Notation shaped := (shaped nbl nchan).

Definition value_ok (val : nat -> nat -> nat -> option Qc) (lim : option (list Qc * list Qc)) (b c : nat) : bool :=
  match lim with None => true | Some l => outside o (val b c) l end.

Definition bl_match (k : crit) (b : nat) : bool :=
  (match k_bl k with Some mat => bl_ok o mat b | None => true end) &&
  (match k_uv k with Some lim => uv_ok d lim b | None => true end) &&
  (azel_ok k d (o_ant1 o b) && azel_ok k d (o_ant2 o b)).

Definition sample_match (k : crit) (b c : nat) : bool :=
  (match k_chan k with Some mask => if existsb (fun x => x) mask then nth c mask false else true | None => true end) &&
  value_ok (d_val d Ampl) (k_ampl k) b c && value_ok (d_val d Real) (k_real k) b c &&
  value_ok (d_val d Imag) (k_imag k) b c && value_ok (d_val d Phase) (k_phase k) b c.

Definition matchb (k : crit) (b c : nat) : bool := match_time o k d && bl_match k b && sample_match k b c.

Lemma shaped_const v : shaped (const_flags o v).
Proof.
  unfold const_flags. split; [now rewrite repeat_length|]. intros b Hb. rewrite repeat_nth by exact Hb. now rewrite repeat_length.
Qed.
Lemma at2_const v b c : b < nbl -> c < nchan -> at2 b c (const_flags o v) = v.
Proof. intros Hb Hc. unfold at2, const_flags. rewrite repeat_nth by exact Hb. now apply repeat_nth. Qed.

Lemma value_spec val lim f : shaped f ->
  shaped (flag_value_opt o val lim f) /\
  forall b c, b < nbl -> c < nchan -> at2 b c (flag_value_opt o val lim f) = at2 b c f && value_ok val lim b c.
Proof.
  intros [H1 H2]. destruct lim as [l|]; cbn [flag_value_opt value_ok].
  2:{ split; [split; auto|]. intros. now rewrite andb_true_r. }
  unfold flag_value. set (g := fun (b : nat) (row : list bool) => map (fun '(c, x) => if outside o (val b c) l then x else false) (combine (seq 0 (length row)) row)).
  change (shaped (map (fun '(b, row) => g b row) (combine (seq 0 (length f)) f)) /\
    forall b c, b < nbl -> c < nchan -> at2 b c (map (fun '(b, row) => g b row) (combine (seq 0 (length f)) f)) = at2 b c f && outside o (val b c) l).
  split.
  - split; [now rewrite mapi_length|]. intros b Hb. rewrite (mapi_nth g []) by lia. unfold g.
    rewrite (mapi_length (fun c (x : bool) => if outside o (val (0 + b) c) l then x else false)). auto.
  - intros b c Hb Hc. unfold at2. rewrite (mapi_nth g []) by lia. unfold g. cbn [Nat.add].
    rewrite (mapi_nth (fun c (x : bool) => if outside o (val b c) l then x else false) false) by (rewrite H2; lia). cbn [Nat.add].
    destruct (outside o (val b c) l); [now rewrite andb_true_r|now rewrite andb_false_r].
Qed.

Lemma own_flags_spec k m : leaves_channel o k -> length m = nbl ->
  shaped (own_flags o k d m) /\
  forall b c, b < nbl -> c < nchan -> at2 b c (own_flags o k d m) = nth b m false && sample_match k b c.
Proof.
  intros Hk Hm. unfold own_flags.
  set (f0 := map (fun x : bool => repeat x nchan) m).
  assert (S0 : shaped f0 /\ forall b c, b < nbl -> c < nchan -> at2 b c f0 = nth b m false).
  { unfold f0. split; [split; [now rewrite map_length|]|].
    - intros b Hb. rewrite (map_nth' _ false) by lia. now rewrite repeat_length.
    - intros b c Hb Hc. unfold at2. rewrite (map_nth' _ false) by lia. now apply repeat_nth. }
  clearbody f0. destruct S0 as [S0 A0].
  set (f1 := match k_chan k with Some mask => if existsb (fun x => x) mask then flag_channels mask f0 else f0 | None => f0 end).
  set (ch := fun c => match k_chan k with Some mask => if existsb (fun x => x) mask then nth c mask false else true | None => true end).
  assert (S1 : shaped f1 /\ forall b c, b < nbl -> c < nchan -> at2 b c f1 = nth b m false && ch c).
  { unfold f1, ch. destruct (k_chan k) as [mask|] eqn:Ek.
    - destruct (existsb (fun x => x) mask).
      + destruct (Hk mask Ek) as [Hl _]. unfold flag_channels. destruct S0 as [Sa Sb]. split; [split; [now rewrite map_length|]|].
        * intros b Hb. rewrite (map_nth' _ []) by lia. rewrite zip_length; [exact Hl|]. rewrite Sb; auto.
        * intros b c Hb Hc. unfold at2. rewrite (map_nth' _ []) by lia. rewrite (zip_nth _ false false) by (rewrite ?Sb; lia).
          unfold at2 in A0. rewrite A0 by assumption. apply andb_comm.
      + split; auto. intros. rewrite andb_true_r. auto.
    - split; auto. intros. rewrite andb_true_r. auto. }
  clearbody f1. destruct S1 as [S1 A1].
  destruct (value_spec (d_val d Ampl) (k_ampl k) f1 S1) as [S2 A2]. set (f2 := flag_value_opt _ _ _ f1) in *. clearbody f2.
  destruct (value_spec (d_val d Real) (k_real k) f2 S2) as [S3 A3]. set (f3 := flag_value_opt _ _ _ f2) in *. clearbody f3.
  destruct (value_spec (d_val d Imag) (k_imag k) f3 S3) as [S4 A4]. set (f4 := flag_value_opt _ _ _ f3) in *. clearbody f4.
  destruct (value_spec (d_val d Phase) (k_phase k) f4 S4) as [S5 A5]. split; [exact S5|].
  intros b c Hb Hc. rewrite A5, A4, A3, A2, A1 by assumption. unfold sample_match. fold (ch c). now rewrite !andb_assoc.
Qed.

(** The baselines left after the three loops. *)
Definition bl_stage (k : crit) (m : list bool) : option (list bool) :=
  let '(m, go) := match k_bl k with Some mat => keep_loop (bl_ok o mat) 0 m | None => (m, true) end in
  if negb go then None else
  let '(m, go) := match k_uv k with Some lim => keep_loop (uv_ok d lim) 0 m | None => (m, true) end in
  if negb go then None else
  let '(m, go) := if on_azel k then flag_azel o k d m else (m, true) in
  if negb go then None else Some m.

Lemma azel_off k a : on_azel k = false -> azel_ok k d a = true.
Proof. unfold on_azel, azel_ok. rewrite orb_false_iff. intros [-> ->]. reflexivity. Qed.

Lemma bl_stage_spec k m : length m = nbl ->
  match bl_stage k m with
  | Some m' => length m' = nbl /\ forall b, b < nbl -> nth b m' false = nth b m false && bl_match k b
  | None => forall b, b < nbl -> nth b m false && bl_match k b = false
  end.
Proof.
  intros Hm. unfold bl_stage, bl_match.
  set (p1 := match k_bl k with Some mat => keep_loop (bl_ok o mat) 0 m | None => (m, true) end).
  set (e1 := fun b => match k_bl k with Some mat => bl_ok o mat b | None => true end).
  assert (H1 : length (fst p1) = nbl /\ (forall b, nth b (fst p1) false = nth b m false && e1 b) /\ (snd p1 = false -> forall b, nth b m false && e1 b = false)).
  { unfold p1, e1. destruct (k_bl k) as [mat|].
    - destruct (keep_loop_spec (bl_ok o mat) m 0) as (A & B & C). split; [lia|]. split; [exact B|exact C].
    - cbn [fst snd]. split; [exact Hm|]. split; [intros; now rewrite andb_true_r|discriminate]. }
  clearbody p1. destruct p1 as [m1 go1]. cbn [fst snd] in H1. destruct H1 as (L1 & N1 & F1).
  destruct go1; cbn [negb].
  2:{ intros b Hb. fold (e1 b). rewrite !andb_assoc. now rewrite F1. }
  clear F1.
  set (p2 := match k_uv k with Some lim => keep_loop (uv_ok d lim) 0 m1 | None => (m1, true) end).
  set (e2 := fun b => match k_uv k with Some lim => uv_ok d lim b | None => true end).
  assert (H2 : length (fst p2) = nbl /\ (forall b, nth b (fst p2) false = nth b m1 false && e2 b) /\ (snd p2 = false -> forall b, nth b m1 false && e2 b = false)).
  { unfold p2, e2. destruct (k_uv k) as [lim|].
    - destruct (keep_loop_spec (uv_ok d lim) m1 0) as (A & B & C). split; [lia|]. split; [exact B|exact C].
    - cbn [fst snd]. split; [exact L1|]. split; [intros; now rewrite andb_true_r|discriminate]. }
  clearbody p2. destruct p2 as [m2 go2]. cbn [fst snd] in H2. destruct H2 as (L2 & N2 & F2).
  destruct go2; cbn [negb].
  2:{ intros b Hb. fold (e1 b) (e2 b). rewrite !andb_assoc, <- N1. now rewrite F2. }
  clear F2.
  set (p3 := if on_azel k then flag_azel o k d m2 else (m2, true)).
  set (e3 := fun b => azel_ok k d (o_ant1 o b) && azel_ok k d (o_ant2 o b)).
  assert (H3 : length (fst p3) = nbl /\ (forall b, b < nbl -> nth b (fst p3) false = nth b m2 false && e3 b) /\ (snd p3 = false -> forall b, b < nbl -> nth b m2 false && e3 b = false)).
  { unfold p3, e3. destruct (on_azel k) eqn:Ea.
    - destruct (flag_azel_spec o k d m2) as (A & B & C). split; [lia|]. split; [intros b Hb; apply B; lia|].
      intros E b Hb. rewrite <- B by lia. apply C; [exact E|lia].
    - cbn [fst snd]. split; [exact L2|]. split; [|discriminate]. intros b Hb. rewrite !(azel_off k) by exact Ea. now rewrite andb_true_r. }
  clearbody p3. destruct p3 as [m3 go3]. cbn [fst snd] in H3. destruct H3 as (L3 & N3 & F3).
  destruct go3; cbn [negb].
  - split; [exact L3|]. intros b Hb. rewrite N3 by exact Hb. rewrite N2, N1. fold (e1 b) (e2 b) (e3 b). now rewrite !andb_assoc.
  - intros b Hb. fold (e1 b) (e2 b) (e3 b). rewrite !andb_assoc, <- N1, <- N2. now apply F3.
Qed.

Lemma process_unfold k rpn children m : process o d (PSet k rpn children) m =
  if on_time k && negb (match_time o k d) then Some (const_flags o false)
  else if time_only k children then Some (const_flags o (on_time k))
  else match bl_stage k (match m with [] => repeat true nbl | _ => m end) with
       | None => Some (const_flags o false)
       | Some m => 
      let f := own_flags o k d m in
      match children with
      | [] => Some f
      | _ =>
        match all_some (map (fun ch => process o d ch m) children) with
        | None => None
        | Some res =>
          match eval_expr flags_not flags_and flags_or (fun i => nth i res []) rpn with
          | None => None
          | Some g => Some (flags_and f g)
          end
        end
      end end.
Proof.
  cbn [process]. destruct (on_time k && negb (match_time o k d)); [reflexivity|]. destruct (time_only k children); [reflexivity|].
  unfold bl_stage. destruct (match k_bl k with Some _ => _ | None => _ end) as [m1 []]; cbn [negb]; [|reflexivity].
  destruct (match k_uv k with Some _ => _ | None => _ end) as [m2 []]; cbn [negb]; [|reflexivity].
  destruct (if on_azel k then _ else _) as [m3 []]; cbn [negb]; reflexivity.
Qed.

(** Without a time criterion every time matches. *)
Lemma match_time_off k : on_time k = false -> match_time o k d = true.
Proof.
  unfold on_time, match_time. rewrite !orb_false_iff. intros ((((-> & ->) & ->) & ->) & ->). reflexivity.
Qed.

Lemma all_some_spec {A} (l : list (option A)) res : all_some l = Some res -> l = map Some res.
Proof.
  revert res. induction l as [|[x|] l IH]; intros res H; cbn [all_some] in H; [injection H as <-; reflexivity| |discriminate].
  destruct (all_some l) as [r|]; [|discriminate]. injection H as <-. cbn [map]. f_equal. now apply IH.
Qed.
Lemma all_some_exists {A} (l : list (option A)) : (forall x, In x l -> x <> None) -> exists res, all_some l = Some res.
Proof.
  induction l as [|x l IH]; intros H; cbn [all_some]; [eauto|]. destruct x as [x|]; [|exfalso; apply (H None); [now left|reflexivity]].
  destruct IH as [res ->]; [intros y Hy; apply H; now right|]. eauto.
Qed.

(** * The tree *)
Fixpoint pset_ind' (P : pset -> Prop) (H : forall k rpn children, Forall P children -> P (PSet k rpn children)) (p : pset) : P p :=
  match p with
  | PSet k rpn children => H k rpn children
      ((fix go l := match l return Forall P l with [] => Forall_nil P | x :: r => Forall_cons x (pset_ind' P H x) (go r) end) children)
  end.

Definition matched (m : list bool) (b : nat) : bool := match m with [] => true | _ => nth b m false end.

(** What a set computes, in terms of what its children compute. *)
Inductive computes (cf : config) : list (list ascii) -> nat -> nat -> bool -> Prop :=
| comp_leaf p k b c : cf p = (k, []) -> computes cf p b c ((on_time k || negb (time_only k [])) && matchb k b c)
| comp_node p k s rpn names vals b c v : cf p = (k, s) -> s <> [] -> expr_to_rpn s = Some (rpn, names) ->
    Forall2 (fun n x => computes cf (p ++ [n]) b c x) names vals ->
    eval_expr negb andb orb (fun i => nth i vals false) rpn = Some v -> computes cf p b c (matchb k b c && v).

Lemma names_nonempty s rpn names : expr_to_rpn s = Some (rpn, names) -> names <> [].
Proof.
  unfold expr_to_rpn. destruct (tokens s) as [ts|]; [|discriminate]. intros E. pose proof (parse_names _ _ _ E) as N.
  destruct (parse_sound _ _ _ E) as [e He]. intros ->.
  assert (App : forall a b, names_of (a ++ b) = names_of a ++ names_of b).
  { induction a as [|t a IH]; intros b; cbn [app names_of]; auto. destruct t; cbn [app]; rewrite IH; reflexivity. }
  assert (G : (forall ts e, prim ts e -> 0 < length (names_of ts)) /\ (forall ts e, unary ts e -> 0 < length (names_of ts)) /\
    (forall ts e, conj ts e -> 0 < length (names_of ts)) /\ (forall ts e, disj ts e -> 0 < length (names_of ts))).
  { apply gram_ind; intros; cbn [names_of]; rewrite ?App, ?app_length; cbn [length]; auto; lia. }
  destruct G as (_ & _ & _ & G). specialize (G ts e He). rewrite <- N in G. cbn in G. lia.
Qed.

(** The evaluation of an accepted expression succeeds. *)
Lemma eval_succeeds {F} (fn : F -> F) (fa fo : F -> F -> F) s rpn names : expr_to_rpn s = Some (rpn, names) -> forall sets : nat -> F, eval_expr fn fa fo sets rpn <> None.
Proof.
  unfold expr_to_rpn. destruct (tokens s) as [ts|]; [|discriminate]. intros E sets.
  destruct (parse_sound _ _ _ E) as [e He].
  destruct (parse_complete (fun _ => true) ts e He) as (rpn' & names' & E' & Hv).
  assert (rpn' = rpn /\ names' = names) as [-> ->] by (rewrite E in E'; split; congruence).
  specialize (Hv (fun _ => true) ltac:(reflexivity)). pose proof (eval_depth fn fa fo sets negb andb orb (fun _ => true) rpn [] [] eq_refl) as G.
  unfold eval_expr in *. destruct (eval_rpn negb andb orb (fun _ => true) rpn []) as [l|]; [|discriminate].
  destruct (eval_rpn fn fa fo sets rpn []) as [l'|]; [|contradiction]. destruct l as [|x [|]]; try discriminate.
  destruct l' as [|y [|]]; cbn [length] in G; try discriminate.
Qed.

Lemma eval_ext {F} (fn : F -> F) (fa fo : F -> F -> F) (f g : nat -> F) n rpn : sets_below n rpn -> (forall i, i < n -> f i = g i) ->
  forall st, eval_rpn fn fa fo f rpn st = eval_rpn fn fa fo g rpn st.
Proof.
  intros H Hfg. induction H as [|x rpn Hx Hr IH]; intros st; cbn [eval_rpn]; auto.
  destruct x as [i|[| | |]]; auto.
  - rewrite Hfg by exact Hx. apply IH.
  - destruct st as [|u [|v st]]; auto.
  - destruct st as [|u [|v st]]; auto.
  - destruct st as [|u st]; auto.
Qed.

Theorem process_computes cf : (forall p, leaves_channel o (fst (cf p))) -> forall P p, builds cf p P ->
  forall m, (m = [] \/ length m = nbl) ->
  exists f, process o d P m = Some f /\ shaped f /\
    forall b c, b < nbl -> c < nchan -> exists v, computes cf p b c v /\ (matched m b = true -> at2 b c f = v).
Proof.
  intros Hcf. induction P as [k rpn children IH] using pset_ind'. intros p HB m Hm.
  assert (Hk : leaves_channel o k) by (inversion HB; subst; match goal with H : cf p = _ |- _ => specialize (Hcf p); rewrite H in Hcf; exact Hcf end).
  set (m' := match m with [] => repeat true nbl | _ => m end).
  assert (Hm' : length m' = nbl /\ forall b, b < nbl -> nth b m' false = matched m b).
  { unfold m', matched. destruct m as [|x m].
    - split; [apply repeat_length|]. intros b Hb. now apply repeat_nth.
    - split; [|auto]. destruct Hm as [Hm|Hm]; [discriminate|exact Hm]. }
  destruct Hm' as [Lm Nm]. rewrite process_unfold. fold m'.
  inversion HB as [p0 k0 Hp E0|p0 k0 s rpn0 names children0 Hp Hs Hr Hch E0]; subst.
  - (* a set without expression *)
    destruct (on_time k) eqn:Et; cbn [andb].
    + destruct (match_time o k d) eqn:Em; cbn [negb].
      * destruct (time_only k []) eqn:Eo.
        -- eexists. split; [reflexivity|]. split; [apply shaped_const|]. intros b c Hb Hc. eexists. split; [apply (comp_leaf cf p k); exact Hp|]. intros _.
           rewrite at2_const by assumption. unfold matchb, bl_match, sample_match. rewrite Et, Em. cbn [orb andb].
           unfold time_only in Eo. rewrite !andb_true_iff, !negb_true_iff, !orb_false_iff in Eo. destruct Eo as ((((((((E1 & E2) & E3) & E4) & E5) & E6) & E7) & _) & E8).
           destruct (k_bl k), (k_uv k), (k_ampl k), (k_phase k), (k_real k), (k_imag k); try discriminate. rewrite !(azel_off k) by exact E3.
           unfold has_channels in E8. destruct (k_chan k) as [mask|]; [rewrite E8|]; reflexivity.
        -- pose proof (bl_stage_spec k m' Lm) as HS. destruct (bl_stage k m') as [m3|].
           ++ destruct HS as [L3 N3]. destruct (own_flags_spec k m3 Hk L3) as [So Ao]. eexists. split; [reflexivity|]. split; [exact So|].
              intros b c Hb Hc. eexists. split; [apply (comp_leaf cf p k); exact Hp|]. intros Hmb. rewrite Et, Ao, N3, Nm, Hmb by assumption. unfold matchb. now rewrite Em.
           ++ eexists. split; [reflexivity|]. split; [apply shaped_const|]. intros b c Hb Hc. eexists. split; [apply (comp_leaf cf p k); exact Hp|]. intros Hmb.
              rewrite at2_const by assumption. specialize (HS b Hb). rewrite Nm, Hmb in HS by assumption. cbn [andb] in HS. unfold matchb. rewrite HS, !andb_false_r. reflexivity.
      * eexists. split; [reflexivity|]. split; [apply shaped_const|]. intros b c Hb Hc. eexists. split; [apply (comp_leaf cf p k); exact Hp|]. intros _.
        rewrite at2_const by assumption. unfold matchb. rewrite Em. cbn [andb]. now rewrite andb_false_r.
    + pose proof (match_time_off k Et) as Em. destruct (time_only k []) eqn:Eo.
      * eexists. split; [reflexivity|]. split; [apply shaped_const|]. intros b c Hb Hc. eexists. split; [apply (comp_leaf cf p k); exact Hp|]. intros _.
        rewrite at2_const by assumption. rewrite Et, Eo. reflexivity.
      * pose proof (bl_stage_spec k m' Lm) as HS. destruct (bl_stage k m') as [m3|].
        -- destruct HS as [L3 N3]. destruct (own_flags_spec k m3 Hk L3) as [So Ao]. eexists. split; [reflexivity|]. split; [exact So|].
           intros b c Hb Hc. eexists. split; [apply (comp_leaf cf p k); exact Hp|]. intros Hmb. rewrite Et, Eo, Ao, N3, Nm, Hmb by assumption. unfold matchb. now rewrite Em.
        -- eexists. split; [reflexivity|]. split; [apply shaped_const|]. intros b c Hb Hc. eexists. split; [apply (comp_leaf cf p k); exact Hp|]. intros Hmb.
           rewrite at2_const by assumption. specialize (HS b Hb). rewrite Nm, Hmb in HS by assumption. cbn [andb] in HS. unfold matchb. rewrite HS, !andb_false_r. reflexivity.
  - (* a set with an expression *)
    assert (Hnn : children <> []).
    { pose proof (names_nonempty _ _ _ Hr) as Hn. intros ->. inversion Hch. subst. contradiction. }
    assert (Hto : time_only k children = false).
    { unfold time_only. destruct children; [contradiction|]. cbn [nonempty negb]. now rewrite andb_false_r. }
    rewrite Hto.
    assert (Hvals : forall m, (m = [] \/ length m = nbl) ->
      exists res, all_some (map (fun ch => process o d ch m) children) = Some res /\
        (forall i, i < length res -> shaped (nth i res [])) /\ length res = length names /\
        forall b c, b < nbl -> c < nchan -> exists vals, Forall2 (fun n x => computes cf (p ++ [n]) b c x) names vals /\
          (matched m b = true -> vals = map (at2 b c) res)).
    { intros m0 Hm0. clear -IH Hch Hm0. induction Hch as [|n ch names children Hb Hrest IHr].
      - exists []. split; [reflexivity|]. split; [intros i Hi; cbn in Hi; lia|]. split; [reflexivity|]. intros b c Hb Hc. exists []. split; [constructor|]. reflexivity.
      - apply Forall_cons_iff in IH as [IH1 IH2]. destruct (IHr IH2) as (res & E & S & L & V).
        destruct (IH1 (p ++ [n]) Hb m0 Hm0) as (f & Ef & Sf & Vf). cbn [map all_some]. rewrite Ef, E.
        exists (f :: res). split; [reflexivity|]. split; [intros [|i] Hi; cbn [nth length] in *; [exact Sf|apply S; lia]|]. split; [cbn [length]; lia|].
        intros b c Hb' Hc. destruct (V b c Hb' Hc) as (vals & F2 & Ev). destruct (Vf b c Hb' Hc) as (v & Cv & Av).
        exists (v :: vals). split; [now constructor|]. intros Hmb. cbn [map]. rewrite (Av Hmb), <- (Ev Hmb). reflexivity. }
    assert (Hcomp : forall b c, b < nbl -> c < nchan -> forall vals, Forall2 (fun n x => computes cf (p ++ [n]) b c x) names vals ->
      exists v, eval_expr negb andb orb (fun i => nth i vals false) rpn = Some v /\ computes cf p b c (matchb k b c && v)).
    { intros b c Hb Hc vals F2. pose proof (eval_succeeds negb andb orb _ _ _ Hr (fun i => nth i vals false)) as Hn.
      destruct (eval_expr negb andb orb (fun i => nth i vals false) rpn) as [v|] eqn:Ev; [|contradiction].
      exists v. split; [reflexivity|]. eapply comp_node; eauto. }
    assert (Hany : forall b c, b < nbl -> c < nchan -> exists vals, Forall2 (fun n x => computes cf (p ++ [n]) b c x) names vals).
    { intros b c Hb Hc. destruct (Hvals [] (or_introl eq_refl)) as (res & _ & _ & _ & V). destruct (V b c Hb Hc) as (vals & F2 & _). eauto. }
    assert (Hfalse : forall (G : nat -> nat -> Prop), (forall b c, b < nbl -> c < nchan -> matched m b = true -> matchb k b c = false) ->
      exists f, Some (const_flags o false) = Some f /\ shaped f /\ forall b c, b < nbl -> c < nchan -> exists v, computes cf p b c v /\ (matched m b = true -> at2 b c f = v)).
    { intros _ HG. eexists. split; [reflexivity|]. split; [apply shaped_const|]. intros b c Hb Hc.
      destruct (Hany b c Hb Hc) as (vals & F2). destruct (Hcomp b c Hb Hc vals F2) as (v & _ & Cv). eexists. split; [exact Cv|].
      intros Hmb. rewrite at2_const by assumption. now rewrite (HG b c Hb Hc Hmb). }
    destruct (on_time k && negb (match_time o k d)) eqn:Et.
    { apply (Hfalse (fun _ _ => True)). intros b c _ _ _. apply andb_true_iff in Et as [_ Et]. apply negb_true_iff in Et. unfold matchb. now rewrite Et. }
    assert (Em : match_time o k d = true).
    { destruct (on_time k) eqn:Eon; [|now apply match_time_off]. cbn [andb] in Et. now apply negb_false_iff in Et. }
    pose proof (bl_stage_spec k m' Lm) as HS. destruct (bl_stage k m') as [m3|].
    2:{ apply (Hfalse (fun _ _ => True)). intros b c Hb Hc Hmb. specialize (HS b Hb). rewrite Nm, Hmb in HS by assumption. cbn [andb] in HS.
        unfold matchb. now rewrite HS, andb_false_r. }
    destruct HS as [L3 N3]. destruct (own_flags_spec k m3 Hk L3) as [So Ao].
    destruct (Hvals m3 (or_intror L3)) as (res & Er & Sr & Lr & Vr).
    cbn zeta. rewrite Er.
    assert (Hlen : sets_below (length res) rpn).
    { rewrite Lr. unfold expr_to_rpn in Hr. destruct (tokens s) as [ts|]; [|discriminate]. exact (parse_below _ _ _ Hr). }
    (* the evaluation succeeds *)
    assert (Heval : exists g, eval_expr flags_not flags_and flags_or (fun i => nth i res []) rpn = Some g /\ shaped g /\
      forall b c, b < nbl -> c < nchan -> eval_expr negb andb orb (fun i => at2 b c (nth i res [])) rpn = Some (at2 b c g)).
    { pose proof (eval_succeeds flags_not flags_and flags_or _ _ _ Hr (fun i => nth i res [])) as Hn.
      destruct (eval_expr flags_not flags_and flags_or (fun i => nth i res []) rpn) as [g|] eqn:Eg; [|contradiction].
      exists g. split; [reflexivity|]. unfold eval_expr in Eg |- *.
      destruct (eval_rpn flags_not flags_and flags_or (fun i => nth i res []) rpn []) as [[|g' [|]]|] eqn:Eg'; try discriminate.
      assert (g' = g) by congruence. subst g'.
      pose proof (eval_shaped nbl nchan res Sr rpn [] [g] Hlen (Forall_nil _) Eg') as Sg. apply Forall_cons_iff in Sg as [Sg _]. split; [exact Sg|].
      intros b c Hb Hc. pose proof (eval_pointwise nbl nchan res b c Hb Hc Sr rpn [] Hlen (Forall_nil _)) as HP. rewrite Eg' in HP.
      destruct HP as [_ HP]. cbn [map] in HP. now rewrite HP. }
    destruct Heval as (g & Eg & Sg & Ag). rewrite Eg.
    destruct children as [|ch0 children]; [contradiction|].
    eexists. split; [reflexivity|]. split; [now apply shaped_zip|].
    intros b c Hb Hc. destruct (Vr b c Hb Hc) as (vals & F2 & Ev). destruct (Hcomp b c Hb Hc vals F2) as (v & Hv & Cv).
    eexists. split; [exact Cv|]. intros Hmb. rewrite (at2_and nbl nchan) by assumption. rewrite Ao, N3, Nm, Hmb by assumption. cbn [andb].
    unfold matchb. rewrite Em. cbn [andb]. destruct (bl_match k b) eqn:Eb; cbn [andb]; [|reflexivity].
    f_equal. assert (Hm3 : matched m3 b = true).
    { unfold matched. destruct m3 as [|x m3]; [reflexivity|]. rewrite N3, Nm, Hmb, Eb by assumption. reflexivity. }
    specialize (Ev Hm3). subst vals. specialize (Ag b c Hb Hc).
    assert (Some (at2 b c g) = Some v) as Egv; [|congruence]. rewrite <- Ag, <- Hv.
    unfold eval_expr. rewrite (eval_ext negb andb orb (fun i => at2 b c (nth i res [])) (fun i => nth i (map (at2 b c) res) false) (length res) rpn Hlen); [reflexivity|].
    intros i Hi. symmetry. now apply map_nth'.
Qed.

(** * The criteria in words *)
Lemma nonempty_iff {A} (l : list A) : nonempty l = true <-> l <> [].
Proof. destruct l; cbn; split; congruence. Qed.

Lemma range_if v l : (if nonempty l then match_range v l else true) = true <-> (l <> [] -> in_range v l).
Proof.
  destruct (nonempty l) eqn:E.
  - apply nonempty_iff in E. rewrite match_range_iff. tauto.
  - split; auto. intros _ H. apply nonempty_iff in H. congruence.
Qed.

Lemma range_or v l : negb (nonempty l) || match_range v l = true <-> (l <> [] -> in_range v l).
Proof. rewrite <- range_if. destruct (nonempty l); reflexivity. Qed.

Lemma match_time_iff k : match_time o k d = true <->
  (k_atimes k <> [] -> in_range (d_time d) (k_atimes k)) /\
  (k_rtimes k <> [] -> in_range (d_time d - o_start o)%Qc (k_rtimes k)) /\
  (k_times k <> [] -> in_range (time_of_day (d_time d)) (k_times k)) /\
  (k_slots k <> [] -> In (d_slot d) (k_slots k)) /\
  (k_lst k <> [] -> in_range (d_lst d) (k_lst k)).
Proof.
  unfold match_time. rewrite !andb_true_iff, !range_if.
  assert (E : (if nonempty (k_slots k) then existsb (Nat.eqb (d_slot d)) (k_slots k) else true) = true <-> (k_slots k <> [] -> In (d_slot d) (k_slots k))).
  { destruct (nonempty (k_slots k)) eqn:E.
    - apply nonempty_iff in E. rewrite existsb_exists. split.
      + intros (x & Hx & Ex) _. apply Nat.eqb_eq in Ex. now subst.
      + intros H. exists (d_slot d). split; auto. apply Nat.eqb_refl.
    - split; auto. intros _ H. apply nonempty_iff in H. congruence. }
  rewrite E. tauto.
Qed.

Lemma outside_iff v lim : outside o v lim = true <-> exists j x, j < o_ncorr o /\ v j = Some x /\ beyond lim x j.
Proof.
  unfold outside, beyond. rewrite existsb_exists. split.
  - intros (j & Hj & H). apply in_seq in Hj. destruct (v j) as [x|] eqn:E; [|discriminate]. rewrite orb_true_iff, !qltb_true in H.
    exists j, x. split; [lia|]. split; [exact E|exact H].
  - intros (j & x & Hj & E & H). exists j. split; [apply in_seq; lia|]. rewrite E, orb_true_iff, !qltb_true. exact H.
Qed.

Lemma value_ok_iff q lim b c : value_ok (d_val d q) lim b c = true <-> value_match o d q lim b c.
Proof.
  unfold value_ok, value_match. destruct lim as [l|].
  - rewrite outside_iff. split; [intros H l' [= <-]; exact H|auto].
  - split; [discriminate|reflexivity].
Qed.

Lemma azel_iff k a : azel_ok k d a = true <->
    (k_azim k <> [] -> in_range (fst (d_azel d a)) (k_azim k)) /\ (k_elev k <> [] -> in_range (snd (d_azel d a)) (k_elev k)).
Proof. unfold azel_ok. now rewrite andb_true_iff, !range_or. Qed.

Lemma matchb_iff k b c : leaves_channel o k -> (matchb k b c = true <-> matches o d k b c).
Proof.
  intros Hk. unfold matchb, bl_match, sample_match.
  rewrite !andb_true_iff, match_time_iff, !value_ok_iff, !azel_iff.
  assert (E1 : (match k_bl k with Some mat => bl_ok o mat b | None => true end) = true <-> (forall mat, k_bl k = Some mat -> mat (o_ant1 o b) (o_ant2 o b) = true)).
  { destruct (k_bl k) as [mat|]; [|split; [discriminate|reflexivity]]. unfold bl_ok. split; [intros H m [= <-]; exact H|auto]. }
  assert (E2 : (match k_uv k with Some lim => uv_ok d lim b | None => true end) = true <-> (forall lo hi, k_uv k = Some (lo, hi) -> (d_uv2 d b < lo)%Qc \/ (hi < d_uv2 d b)%Qc)).
  { destruct (k_uv k) as [[lo hi]|]; [|split; [discriminate|reflexivity]]. unfold uv_ok. cbn [fst snd].
    rewrite negb_true_iff, andb_false_iff, !qleb_false. split; [intros H l h [= <- <-]; exact H|auto]. }
  assert (E3 : (match k_chan k with Some mask => if existsb (fun x => x) mask then nth c mask false else true | None => true end) = true <-> (forall mask, k_chan k = Some mask -> nth c mask false = true)).
  { destruct (k_chan k) as [mask|] eqn:Ek; [|split; [discriminate|reflexivity]]. destruct (Hk mask Ek) as [_ Hin].
    assert (existsb (fun x => x) mask = true) as -> by (apply existsb_exists; exists true; auto). split; [intros H m [= <-]; exact H|auto]. }
  rewrite E1, E2, E3. clear E1 E2 E3. split.
  - intros (((T1 & T2 & T3 & T4 & T5) & (B1 & B2) & (A1 & A2)) & ((((C & V1) & V2) & V3) & V4)). constructor; auto.
    intros a [-> | ->]; assumption.
  - intros [T1 T2 T3 T4 T5 B1 B2 A C V1 V2 V3 V4]. pose proof (A _ (or_introl eq_refl)). pose proof (A _ (or_intror eq_refl)). tauto.
Qed.

Lemma crit_iff k : leaves_channel o k -> (on_time k || negb (time_only k []) = true <-> some_criterion k).
Proof.
  intros Hk. unfold some_criterion.
  assert (Hc : has_channels k = true <-> k_chan k <> None).
  { unfold has_channels. destruct (k_chan k) as [mask|] eqn:Ek; [|split; congruence]. destruct (Hk mask Ek) as [_ Hin].
    split; [discriminate|]. intros _. apply existsb_exists. exists true. auto. }
  assert (G : forall A (x : option A), given x = true <-> x <> None) by (intros A []; cbn; split; congruence).
  unfold time_only. cbn [nonempty negb]. rewrite andb_true_r, <- negb_orb, negb_involutive.
  unfold on_time, on_azel. rewrite !orb_true_iff, !nonempty_iff, !G, Hc. tauto.
Qed.

Theorem computes_selects cf : (forall p, leaves_channel o (fst (cf p))) ->
  forall p b c v, selects o d cf p b c v -> forall v', computes cf p b c v' -> v' = v.
Proof.
  intros Hcf p b c v H. induction H as [p k b c v Hp Hv|p k s ts e env own b c v Hp Hs Hx Hd Hn IH Ho ->]; intros v' Hc.
  - pose proof (Hcf p) as Hk. rewrite Hp in Hk. cbn [fst] in Hk.
    inversion Hc as [p0 k0 b0 c0 Hp0 E1 E2 E3 E4|p0 k0 s0 rpn names vals b0 c0 v0 Hp0 Hs0 Hr Hf Ev E1 E2 E3 E4]; subst; [|congruence].
    assert (k0 = k) by congruence. subst k0. apply eq_true_iff_eq. rewrite Hv, andb_true_iff, crit_iff, matchb_iff by exact Hk. reflexivity.
  - pose proof (Hcf p) as Hk. rewrite Hp in Hk. cbn [fst] in Hk.
    inversion Hc as [p0 k0 b0 c0 Hp0 E1 E2 E3 E4|p0 k0 s0 rpn names vals b0 c0 v0 Hp0 Hs0 Hr Hf Ev E1 E2 E3 E4]; subst; [congruence|].
    assert (k0 = k) by congruence. subst k0. assert (s0 = s) by congruence. subst s0.
    f_equal.
    + apply eq_true_iff_eq. now rewrite Ho, matchb_iff by exact Hk.
    + unfold expr_to_rpn in Hr. rewrite (expression_tokens ts s Hx) in Hr.
      pose proof (parse_names _ _ _ Hr) as N. subst names.
      destruct (parse_complete env ts e Hd) as (rpn' & names' & E' & Hv').
      assert (rpn' = rpn /\ names' = names_of ts) as [-> ->] by (rewrite Hr in E'; split; congruence).
      assert (Hval : forall i n, nth_error (names_of ts) i = Some n -> nth i vals false = env n).
      { clear -Hf IH. intros i n Hi.
        assert (G : forall names vals, Forall2 (fun n x => computes cf (p ++ [n]) b c x) names vals -> forall i n, nth_error names i = Some n -> computes cf (p ++ [n]) b c (nth i vals false)).
        { induction 1 as [|n' x names' vals' Hx _ IHf]; intros i' n'' Hi'; [destruct i'; discriminate|]. destruct i'; cbn [nth_error nth] in *; [congruence|auto]. }
        apply IH; [eapply nth_error_In; eauto|]. now apply (G (names_of ts)). }
      specialize (Hv' (fun i => nth i vals false) Hval). congruence.
Qed.

Theorem selects_exists cf : (forall p, leaves_channel o (fst (cf p))) ->
  (forall p, snd (cf p) <> [] -> exists ts e, expression ts (snd (cf p)) /\ disj ts e) ->
  forall P p, builds cf p P -> forall b c, exists v, selects o d cf p b c v.
Proof.
  intros Hcf Hw. induction P as [k rpn children IH] using pset_ind'. intros p HB b c.
  inversion HB as [p0 k0 Hp E0|p0 k0 s rpn0 names children0 Hp Hs Hr Hch E0]; subst; pose proof (Hcf p) as Hk; rewrite Hp in Hk; cbn [fst] in Hk.
  - exists ((on_time k || negb (time_only k [])) && matchb k b c). apply (sel_leaf o d cf p k); [exact Hp|].
    now rewrite andb_true_iff, crit_iff, matchb_iff by exact Hk.
  - specialize (Hw p). rewrite Hp in Hw. cbn [snd] in Hw. destruct (Hw Hs) as (ts & e & Hx & Hd).
    assert (N : names = names_of ts).
    { unfold expr_to_rpn in Hr. rewrite (expression_tokens ts s Hx) in Hr. exact (parse_names _ _ _ Hr). }
    assert (He : exists env, forall n, In n names -> selects o d cf (p ++ [n]) b c (env n)).
    { clear -Hch IH. induction Hch as [|n ch names children Hb _ IHr].
      - exists (fun _ => false). intros n [].
      - apply Forall_cons_iff in IH as [IH1 IH2]. destruct (IHr IH2) as (env & He). destruct (IH1 _ Hb b c) as (v & Hv).
        exists (fun x => if list_eq_dec ascii_dec x n then v else env x). intros x Hx.
        destruct (list_eq_dec ascii_dec x n) as [->|Hne]; [exact Hv|]. destruct Hx as [->|Hx]; [contradiction|]. now apply He. }
    destruct He as (env & He). exists (matchb k b c && beval env e).
    apply (sel_node o d cf p k s ts e env (matchb k b c)); auto; [now rewrite <- N|]. now apply matchb_iff.
Qed.

Theorem set_tree_selects cf P : (forall p, leaves_channel o (fst (cf p))) ->
  (forall p, snd (cf p) <> [] -> exists ts e, expression ts (snd (cf p)) /\ disj ts e) ->
  builds cf [] P ->
  exists f, process o d P [] = Some f /\ List.length f = o_nbl o /\
    (forall b, b < o_nbl o -> List.length (nth b f []) = o_nchan o) /\
    forall b c, b < o_nbl o -> c < o_nchan o -> selects o d cf [] b c (nth c (nth b f []) false).
Proof.
  intros Hcf Hw HB. destruct (process_computes cf Hcf P [] HB [] (or_introl eq_refl)) as (f & E & [Hs1 Hs2] & H).
  exists f. split; [exact E|]. split; [exact Hs1|]. split; [exact Hs2|]. intros b c Hb Hc.
  destruct (H b c Hb Hc) as (v & Hv & Hat). destruct (selects_exists cf Hcf Hw P [] HB b c) as (v' & Hv').
  specialize (Hat eq_refl). unfold at2 in Hat. rewrite Hat.
  now rewrite (computes_selects cf Hcf _ _ _ _ Hv' _ Hv).
Qed.

Theorem selects_unique cf P : (forall p, leaves_channel o (fst (cf p))) -> builds cf [] P ->
  forall b c v v', b < o_nbl o -> c < o_nchan o -> selects o d cf [] b c v -> selects o d cf [] b c v' -> v = v'.
Proof.
  intros Hcf HB b c v v' Hb Hc H1 H2. destruct (process_computes cf Hcf P [] HB [] (or_introl eq_refl)) as (f & E & _ & H).
  destruct (H b c Hb Hc) as (w & Hw & _). rewrite <- (computes_selects cf Hcf _ _ _ _ H1 _ Hw). exact (computes_selects cf Hcf _ _ _ _ H2 _ Hw).
Qed.

Theorem unselected_channel cf P mask b c :
  (forall p, leaves_channel o (fst (cf p))) -> builds cf [] P -> k_chan (fst (cf [])) = Some mask ->
  b < o_nbl o -> c < o_nchan o -> nth c mask false = false ->
  exists f, process o d P [] = Some f /\ nth c (nth b f []) false = false.
Proof.
  intros Hcf HB Hk Hb Hc Hm. destruct (process_computes cf Hcf P [] HB [] (or_introl eq_refl)) as (f & E & _ & H).
  exists f. split; [exact E|]. destruct (H b c Hb Hc) as (v & Hv & Hat). specialize (Hat eq_refl). unfold at2 in Hat. rewrite Hat.
  assert (N : forall k s, cf [] = (k, s) -> matchb k b c = false).
  { intros k s Ek. apply not_true_is_false. intros Hf. apply matchb_iff in Hf; [|specialize (Hcf []); now rewrite Ek in Hcf].
    pose proof (m_chan _ _ _ _ _ Hf mask) as X. rewrite Ek in Hk. cbn [fst] in Hk. specialize (X Hk). congruence. }
  inversion Hv; subst; match goal with H : cf [] = _ |- _ => rewrite (N _ _ H) end; [apply andb_false_r|reflexivity].
Qed.
End Sets.
