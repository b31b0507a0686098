(** Proofs about the set expressions of steps/PreFlagger.cc. *)
From Coq Require Import List Bool Arith Ascii String ZArith Lia.
From Verif Require Import FlagExprModel FlagExprSpec.
Import ListNotations.
Open Scope nat_scope.

Scheme prim_ind' := Induction for prim Sort Prop
with unary_ind' := Induction for unary Sort Prop
with conj_ind' := Induction for conj Sort Prop
with disj_ind' := Induction for disj Sort Prop.
Combined Scheme gram_ind from prim_ind', unary_ind', conj_ind', disj_ind'.

Lemma parse_loop_app s a b : parse_loop s (a ++ b) = match parse_loop s a with None => None | Some s' => parse_loop s' b end.
Proof. revert s. induction a as [|t a IH]; intros s; cbn [app parse_loop]; auto. destruct (parse_step s t); auto. Qed.

Notation beval_rpn sets := (eval_rpn negb andb orb sets).

Lemma eval_app sets a b st : beval_rpn sets (a ++ b) st = match beval_rpn sets a st with None => None | Some st' => beval_rpn sets b st' end.
Proof.
  revert st. induction a as [|x a IH]; intros st; cbn [app eval_rpn]; auto.
  destruct x as [i|[| | |]]; auto; destruct st as [|u [|v st]]; auto.
Qed.

Lemma rev_cons_app {A} (x : A) xs vals : rev (x :: xs) ++ vals = rev xs ++ x :: vals.
Proof. cbn [rev]. now rewrite <- app_assoc. Qed.

Lemma eval_ands sets : forall k xs vals, List.length xs = S k ->
  beval_rpn sets (repeat (ROp OpAnd) k) (rev xs ++ vals) = Some (forallb id xs :: vals).
Proof.
  induction k; intros xs vals H.
  - destruct xs as [|x [|]]; try discriminate. cbn. now rewrite andb_true_r.
  - destruct xs as [|x xs] using rev_ind; [discriminate|]. clear IHxs.
    rewrite app_length in H. cbn [List.length] in H.
    destruct xs as [|y xs] using rev_ind; [cbn in H; lia|]. clear IHxs.
    rewrite !rev_app_distr. cbn [rev app repeat eval_rpn].
    replace ((y && x) :: rev xs ++ vals) with (rev (xs ++ [y && x]) ++ vals) by (rewrite rev_app_distr; reflexivity).
    rewrite IHk by (rewrite !app_length in *; cbn [List.length] in *; lia).
    rewrite !forallb_app. cbn [forallb id]. rewrite !andb_true_r. now rewrite <- andb_assoc.
Qed.

Lemma eval_ors sets : forall k xs vals, List.length xs = S k ->
  beval_rpn sets (repeat (ROp OpOr) k) (rev xs ++ vals) = Some (existsb id xs :: vals).
Proof.
  induction k; intros xs vals H.
  - destruct xs as [|x [|]]; try discriminate. cbn. now rewrite orb_false_r.
  - destruct xs as [|x xs] using rev_ind; [discriminate|]. clear IHxs.
    rewrite app_length in H. cbn [List.length] in H.
    destruct xs as [|y xs] using rev_ind; [cbn in H; lia|]. clear IHxs.
    rewrite !rev_app_distr. cbn [rev app repeat eval_rpn].
    replace ((y || x) :: rev xs ++ vals) with (rev (xs ++ [y || x]) ++ vals) by (rewrite rev_app_distr; reflexivity).
    rewrite IHk by (rewrite !app_length in *; cbn [List.length] in *; lia).
    rewrite !existsb_app. cbn [existsb id]. rewrite !orb_false_r. now rewrite <- orb_assoc.
Qed.

Lemma pop_higher_rep o t k S r : oper_ltb t o = true -> pop_higher o (repeat t k ++ S) r = pop_higher o S (r ++ repeat (ROp t) k).
Proof.
  intros H. revert r. induction k; intros r; cbn [repeat app pop_higher]; [now rewrite app_nil_r|].
  rewrite H, IHk, <- app_assoc. reflexivity.
Qed.

Lemma pop_higher_stop o t S r : oper_ltb t o = false -> pop_higher o (t :: S) r = (r, t :: S).
Proof. intros H. cbn. now rewrite H. Qed.

Lemma pop_higher_stop_rep o t k S r : oper_ltb t o = false -> (forall r, pop_higher o S r = (r, S)) -> pop_higher o (repeat t k ++ S) r = (r, repeat t k ++ S).
Proof. intros H HS. destruct k; [apply HS|]. now apply pop_higher_stop. Qed.

Lemma pop_paren_rep t k S r : t <> OpParen -> pop_paren (repeat t k ++ S) r = pop_paren S (r ++ repeat (ROp t) k).
Proof.
  intros H. revert r. induction k; intros r; cbn [repeat app pop_paren]; [now rewrite app_nil_r|].
  destruct t; try congruence; rewrite IHk, <- app_assoc; reflexivity.
Qed.

Lemma pop_all_rep t k S r : t <> OpParen -> pop_all (repeat t k ++ S) r = pop_all S (r ++ repeat (ROp t) k).
Proof.
  intros H. revert r. induction k; intros r; cbn [repeat app pop_all]; [now rewrite app_nil_r|].
  destruct t; try congruence; rewrite IHk, <- app_assoc; reflexivity.
Qed.

Section Env.
Variable env : list ascii -> bool.

Definition agree (sets : nat -> bool) (n names : list (list ascii)) : Prop :=
  forall i s, nth_error names i = Some s -> sets (List.length n + i) = env s.

Lemma agree_app sets n a b : agree sets n (a ++ b) <-> agree sets n a /\ agree sets (n ++ a) b.
Proof.
  unfold agree. split.
  - intros H. split; intros i s E.
    + apply H. rewrite nth_error_app1; auto. apply nth_error_Some. congruence.
    + rewrite app_length, <- Nat.add_assoc. apply H. rewrite nth_error_app2 by lia. rewrite Nat.add_comm, Nat.add_sub. exact E.
  - intros [Ha Hb] i s E. destruct (Nat.lt_ge_cases i (List.length a)) as [L|L].
    + rewrite nth_error_app1 in E by exact L. auto.
    + rewrite nth_error_app2 in E by exact L. apply Hb in E. rewrite app_length in E.
      replace (List.length n + i) with (List.length n + List.length a + (i - List.length a)) by lia. exact E.
Qed.

Definition prim_ok (ts : list token) (e : bexp) : Prop := forall r S n, exists c names,
  parse_loop (MkPstate r S n false) ts = Some (MkPstate (r ++ c) S (n ++ names) true) /\
  forall sets, agree sets n names -> forall vals, beval_rpn sets c vals = Some (beval env e :: vals).
Definition unary_ok (ts : list token) (e : bexp) : Prop := forall r S n, exists c j names,
  parse_loop (MkPstate r S n false) ts = Some (MkPstate (r ++ c) (repeat OpNot j ++ S) (n ++ names) true) /\
  forall sets, agree sets n names -> forall vals, beval_rpn sets (c ++ repeat (ROp OpNot) j) vals = Some (beval env e :: vals).
Definition conj_ok (ts : list token) (e : bexp) : Prop := forall r S n, (forall r, pop_higher OpAnd S r = (r, S)) ->
  exists c j k names,
  parse_loop (MkPstate r S n false) ts = Some (MkPstate (r ++ c) (repeat OpNot j ++ repeat OpAnd k ++ S) (n ++ names) true) /\
  forall sets, agree sets n names -> exists xs, List.length xs = Datatypes.S k /\ forallb id xs = beval env e /\
    forall vals, beval_rpn sets (c ++ repeat (ROp OpNot) j) vals = Some (rev xs ++ vals).
Definition disj_ok (ts : list token) (e : bexp) : Prop := forall r S n,
  (forall r, pop_higher OpOr S r = (r, S)) -> (forall r, pop_higher OpAnd S r = (r, S)) ->
  exists c j k l names,
  parse_loop (MkPstate r S n false) ts =
    Some (MkPstate (r ++ c) (repeat OpNot j ++ repeat OpAnd k ++ repeat OpOr l ++ S) (n ++ names) true) /\
  forall sets, agree sets n names -> exists xs, List.length xs = Datatypes.S l /\ existsb id xs = beval env e /\
    forall vals, beval_rpn sets (c ++ repeat (ROp OpNot) j ++ repeat (ROp OpAnd) k) vals = Some (rev xs ++ vals).

Lemma gram_ok :
  (forall ts e, prim ts e -> prim_ok ts e) /\ (forall ts e, unary ts e -> unary_ok ts e) /\
  (forall ts e, conj ts e -> conj_ok ts e) /\ (forall ts e, disj ts e -> disj_ok ts e).
Proof.
  apply gram_ind.
  - (* name *)
    intros s r S n. exists [RSet (List.length n)], [s]. split; [reflexivity|].
    intros sets H vals. cbn [eval_rpn beval]. specialize (H 0 s eq_refl). rewrite Nat.add_0_r in H. now rewrite H.
  - (* parentheses *)
    intros ts e _ IH r S n.
    destruct (IH r (OpParen :: S) n) as (c & j & k & l & names & E & H); [reflexivity|reflexivity|].
    exists (c ++ repeat (ROp OpNot) j ++ repeat (ROp OpAnd) k ++ repeat (ROp OpOr) l), names. split.
    + cbn [parse_loop parse_step q_had q_rpn q_stack q_names]. rewrite parse_loop_app, E.
      cbn [parse_loop parse_step q_had q_rpn q_stack q_names].
      rewrite !pop_paren_rep by discriminate. cbn [pop_paren]. now rewrite !app_assoc.
    + intros sets Ha vals. destruct (H sets Ha) as (xs & Hl & He & Hx).
      replace (c ++ repeat (ROp OpNot) j ++ repeat (ROp OpAnd) k ++ repeat (ROp OpOr) l)
        with ((c ++ repeat (ROp OpNot) j ++ repeat (ROp OpAnd) k) ++ repeat (ROp OpOr) l) by (now rewrite <- !app_assoc).
      rewrite eval_app, Hx, eval_ors by exact Hl. now rewrite He.
  - (* unary_prim *)
    intros ts e _ IH r S n. destruct (IH r S n) as (c & names & E & H).
    exists c, 0, names. split; [exact E|]. cbn [repeat]. now rewrite app_nil_r.
  - (* not *)
    intros ts e _ IH r S n. destruct (IH r (OpNot :: S) n) as (c & j & names & E & H).
    exists c, (Datatypes.S j), names. split.
    + cbn [parse_loop parse_step q_had]. unfold push_oper. cbn [q_stack q_rpn q_names].
      assert (Hp : pop_higher OpNot S r = (r, S)) by (destruct S as [|[| | |]]; reflexivity).
      rewrite Hp. cbn iota beta. rewrite E. do 2 f_equal.
      replace (Datatypes.S j) with (j + 1) by lia. rewrite repeat_app, <- app_assoc. reflexivity.
    + intros sets Ha vals. replace (Datatypes.S j) with (j + 1) by lia. rewrite repeat_app, app_assoc, eval_app, H by exact Ha.
      reflexivity.
  - (* conj_unary *)
    intros ts e _ IH r S n _. destruct (IH r S n) as (c & j & names & E & H).
    exists c, j, 0, names. split; [exact E|]. intros sets Ha. exists [beval env e]. split; [reflexivity|]. split.
    + cbn. apply andb_true_r.
    + intros vals. now rewrite H.
  - (* and *)
    intros ts e us f _ IHa _ IHb r S n HS.
    destruct (IHa r S n HS) as (c & j & k & names & E & H).
    destruct (IHb (r ++ c ++ repeat (ROp OpNot) j) (OpAnd :: repeat OpAnd k ++ S) (n ++ names)) as (c' & j' & names' & E' & H').
    exists (c ++ repeat (ROp OpNot) j ++ c'), j', (Datatypes.S k), (names ++ names'). split.
    + rewrite parse_loop_app, E. cbn [parse_loop parse_step q_had]. unfold push_oper. cbn [q_stack q_rpn q_names].
      rewrite pop_higher_rep by reflexivity. rewrite pop_higher_stop_rep by (auto; reflexivity).
      rewrite <- app_assoc, E'. do 2 f_equal; now rewrite <- !app_assoc.
    + intros sets Ha. apply agree_app in Ha as [Ha Hb]. destruct (H sets Ha) as (xs & Hl & He & Hx).
      exists (xs ++ [beval env f]). split; [rewrite app_length; cbn [List.length]; lia|]. split.
      * rewrite forallb_app, He. cbn. now rewrite andb_true_r.
      * intros vals. rewrite rev_app_distr. cbn [rev app].
        replace ((c ++ repeat (ROp OpNot) j ++ c') ++ repeat (ROp OpNot) j')
          with ((c ++ repeat (ROp OpNot) j) ++ (c' ++ repeat (ROp OpNot) j')) by (now rewrite <- !app_assoc).
        rewrite eval_app, Hx, H' by exact Hb. reflexivity.
  - (* disj_conj *)
    intros ts e _ IH r S n _ HS. destruct (IH r S n HS) as (c & j & k & names & E & H).
    exists c, j, k, 0, names. split; [exact E|]. intros sets Ha. destruct (H sets Ha) as (xs & Hl & He & Hx).
    exists [beval env e]. split; [reflexivity|]. split; [cbn; apply orb_false_r|].
    intros vals. rewrite app_assoc, eval_app, Hx, eval_ands by exact Hl. now rewrite He.
  - (* or *)
    intros ts e us f _ IHa _ IHb r S n HSo HSa.
    destruct (IHa r S n HSo HSa) as (c & j & k & l & names & E & H).
    destruct (IHb (r ++ c ++ repeat (ROp OpNot) j ++ repeat (ROp OpAnd) k) (OpOr :: repeat OpOr l ++ S) (n ++ names)) as (c' & j' & k' & names' & E' & H'); [reflexivity|].
    exists (c ++ repeat (ROp OpNot) j ++ repeat (ROp OpAnd) k ++ c'), j', k', (Datatypes.S l), (names ++ names'). split.
    + rewrite parse_loop_app, E. cbn [parse_loop parse_step q_had]. unfold push_oper. cbn [q_stack q_rpn q_names].
      rewrite !pop_higher_rep by reflexivity. rewrite pop_higher_stop_rep by (auto; reflexivity).
      rewrite <- !app_assoc, E'. do 2 f_equal; now rewrite <- !app_assoc.
    + intros sets Ha. apply agree_app in Ha as [Ha Hb]. destruct (H sets Ha) as (xs & Hl & He & Hx).
      destruct (H' sets Hb) as (ys & Hl' & He' & Hy).
      exists (xs ++ [beval env f]). split; [rewrite app_length; cbn [List.length]; lia|]. split.
      * rewrite existsb_app, He. cbn. now rewrite orb_false_r.
      * intros vals. rewrite rev_app_distr. cbn [rev app].
        replace ((c ++ repeat (ROp OpNot) j ++ repeat (ROp OpAnd) k ++ c') ++ repeat (ROp OpNot) j' ++ repeat (ROp OpAnd) k')
          with ((c ++ repeat (ROp OpNot) j ++ repeat (ROp OpAnd) k) ++ ((c' ++ repeat (ROp OpNot) j') ++ repeat (ROp OpAnd) k')) by (now rewrite <- !app_assoc).
        rewrite eval_app, Hx, eval_app, Hy, eval_ands by exact Hl'. now rewrite He'.
Qed.

Theorem parse_complete ts e : disj ts e -> exists rpn names, parse ts = Some (rpn, names) /\
  forall sets, (forall i s, nth_error names i = Some s -> sets i = env s) -> eval_expr negb andb orb sets rpn = Some (beval env e).
Proof.
  intros H. destruct gram_ok as (_ & _ & _ & G). destruct (G ts e H [] [] []) as (c & j & k & l & names & E & Hx); [reflexivity|reflexivity|].
  unfold parse, pinit. rewrite E. cbn [q_had q_stack q_rpn q_names].
  rewrite !pop_all_rep by discriminate. cbn [pop_all].
  eexists _, names. split; [reflexivity|]. intros sets Hs.
  destruct (Hx sets) as (xs & Hl & He & Hv); [exact Hs|].
  unfold eval_expr. cbn [app]. rewrite <- (app_assoc c).
  rewrite eval_app, Hv, eval_ors by exact Hl. now rewrite He.
Qed.
End Env.

(** * Accepted sequences are well formed *)

(** The part of the expression before the current operand, within one pair of
    parentheses: an optional disjunction, an optional conjunction and negations. *)
Inductive frame : list token -> Prop :=
| frame_intro d c n : (d = [] \/ exists ts e, disj ts e /\ d = ts ++ [TOr]) ->
    (c = [] \/ exists ts e, conj ts e /\ c = ts ++ [TAnd]) -> frame (d ++ c ++ repeat TNot n).

(** The tokens read so far, with [n] open parentheses. *)
Inductive opened : nat -> list token -> Prop :=
| op_one f : frame f -> opened 0 f
| op_more n ts f : opened n ts -> frame f -> opened (S n) (ts ++ TOpen :: f).

Lemma frame_nil : frame [].
Proof. apply (frame_intro [] [] 0); auto. Qed.

Lemma frame_not f : frame f -> frame (f ++ [TNot]).
Proof.
  intros [d c n Hd Hc]. rewrite <- !app_assoc. replace (repeat TNot n ++ [TNot]) with (repeat TNot (S n)).
  - now constructor.
  - replace (S n) with (n + 1) by lia. now rewrite repeat_app.
Qed.

Lemma unary_nots n ts e : prim ts e -> exists e', unary (repeat TNot n ++ ts) e'.
Proof.
  intros H. induction n as [|n [e' IH]]; cbn [repeat app].
  - exists e. now constructor.
  - exists (BNot e'). now constructor.
Qed.

Lemma frame_and f ts e : frame f -> prim ts e -> frame (f ++ ts ++ [TAnd]).
Proof.
  intros [d c n Hd Hc] Hp. destruct (unary_nots n ts e Hp) as (e' & Hu).
  destruct Hc as [->|(cs & ce & Hc & ->)].
  - cbn [app]. replace ((d ++ repeat TNot n) ++ ts ++ [TAnd]) with (d ++ ((repeat TNot n ++ ts) ++ [TAnd]) ++ repeat TNot 0)
      by (cbn [repeat]; rewrite app_nil_r, <- !app_assoc; reflexivity).
    constructor; auto. right. eexists _, _. split; [|reflexivity]. constructor. exact Hu.
  - replace ((d ++ (cs ++ [TAnd]) ++ repeat TNot n) ++ ts ++ [TAnd]) with (d ++ ((cs ++ TAnd :: (repeat TNot n ++ ts)) ++ [TAnd]) ++ repeat TNot 0)
      by (cbn [repeat]; rewrite app_nil_r, <- !app_assoc; cbn [app]; now rewrite <- !app_assoc).
    constructor; auto. right. eexists _, _. split; [|reflexivity]. eapply conj_and; eauto.
Qed.

Lemma frame_disj f ts e : frame f -> prim ts e -> exists e', disj (f ++ ts) e'.
Proof.
  intros [d c n Hd Hc] Hp. destruct (unary_nots n ts e Hp) as (e' & Hu).
  assert (Hcj : exists e'', conj (c ++ repeat TNot n ++ ts) e'').
  { destruct Hc as [->|(cs & ce & Hc & ->)].
    - exists e'. now constructor.
    - eexists. rewrite <- app_assoc. cbn [app]. eapply conj_and; eauto. }
  destruct Hcj as (e'' & Hcj). rewrite <- !app_assoc.
  destruct Hd as [->|(ds & de & Hd & ->)].
  - exists e''. now constructor.
  - eexists. rewrite <- app_assoc. cbn [app]. eapply disj_or; eauto.
Qed.

Lemma frame_or f ts e : frame f -> prim ts e -> frame (f ++ ts ++ [TOr]).
Proof.
  intros Hf Hp. destruct (frame_disj f ts e Hf Hp) as (e' & Hd). rewrite app_assoc.
  replace ((f ++ ts) ++ [TOr]) with (((f ++ ts) ++ [TOr]) ++ [] ++ repeat TNot 0) by (cbn [repeat app]; now rewrite app_nil_r).
  constructor; auto. right. eauto.
Qed.

Lemma opened_ext n ts x : (forall f, frame f -> frame (f ++ x)) -> opened n ts -> opened n (ts ++ x).
Proof.
  intros Hx H. inversion H; subst.
  - constructor. auto.
  - rewrite <- app_assoc. cbn [app]. constructor; auto.
Qed.

Definition parens (l : list oper) : nat := List.length (filter (fun o => match o with OpParen => true | _ => false end) l).

Lemma pop_higher_parens o : forall S r, o <> OpParen -> parens (snd (pop_higher o S r)) = parens S.
Proof.
  induction S as [|t S IH]; intros r Ho; cbn [pop_higher]; auto.
  destruct (oper_ltb t o) eqn:E; auto. rewrite IH by exact Ho.
  destruct t; auto. destruct o; discriminate.
Qed.

Lemma pop_paren_parens : forall S r r' S', pop_paren S r = Some (r', S') -> parens S = Datatypes.S (parens S').
Proof.
  induction S as [|t S IH]; intros r r' S' H; cbn [pop_paren] in H; [discriminate|].
  destruct t; try (apply IH in H; exact H). injection H as <- <-. reflexivity.
Qed.

Lemma pop_all_parens : forall S r r', pop_all S r = Some r' -> parens S = 0.
Proof.
  induction S as [|t S IH]; intros r r' H; cbn [pop_all] in H; auto.
  destruct t; try discriminate; apply IH in H; exact H.
Qed.

(** The invariant of the loop: [done] are the tokens read. *)
Definition pinv (s : pstate) (done : list token) : Prop :=
  if q_had s then exists pre ts e, opened (parens (q_stack s)) pre /\ prim ts e /\ done = pre ++ ts
  else opened (parens (q_stack s)) done.

Lemma pinv_step s t s' done : pinv s done -> parse_step s t = Some s' -> pinv s' (done ++ [t]).
Proof.
  intros HI H. destruct s as [r S n had], t; cbn [parse_step q_had q_stack q_rpn q_names] in H; unfold pinv in HI; cbn [q_had q_stack] in HI.
  - (* name *)
    destruct had; [discriminate|]. injection H as <-. unfold pinv; cbn [q_had q_stack]. exists done, [TName s], (BName s).
    split; [exact HI|]. split; [constructor|reflexivity].
  - (* or *)
    destruct had; [|discriminate]. injection H as <-. destruct HI as (pre & ts & e & Ho & Hp & ->).
    unfold push_oper. cbn [q_stack q_rpn q_names]. pose proof (pop_higher_parens OpOr S r ltac:(discriminate)) as Hpp.
    destruct (pop_higher OpOr S r) as [r' S']. cbn [snd] in Hpp. unfold pinv; cbn [q_had q_stack].
    change (parens (OpOr :: S')) with (parens S'). rewrite Hpp, <- app_assoc.
    apply opened_ext; [|exact Ho]. intros f Hf. eapply frame_or; eauto.
  - (* and *)
    destruct had; [|discriminate]. injection H as <-. destruct HI as (pre & ts & e & Ho & Hp & ->).
    unfold push_oper. cbn [q_stack q_rpn q_names]. pose proof (pop_higher_parens OpAnd S r ltac:(discriminate)) as Hpp.
    destruct (pop_higher OpAnd S r) as [r' S']. cbn [snd] in Hpp. unfold pinv; cbn [q_had q_stack].
    change (parens (OpAnd :: S')) with (parens S'). rewrite Hpp, <- app_assoc.
    apply opened_ext; [|exact Ho]. intros f Hf. eapply frame_and; eauto.
  - (* not *)
    destruct had; [discriminate|]. injection H as <-.
    unfold push_oper. cbn [q_stack q_rpn q_names]. pose proof (pop_higher_parens OpNot S r ltac:(discriminate)) as Hpp.
    destruct (pop_higher OpNot S r) as [r' S']. cbn [snd] in Hpp. unfold pinv; cbn [q_had q_stack].
    change (parens (OpNot :: S')) with (parens S'). rewrite Hpp.
    apply opened_ext; [|exact HI]. apply frame_not.
  - (* open *)
    destruct had; [discriminate|]. injection H as <-. unfold pinv; cbn [q_had q_stack].
    change (parens (OpParen :: S)) with (Datatypes.S (parens S)). constructor; [exact HI|apply frame_nil].
  - (* close *)
    destruct had; [|discriminate]. destruct HI as (pre & ts & e & Ho & Hp & ->).
    destruct (pop_paren S r) as [[r' S']|] eqn:E; [|discriminate]. injection H as <-.
    apply pop_paren_parens in E. rewrite E in Ho. inversion Ho as [|k pre' f Ho' Hf]; subst.
    unfold pinv; cbn [q_had q_stack]. destruct (frame_disj f ts e Hf Hp) as (e' & Hd).
    exists pre', (TOpen :: (f ++ ts) ++ [TClose]), e'. split; [exact Ho'|]. split; [now constructor|].
    rewrite <- !app_assoc. reflexivity.
Qed.

Theorem parse_sound ts rpn names : parse ts = Some (rpn, names) -> exists e, disj ts e.
Proof.
  unfold parse. intros H.
  assert (G : forall ts s s' done, pinv s done -> parse_loop s ts = Some s' -> pinv s' (done ++ ts)).
  { clear. induction ts as [|t ts IH]; intros s s' done HI H; cbn [parse_loop] in H.
    - injection H as <-. now rewrite app_nil_r.
    - destruct (parse_step s t) as [s1|] eqn:E; [|discriminate].
      pose proof (pinv_step _ _ _ _ HI E) as HI1. specialize (IH _ _ _ HI1 H). now rewrite <- app_assoc in IH. }
  destruct (parse_loop pinit ts) as [s|] eqn:E; [|discriminate].
  specialize (G ts pinit s [] ltac:(apply (op_one []), frame_nil) E). cbn [app] in G.
  destruct (q_had s) eqn:Eh; [|discriminate]. unfold pinv in G. rewrite Eh in G.
  destruct (pop_all (q_stack s) (q_rpn s)) as [r|] eqn:Ep; [|discriminate].
  apply pop_all_parens in Ep. rewrite Ep in G. destruct G as (pre & us & e & Ho & Hp & ->).
  inversion Ho as [f Hf|]; subst. eapply frame_disj; eauto.
Qed.

(** * Tokens *)

Lemma upper_blank c : is_blank c = true -> upper c = c.
Proof. unfold is_blank. rewrite orb_true_iff, !Ascii.eqb_eq. intros [-> | ->]; reflexivity. Qed.

Definition lexes (s : list ascii) (ts : list token) : Prop := exists k, forall fuel, k <= fuel -> lex fuel s = Some ts.

Lemma lex_step_shorter s t r : lex_step s = Some (t, r) -> List.length r < List.length s.
Proof.
  destruct s as [|c s]; [discriminate|]. unfold lex_step.
  destruct (is_blank c) eqn:B; [intros [= <- <-]; cbn; lia|].
  destruct (Ascii.eqb c "(") eqn:C1; [intros [= <- <-]; cbn; lia|].
  destruct (Ascii.eqb c "|") eqn:C2; [intros [= <- <-]; destruct s as [|c' s']; [|destruct (Ascii.eqb c' "|")]; cbn; lia|].
  destruct (Ascii.eqb c ",") eqn:C3; [intros [= <- <-]; cbn; lia|].
  destruct (Ascii.eqb c "&") eqn:C4; [intros [= <- <-]; destruct s as [|c' s']; [|destruct (Ascii.eqb c' "&")]; cbn; lia|].
  destruct (Ascii.eqb c "!") eqn:C5; [intros [= <- <-]; cbn; lia|].
  destruct (word_here (chars "OR") _ _); [intros E; assert (r = skipn 2 (c :: s)) by congruence; subst r; rewrite skipn_length; cbn [List.length]; lia|].
  destruct (word_here (chars "AND") _ _); [intros E; assert (r = skipn 3 (c :: s)) by congruence; subst r; rewrite skipn_length; cbn [List.length]; lia|].
  destruct (word_here (chars "NOT") _ _); [intros E; assert (r = skipn 3 (c :: s)) by congruence; subst r; rewrite skipn_length; cbn [List.length]; lia|].
  destruct (Ascii.eqb c ")") eqn:C6; [intros [= <- <-]; cbn; lia|].
  cbn [take_name]. unfold ends_name. rewrite B, C1, C6, C5, C3, C4, C2. cbn [orb].
  assert (G : forall l, List.length (snd (take_name l)) <= List.length l).
  { induction l as [|x l IH]; cbn [take_name]; [cbn; lia|]. destruct (ends_name x); [cbn; lia|]. destruct (take_name l); cbn in *. lia. }
  specialize (G s). destruct (take_name s) as [nm r']. cbn [snd] in G.
  destruct (is_identifier (c :: nm)); [|discriminate]. intros [= <- <-]. cbn. lia.
Qed.

Lemma lex_fuel : forall fuel s, List.length s <= fuel -> lex fuel s = lex (List.length s) s.
Proof.
  assert (G : forall n fuel s, List.length s <= n -> n <= fuel -> lex fuel s = lex n s).
  { induction n; intros fuel s Hs Hf.
    - destruct s; [|cbn in Hs; lia]. now destruct fuel.
    - destruct fuel; [lia|]. destruct s as [|c s]; [reflexivity|]. cbn [lex].
      destruct (lex_step (c :: s)) as [[t r]|] eqn:E; [|reflexivity].
      apply lex_step_shorter in E. rewrite (IHn fuel) by lia. reflexivity. }
  intros fuel s H. now apply G.
Qed.

Lemma tokens_step s t r : s <> [] -> lex_step s = Some (t, r) -> tokens s = match tokens r with None => None | Some ts => Some (match t with None => ts | Some t => t :: ts end) end.
Proof.
  intros Hne E. unfold tokens. pose proof (lex_step_shorter _ _ _ E). destruct s as [|c s]; [congruence|].
  cbn [List.length lex]. rewrite E. cbn [List.length] in H. now rewrite (lex_fuel (List.length s) r) by lia.
Qed.

Lemma tokens_blanks blanks r : forallb is_blank blanks = true -> tokens (blanks ++ r) = tokens r.
Proof.
  induction blanks as [|c b IH]; cbn [app forallb]; auto. rewrite andb_true_iff. intros [H1 H2].
  rewrite (tokens_step (c :: b ++ r) None (b ++ r)); [|discriminate|cbn [lex_step]; now rewrite H1].
  rewrite (IH H2). now destruct (tokens r).
Qed.

(** Words. *)
Lemma upper_inv c d : upper c = d -> (65 <=? nat_of_ascii d) && (nat_of_ascii d <=? 90) = true -> c = d \/ c = ascii_of_nat (nat_of_ascii d + 32).
Proof.
  intros H Hd. rewrite <- H in *. clear H d. revert c Hd. 
  intros [[] [] [] [] [] [] [] []]; vm_compute; auto; discriminate.
Qed.

Lemma word_OR s : same_word (chars "OR") s -> s = chars "OR" \/ s = chars "Or" \/ s = chars "oR" \/ s = chars "or".
Proof.
  unfold same_word. destruct s as [|a [|b [|]]]; try discriminate. cbn [map]. intros E.
  assert (E1 : upper a = "O"%char) by (injection E; auto). assert (E2 : upper b = "R"%char) by (injection E; auto).
  apply upper_inv in E1; [|reflexivity]. apply upper_inv in E2; [|reflexivity].
  destruct E1 as [-> | ->], E2 as [-> | ->]; vm_compute; auto.
Qed.

Lemma word3 x y z s : (forall c, In c [x; y; z] -> (65 <=? nat_of_ascii c) && (nat_of_ascii c <=? 90) = true) -> same_word [x; y; z] s ->
  exists a b c, s = [a; b; c] /\ (a = x \/ a = ascii_of_nat (nat_of_ascii x + 32)) /\ (b = y \/ b = ascii_of_nat (nat_of_ascii y + 32)) /\ (c = z \/ c = ascii_of_nat (nat_of_ascii z + 32)).
Proof.
  intros Hl. unfold same_word. destruct s as [|a [|b [|c [|]]]]; try discriminate. cbn [map]. intros E.
  assert (E1 : upper a = x) by (injection E; auto). assert (E2 : upper b = y) by (injection E; auto). assert (E3 : upper c = z) by (injection E; auto).
  apply upper_inv in E1; [|apply Hl; cbn; auto]. apply upper_inv in E2; [|apply Hl; cbn; auto]. apply upper_inv in E3; [|apply Hl; cbn; auto].
  exists a, b, c. auto.
Qed.

Lemma blank_cases c : is_blank c = true -> c = " "%char \/ c = "009"%char.
Proof. unfold is_blank. now rewrite orb_true_iff, !Ascii.eqb_eq. Qed.

Lemma ident_char c : is_letter c || is_digit c = true -> ends_name c = false.
Proof. intros H. destruct (ends_name c) eqn:E; auto. exfalso. revert H. unfold ends_name, is_blank in E. rewrite !orb_true_iff, !Ascii.eqb_eq in E.
  repeat (destruct E as [E|E]); subst c; vm_compute; discriminate. Qed.

Definition ends_here (r : list ascii) : Prop := match r with [] => True | c :: _ => ends_name c = true end.

Lemma take_ident s r : forallb (fun c => is_letter c || is_digit c) s = true -> ends_here r ->
  take_name (s ++ r) = (s, r).
Proof.
  intros H Hc. induction s as [|x s IH]; cbn [app take_name].
  - destruct r as [|c r]; [reflexivity|]. cbn [ends_here] in Hc. cbn [take_name]. now rewrite Hc.
  - cbn [forallb] in H. apply andb_true_iff in H as [H1 H2]. rewrite (ident_char x H1), (IH H2). reflexivity.
Qed.

Lemma upper_ends c : ends_name c = true -> upper c = c.
Proof.
  unfold ends_name, is_blank. rewrite !orb_true_iff, !Ascii.eqb_eq. intros H.
  repeat (destruct H as [H|H]); subst c; reflexivity.
Qed.

Lemma word_here_ident w ends s r : ends_here r -> forallb (fun c => is_letter c || is_digit c) s = true ->
  (forall x, In x ends -> ends_name x = true) -> forallb (fun x => negb (ends_name x)) w = true ->
  word_here w ends (s ++ r) = true -> same_word w s.
Proof.
  intros Hc Hs He Hw. unfold word_here.
  destruct (list_eq_dec ascii_dec (map upper (firstn (List.length w) (s ++ r))) w) as [E|]; [|discriminate].
  destruct (Nat.lt_trichotomy (List.length w) (List.length s)) as [L|[L|L]].
  - rewrite skipn_app. replace (List.length w - List.length s) with 0 by lia.
    destruct (skipn (List.length w) s) as [|x t] eqn:Ex; [apply (f_equal (@List.length _)) in Ex; rewrite skipn_length in Ex; cbn in Ex; lia|].
    cbn [app]. intros Hx. exfalso. apply existsb_exists in Hx as (y & Hy & Exy). apply Ascii.eqb_eq in Exy. subst y.
    assert (Hin : In x s) by (rewrite <- (firstn_skipn (List.length w) s), Ex; apply in_or_app; right; now left).
    rewrite forallb_forall in Hs. apply Hs in Hin. apply ident_char in Hin. rewrite He in Hin by exact Hy. discriminate.
  - intros _. unfold same_word. rewrite L, firstn_app, Nat.sub_diag, firstn_O, app_nil_r, firstn_all in E. exact E.
  - exfalso. rewrite firstn_app in E. replace (List.length w - List.length s) with (S (List.length w - List.length s - 1)) in E by lia.
    rewrite firstn_all2 in E by lia. destruct r as [|c r].
    + rewrite firstn_nil, app_nil_r in E. rewrite <- E, map_length in L. lia.
    + cbn [firstn] in E. rewrite map_app in E. cbn [map] in E.
      assert (Hin : In (upper c) w) by (rewrite <- E; apply in_or_app; right; now left).
      cbn [ends_here] in Hc. rewrite forallb_forall in Hw. apply Hw in Hin. rewrite (upper_ends c Hc), Hc in Hin. discriminate.
Qed.

Lemma letters_upper x s : forallb is_letter (x :: s) = true -> is_letter x = true /\ forallb is_letter s = true.
Proof. cbn [forallb]. now rewrite andb_true_iff. Qed.

Lemma word_forms s w : same_word w s -> forallb (fun c => (65 <=? nat_of_ascii c) && (nat_of_ascii c <=? 90)) w = true -> forallb is_letter s = true.
Proof.
  unfold same_word. intros <-. rewrite !forallb_forall. intros H x Hx. specialize (H (upper x) (in_map _ _ _ Hx)). cbn beta in H.
  revert H. clear. destruct x as [[] [] [] [] [] [] [] []]; vm_compute; auto.
Qed.

Lemma word_touch w s c : same_word w s -> In w [chars "OR"; chars "AND"; chars "NOT"] -> may_touch s c ->
  In c [" "%char; "009"%char; "("%char] \/ (c = "!"%char /\ w <> chars "NOT").
Proof.
  intros Hw Hin Hm.
  assert (Hl : forallb is_letter s = true).
  { eapply word_forms; eauto. repeat destruct Hin as [<-|Hin]; try reflexivity. destruct Hin. }
  inversion Hm; subst.
  - left. destruct H as [-> | ->]; cbn; auto.
  - cbn in H. repeat destruct H as [<-|H]; try discriminate. destruct H.
  - discriminate.
  - discriminate.
  - left; cbn; auto.
  - right. split; [reflexivity|]. intros ->. destruct H as [H|H]; unfold same_word in *; rewrite H in Hw; discriminate.
  - exfalso. apply H0. unfold operator_word. cbn in Hin. destruct Hin as [<-|[<-|[<-|[]]]]; auto.
Qed.

Lemma name_touch s c : is_identifier s = true -> may_touch s c -> ~ operator_word s -> ends_name c = true.
Proof.
  intros Hi Hm Hn. inversion Hm; subst.
  - destruct H as [-> | ->]; reflexivity.
  - cbn in H. repeat destruct H as [<-|H]; try discriminate. destruct H.
  - discriminate.
  - discriminate.
  - reflexivity.
  - reflexivity.
  - cbn in H1. repeat destruct H1 as [<-|H1]; try reflexivity. destruct H1.
Qed.

Lemma spelled t s r : spelling t s -> match r with [] => True | c :: _ => may_touch s c end -> lex_step (s ++ r) = Some (Some t, r).
Proof.
  intros Hs Hc.
  inversion Hs; subst.
  - reflexivity.
  - destruct r as [|? [|? [|? [|]]]]; reflexivity.
  - destruct r as [|c r]; [reflexivity|]. cbn. replace (Ascii.eqb c "|") with false; [reflexivity|]. symmetry. apply Ascii.eqb_neq.
    inversion Hc; subst; first [discriminate | assumption | (destruct H as [-> | ->]; discriminate) | (cbn in H; repeat destruct H as [H|H]; first [discriminate | destruct H])].
  - reflexivity.
  - reflexivity.
  - destruct r as [|c r].
    + rewrite app_nil_r. apply word_OR in H as [-> |[-> |[-> | ->]]]; reflexivity.
    + destruct (word_touch _ _ _ H ltac:(cbn; auto) Hc) as [Hin|[-> _]].
      * cbn in Hin. destruct Hin as [<-|[<-|[<-|[]]]]; apply word_OR in H as [-> |[-> |[-> | ->]]]; reflexivity.
      * apply word_OR in H as [-> |[-> |[-> | ->]]]; reflexivity.
  - destruct r as [|c r]; [reflexivity|]. cbn. replace (Ascii.eqb c "&") with false; [reflexivity|]. symmetry. apply Ascii.eqb_neq.
    inversion Hc; subst; first [discriminate | assumption | (destruct H as [-> | ->]; discriminate) | (cbn in H; repeat destruct H as [H|H]; first [discriminate | destruct H])].
  - reflexivity.
  - pose proof H as H'. apply word3 in H' as (x & y & z & -> & [-> | ->] & [-> | ->] & [-> | ->]);
      try (intros ? [<-|[<-|[<-|[]]]]; reflexivity);
      (destruct r as [|c r]; [reflexivity|];
       destruct (word_touch _ _ _ H ltac:(cbn; auto) Hc) as [Hin|[-> _]]; [|reflexivity];
       cbn in Hin; destruct Hin as [<-|[<-|[<-|[]]]]; reflexivity).
  - reflexivity.
  - pose proof H as H'. apply word3 in H' as (x & y & z & -> & [-> | ->] & [-> | ->] & [-> | ->]);
      try (intros ? [<-|[<-|[<-|[]]]]; reflexivity);
      (destruct r as [|c r]; [reflexivity|];
       destruct (word_touch _ _ _ H ltac:(cbn; auto) Hc) as [Hin|[-> Hn]]; [|congruence];
       cbn in Hin; destruct Hin as [<-|[<-|[<-|[]]]]; reflexivity).
  - assert (Hid : forallb (fun c => is_letter c || is_digit c) s = true).
    { destruct s as [|x s]; [discriminate|]. cbn [is_identifier] in H. apply andb_true_iff in H as [H3 H4]. cbn [forallb]. now rewrite H3, H4. }
    assert (Hnw : ~ operator_word s) by (unfold operator_word; tauto).
    assert (Hend : ends_here r) by (destruct r as [|c r]; cbn [ends_here]; auto; eapply name_touch; eauto).
    destruct s as [|x s]; [discriminate|].
    assert (Hx : ends_name x = false) by (cbn [forallb] in Hid; apply andb_true_iff in Hid as [Hx _]; now apply ident_char).
    pose proof Hx as Hx'. unfold ends_name in Hx'. rewrite !orb_false_iff in Hx'.
    destruct Hx' as ((((((B & C1) & C6) & C5) & C3) & C4) & C2).
    unfold lex_step. cbn [app]. rewrite B, C1, C2, C3, C4, C5, C6.
    destruct (word_here (chars "OR") _ _) eqn:W1.
    { exfalso. apply H0. eapply (word_here_ident _ _ (x :: s) r); eauto. intros y Hy. repeat destruct Hy as [<-|Hy]; try reflexivity. destruct Hy. }
    destruct (word_here (chars "AND") _ _) eqn:W2.
    { exfalso. apply H1. eapply (word_here_ident _ _ (x :: s) r); eauto. intros y Hy. repeat destruct Hy as [<-|Hy]; try reflexivity. destruct Hy. }
    destruct (word_here (chars "NOT") _ _) eqn:W3.
    { exfalso. apply H2. eapply (word_here_ident _ _ (x :: s) r); eauto. intros y Hy. repeat destruct Hy as [<-|Hy]; try reflexivity. destruct Hy. }
    change (x :: s ++ r) with ((x :: s) ++ r). rewrite (take_ident (x :: s) r Hid Hend).
    now rewrite H.
Qed.

Lemma blanks_forallb blanks : Forall (fun c => c = " "%char \/ c = "009"%char) blanks -> forallb is_blank blanks = true.
Proof. rewrite forallb_forall, Forall_forall. intros H x Hx. apply H in Hx as [-> | ->]; reflexivity. Qed.

Theorem written_tokens ts s : written ts s -> tokens s = Some ts.
Proof.
  induction 1 as [|t ts s blanks r Hs Hb Hbl Hw IH]; [reflexivity|].
  rewrite (tokens_step _ (Some t) (blanks ++ r)).
  - rewrite tokens_blanks by (now apply blanks_forallb). now rewrite IH.
  - intros E. apply app_eq_nil in E as [-> _]. inversion Hs; try discriminate; subst; unfold same_word in *; discriminate.
  - now apply spelled.
Qed.

Theorem expression_tokens ts s : expression ts s -> tokens s = Some ts.
Proof. intros (b & r & -> & Hb & Hw). rewrite tokens_blanks by (now apply blanks_forallb). now apply written_tokens. Qed.

(** * Names *)
Lemma parse_names ts rpn names : parse ts = Some (rpn, names) -> names = names_of ts.
Proof.
  assert (G : forall ts s s', parse_loop s ts = Some s' -> q_names s' = q_names s ++ names_of ts).
  { clear. induction ts as [|t ts IH]; intros s s' H; cbn [parse_loop] in H.
    - injection H as <-. cbn. now rewrite app_nil_r.
    - destruct (parse_step s t) as [s1|] eqn:E; [|discriminate]. rewrite (IH _ _ H). clear IH H.
      destruct t; cbn [parse_step] in E; destruct (q_had s); try discriminate; try (injection E as <-; cbn [q_names names_of]; auto).
      + now rewrite <- app_assoc.
      + unfold push_oper. destruct (pop_higher _ _ _). reflexivity.
      + unfold push_oper. destruct (pop_higher _ _ _). reflexivity.
      + unfold push_oper. destruct (pop_higher _ _ _). reflexivity.
      + destruct (pop_paren _ _) as [[? ?]|]; [|discriminate]. injection E as <-. reflexivity. }
  unfold parse. destruct (parse_loop pinit ts) as [s|] eqn:E; [|discriminate]. destruct (q_had s); [|discriminate].
  destruct (pop_all _ _); [|discriminate]. intros [= _ <-]. now rewrite (G _ _ _ E).
Qed.
