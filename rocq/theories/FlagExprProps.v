(** Property C18: set expressions of the preflagger. *)
From Coq Require Import List Bool Arith Ascii String.
From Verif Require Import FlagExprModel FlagExprSpec FlagExprProofs.
Import ListNotations.
Open Scope nat_scope.

(** An expression is accepted exactly when its tokens form a boolean expression. *)
Theorem C18_accepted : forall ts s, expression ts s -> (expr_to_rpn s <> None <-> exists e, disj ts e).
Proof.
  intros ts s H. unfold expr_to_rpn. rewrite (expression_tokens ts s H). split.
  - destruct (parse ts) as [[rpn names]|] eqn:E; [|congruence]. intros _. exact (parse_sound ts rpn names E).
  - intros [e He]. destruct (parse_complete (fun _ => true) ts e He) as (rpn & names & E & _). congruence.
Qed.
Print Assumptions C18_accepted.

(** The sets created are the names of the expression in order, and the evaluation
    gives the value of the expression for every assignment of flags to the names. *)
Theorem C18_value : forall ts s e, expression ts s -> disj ts e ->
  exists rpn, expr_to_rpn s = Some (rpn, names_of ts) /\
  forall env sets, (forall i n, nth_error (names_of ts) i = Some n -> sets i = env n) ->
    eval_expr negb andb orb sets rpn = Some (beval env e).
Proof.
  intros ts s e H He. unfold expr_to_rpn. rewrite (expression_tokens ts s H).
  destruct (parse_complete (fun _ => true) ts e He) as (rpn & names & E & _).
  exists rpn. rewrite E. rewrite <- (parse_names _ _ _ E). split; [reflexivity|].
  intros env sets Hs. destruct (parse_complete env ts e He) as (rpn' & names' & E' & Hv).
  assert (rpn' = rpn /\ names' = names) as [-> ->] by (rewrite E in E'; split; congruence).
  now apply Hv.
Qed.
Print Assumptions C18_value.

(** So two readings of the same text have the same value. *)
Theorem C18_unambiguous : forall ts e e' env, disj ts e -> disj ts e' -> beval env e = beval env e'.
Proof.
  intros ts e e' env H H'.
  destruct (parse_complete env ts e H) as (rpn & names & E & Hv).
  destruct (parse_complete env ts e' H') as (rpn' & names' & E' & Hv').
  assert (rpn' = rpn /\ names' = names) as [-> ->] by (rewrite E in E'; split; congruence).
  assert (Hs : forall i s, nth_error names i = Some s -> (fun i => env (nth i names [])) i = env s).
  { intros i s Hi. cbn beta. now rewrite (nth_error_nth names i [] Hi). }
  specialize (Hv _ Hs). specialize (Hv' _ Hs). congruence.
Qed.
Print Assumptions C18_unambiguous.

(** "a or not (b&!c) , d": or of a, not (b and not c) and d. *)
Example C18_case :
  let s := chars "a or not (b&!c) , d" in
  let a := chars "a" in let b := chars "b" in let c := chars "c" in let d := chars "d" in
  let ts := [TName a; TOr; TNot; TOpen; TName b; TAnd; TNot; TName c; TClose; TOr; TName d] in
  expression ts s /\
  disj ts (BOr (BOr (BName a) (BNot (BAnd (BName b) (BNot (BName c))))) (BName d)) /\
  expr_to_rpn s = Some ([RSet 0; RSet 1; RSet 2; ROp OpNot; ROp OpAnd; ROp OpNot; RSet 3; ROp OpOr; ROp OpOr], [a; b; c; d]).
Proof.
  split; [|split; [|reflexivity]].
  - exists [], (chars "a or not (b&!c) , d"). split; [reflexivity|]. split; [constructor|].
    assert (Hw : forall x, In x ["a"; "b"; "c"; "d"]%string -> spelling (TName (chars x)) (chars x) /\ ~ operator_word (chars x)).
    { intros x Hx. repeat destruct Hx as [<-|Hx]; try destruct Hx; (split; [constructor|]); try reflexivity; intros Hf;
        unfold operator_word, same_word in Hf; cbv in Hf; try (repeat destruct Hf as [Hf|Hf]); discriminate. }
    apply (wr_cons (TName (chars "a")) _ (chars "a") (chars " ") (chars "or not (b&!c) , d")); [apply Hw; cbn; auto|cbn; repeat (apply Forall_cons; [auto|]); apply Forall_nil|cbn; constructor; auto|].
    apply (wr_cons TOr _ (chars "or") (chars " ") (chars "not (b&!c) , d")); [constructor; reflexivity|cbn; repeat (apply Forall_cons; [auto|]); apply Forall_nil|cbn; constructor; auto|].
    apply (wr_cons TNot _ (chars "not") (chars " ") (chars "(b&!c) , d")); [constructor; reflexivity|cbn; repeat (apply Forall_cons; [auto|]); apply Forall_nil|cbn; constructor; auto|].
    apply (wr_cons TOpen _ (chars "(") [] (chars "b&!c) , d")); [constructor; reflexivity|cbn; repeat (apply Forall_cons; [auto|]); apply Forall_nil|cbn; apply mt_symbol; cbn; auto|].
    apply (wr_cons (TName (chars "b")) _ (chars "b") [] (chars "&!c) , d")); [apply Hw; cbn; auto|cbn; repeat (apply Forall_cons; [auto|]); apply Forall_nil|cbn; apply mt_name; [reflexivity|apply (Hw "b"%string); cbn; auto|cbn; auto 10]|].
    apply (wr_cons TAnd _ (chars "&") [] (chars "!c) , d")); [apply sp_and1|cbn; repeat (apply Forall_cons; [auto|]); apply Forall_nil|cbn; apply mt_amp; discriminate|].
    apply (wr_cons TNot _ (chars "!") [] (chars "c) , d")); [apply sp_not1|cbn; repeat (apply Forall_cons; [auto|]); apply Forall_nil|cbn; apply mt_symbol; cbn; auto 10|].
    apply (wr_cons (TName (chars "c")) _ (chars "c") [] (chars ") , d")); [apply Hw; cbn; auto|cbn; repeat (apply Forall_cons; [auto|]); apply Forall_nil|cbn; apply mt_name; [reflexivity|apply (Hw "c"%string); cbn; auto|cbn; auto 10]|].
    apply (wr_cons TClose _ (chars ")") (chars " ") (chars ", d")); [constructor; reflexivity|cbn; repeat (apply Forall_cons; [auto|]); apply Forall_nil|cbn; constructor; auto|].
    apply (wr_cons TOr _ (chars ",") (chars " ") (chars "d")); [constructor; reflexivity|cbn; repeat (apply Forall_cons; [auto|]); apply Forall_nil|cbn; constructor; auto|].
    apply (wr_cons (TName (chars "d")) _ (chars "d") [] []); [apply Hw; cbn; auto|constructor|exact I|constructor].
  - apply (disj_or [TName (chars "a"); TOr; TNot; TOpen; TName (chars "b"); TAnd; TNot; TName (chars "c"); TClose] _ [TName (chars "d")]); [|repeat constructor].
    apply (disj_or [TName (chars "a")] _ [TNot; TOpen; TName (chars "b"); TAnd; TNot; TName (chars "c"); TClose]); [repeat constructor|].
    apply conj_unary, unary_not, unary_prim.
    apply (prim_paren [TName (chars "b"); TAnd; TNot; TName (chars "c")]).
    apply disj_conj, (conj_and [TName (chars "b")] _ [TNot; TName (chars "c")]); [repeat constructor|apply unary_not, unary_prim, prim_name].
Qed.

(** Precedence: "a | b & c" is a or (b and c). *)
Example C18_precedence :
  forall a b c : bool,
  match expr_to_rpn (chars "a | b & c") with
  | Some (rpn, _) => eval_expr negb andb orb (fun i => nth i [a; b; c] false) rpn = Some (a || (b && c))
  | None => False
  end.
Proof. intros [] [] []; reflexivity. Qed.

(** Finding: the word NOT directly followed by "!" is read as a set name, although
    OR and AND may be followed by "!". *)
Theorem C18_not_not_refuted :
  exists a, expr_to_rpn (chars "not!a") = None /\ expr_to_rpn (chars "not !a") = Some (a, [chars "a"]) /\
    tokens (chars "not!a") = Some [TName (chars "not"); TNot; TName (chars "a")] /\
    tokens (chars "not !a") = Some [TNot; TNot; TName (chars "a")].
Proof. eexists. repeat split; reflexivity. Qed.
Print Assumptions C18_not_not_refuted.
