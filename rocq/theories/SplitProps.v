(** Property C26: lists in parameter values. *)
From Coq Require Import List Bool Arith ZArith Ascii String Lia.
From Verif Require Import StrModel NumParseSpec SplitModel SplitSpec SplitProofs.
Import ListNotations.
Open Scope nat_scope.

Notation str x := (list_ascii_of_string x).

(** A bracketed value is accepted exactly if the text between the brackets has elements, and gives them. *)
Theorem C26_elements : forall u r, get_vector ("["%char :: u ++ ["]"%char]) = Some r <-> elements u r.
Proof. exact get_vector_iff. Qed.
Print Assumptions C26_elements.

(** A value without brackets is one element. *)
Theorem C26_single : forall v, v <> [] -> (forall u, v <> "["%char :: u ++ ["]"%char]) -> get_vector v = Some [v].
Proof. exact get_vector_single. Qed.
Print Assumptions C26_single.

(** All properly nested texts are accepted. *)
Theorem C26_nested : forall ts, nested ts -> exists r, get_vector ("["%char :: text ts ++ ["]"%char]) = Some r.
Proof. exact nested_accepted. Qed.
Print Assumptions C26_nested.

(** Quotes are removed exactly where they protect, or the text is refused. *)
Theorem C26_unquote : forall v w, get_string v = Some w <-> exists ts, Forall good_tok ts /\ text ts = v /\ w = unquoted ts.
Proof. exact get_string_iff. Qed.
Print Assumptions C26_unquote.

Example C26_case : get_vector (str "[ a , (b,c), [d,{e:f,g:h}] ,'i,]',]") = Some [str "a"; str "(b,c)"; str "[d,{e:f,g:h}]"; str "'i,]'"; []] /\
  get_vector (str "[a,(b]") = None /\ get_vector (str "a,b") = Some [str "a,b"] /\ get_vector (str "[ ]") = Some [] /\
  get_string (str "a'b,""'c""d'""") = Some (str "ab,""cd'") /\ get_string (str "a'b") = None /\
  get_record (str "{a:1,'b:c':[2,3]}") = Some [(str "a", str "1"); (str "b:c", str "[2,3]")] /\
  get_vector (str "[(a,[b])]") = None.
Proof. vm_compute. repeat split. Qed.

(** Non-vacuity of C26_nested. *)
Example C26_nested_case : nested [plain "["; plain "("; plain ","; plain ")"; quoted "'" (str "]"); plain "]"; plain ","].
Proof.
  apply (n_bracket [plain "("; plain ","; plain ")"; quoted "'" (str "]")] [plain ","]).
  - apply (n_par [plain ","] [quoted "'" (str "]")]).
    + apply f_char; [cbn; intuition discriminate|constructor].
    + apply n_quoted; [cbn; auto|cbn; intuition discriminate|constructor].
  - apply n_char; [cbn; intuition discriminate|constructor].
Qed.

(** Finding: only the numbers of parentheses are counted, so interleaved ones are accepted:
    "[[(])]" gives the element "[(])". *)
Theorem C26_interleaved_refuted : exists ts r, Forall good_tok ts /\ ~ nested ts /\
  get_vector ("["%char :: text ts ++ ["]"%char]) = Some r.
Proof.
  exists [plain "["; plain "("; plain "]"; plain ")"], [str "[(])"]. split; [|split; [|reflexivity]].
  - repeat constructor; discriminate.
  - intros H. assert (W : forall ts, nested ts -> forall n, nonneg n -> npar n = 0%Z -> walk ts n = Some n) by exact (proj1 nested_walk).
    inversion H as [|c ts Hc Ht|q b ts Hq Hb Ht|a ts Ha Ht|a ts Ha Ht E|a ts Ha Ht]; subst.
    + apply Hc. cbn. auto 10.
    + assert (N : nested a) by exact Ha. clear H.
      assert (X : a = [plain "("]).
      { destruct a as [|x [|y [|z [|w a]]]]; cbn in E; try discriminate; congruence || (injection E; intros; subst; try discriminate; reflexivity) || idtac. }
      subst a. specialize (W _ N zero_counts ltac:(unfold nonneg; cbn; lia) eq_refl). vm_compute in W. discriminate.
Qed.
Print Assumptions C26_interleaved_refuted.
