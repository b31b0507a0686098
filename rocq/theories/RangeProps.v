(** Property C27: expansion of number ranges. *)
From Coq Require Import List Bool Arith ZArith Ascii String Lia.
From Verif Require Import StrModel NumParseSpec NumParseModel RangeModel RangeSpec RangeProofs.
Import ListNotations.
Open Scope nat_scope.

Notation str x := (list_ascii_of_string x).

(** A text is expanded to the text with all its ranges written out; everything else stays.
    Partial: ranges whose prefix and suffix have no further dots or quotes, and that do not count up to 2^31-1. *)
Theorem C27_expansion_partial : forall s t, expansion true s t ->
  exists n, forall fuel, n <= fuel -> expand_range_string fuel s = Expanded t.
Proof. intros s t H. apply (expansion_runs true s t H []). intros _ x c E. destruct x; discriminate. Qed.
Print Assumptions C27_expansion_partial.

(** Counting up to the largest int, the loop counter overflows: undefined behaviour. *)
Theorem C27_overflow_refuted : forall u r items s, (u = [] \/ exists x c, u = x ++ [c] /\ In c before_number) ->
  Forall (fun c => ~ In c ["."; "'"; """"]%char) u -> range_text r items true ->
  (s = [] \/ exists c x, s = c :: x /\ In c after_number) ->
  exists n, forall fuel, n <= fuel -> expand_range_string fuel (u ++ r ++ s) = Expand_overflow.
Proof.
  intros u r items s Hu Hd Hr Hs. apply (overflow_runs [] u r items s); auto. cbn. intros x c E.
  destruct Hu as [->|(y & c' & -> & Hc)]; [destruct x; discriminate|]. apply app_inj_tail in E as [_ <-]. exact Hc.
Qed.
Print Assumptions C27_overflow_refuted.

(** Quotes are not respected in the part after the second number: the suffix stops at the comma
    inside the quotes, and the quotes of the result are unbalanced or paired differently. *)
Theorem C27_quoted_suffix_refuted : exists body, ~ In "'"%char body /\ ~ In ".."%string [string_of_list_ascii body] /\
  expand_range_string 40 (str "1..2" ++ "'"%char :: body ++ ["'"%char]) = Expanded (str "1'a,2'a,b'").
Proof. exists (str "a,b"). split; [cbn; intuition discriminate|]. split; [cbn; intuition discriminate|]. reflexivity. Qed.
Print Assumptions C27_quoted_suffix_refuted.

Lemma dd n : n < 10 -> dec_digit (nth n (str "0123456789") zero) n.
Proof. intros H. unfold dec_digit. apply nth_error_nth'. exact H. Qed.
Lemma pos1 n : n < 10 -> positional 10 dec_digit [nth n (str "0123456789") zero] (Z.of_nat n).
Proof. intros H. replace (Z.of_nat n) with (Z.of_nat n * 10 ^ Z.of_nat (List.length (@nil ascii)) + 0)%Z by (cbn; lia). constructor; [now apply dd|constructor]. Qed.
Lemma pos2 m n : m < 10 -> n < 10 -> positional 10 dec_digit [nth m (str "0123456789") zero; nth n (str "0123456789") zero] (Z.of_nat (10 * m + n)).
Proof. intros Hm H. replace (Z.of_nat (10 * m + n)) with (Z.of_nat m * 10 ^ Z.of_nat (List.length [nth n (str "0123456789") zero]) + Z.of_nat n)%Z by (cbn [List.length]; rewrite Z.pow_1_r; lia). constructor; [now apply dd|now apply pos1]. Qed.

(** [3.5,RS09..RS11x] *)
Example C27_case : expansion true (str "[3.5,RS09..RS11x]") (str "[3.5,RS09x,RS10x,RS11x]") /\
  expand_range_string 100 (str "[3.5,RS09..RS11x]") = Expanded (str "[3.5,RS09x,RS10x,RS11x]") /\
  expand_range_string 100 (str "a{3 .. 1}'4..6'") = Expanded (str "a3'4..6',a2'4..6',a1'4..6'") /\
  expand_range_string 100 (str "2147483646..2147483647") = Expand_overflow.
Proof.
  split; [|split; [|split]; reflexivity]. cbn [list_ascii_of_string].
  apply ex_char with (e' := true); [cbn; intuition discriminate|cbn; intuition|].
  apply ex_char with (e' := false); [cbn; intuition discriminate|cbn; intuition discriminate|].
  apply ex_dot; [intros r; discriminate|].
  apply ex_char with (e' := false); [cbn; intuition discriminate|cbn; intuition discriminate|].
  apply ex_char with (e' := true); [cbn; intuition discriminate|cbn; intuition|].
  apply (ex_range (str "RS09..RS11x") [str "RS09x"; str "RS10x"; str "RS11x"] (str "]") (str "]")).
  - exists (str "RS"), (str "09"), [], [], (str "RS"), (str "11"), (str "x"), 9%Z, 11%Z.
    assert (ND : forall c, isdigit c = false -> forall d, ~ dec_digit c d) by (intros c Hc d X; assert (isdigit c = true) by (apply isdigit_iff; eauto); congruence).
    split; [reflexivity|]. split; [constructor|]. split; [constructor|]. split; [auto|].
    split; [repeat constructor; cbn; intuition discriminate|]. split; [repeat constructor; cbn; intuition discriminate|].
    split; [intros x c d E; change (str "RS") with ([ "R"%char ] ++ ["S"%char]) in E; apply app_inj_tail in E as [_ <-]; now apply ND|].
    split; [intros c x d [= <- <-]; now apply ND|].
    split; [intros c x [= <- <-]; split; [apply SplitProofs.not_blank1; reflexivity|now apply ND]|].
    split; [discriminate|]. split; [discriminate|]. split; [apply (pos2 0 9); lia|]. split; [apply (pos2 1 1); lia|]. split; [lia|]. split; [lia|].
    split; [split; [discriminate|intros [_ X]; discriminate]|].
    exists [9; 10; 11]%Z, [str "09"; str "10"; str "11"], (str "RS"), (str "x"). split; [|split; [|split; [reflexivity|right]]].
    + split; [reflexivity|]. intros [|[|[|[|i]]]] x E; cbn in E; try (injection E as <-; reflexivity); discriminate.
    + repeat constructor; try lia; try (intros r; discriminate).
      * apply (pos2 0 9); lia.
      * apply (pos2 1 0); lia.
      * apply (pos2 1 1); lia.
    + split; [|auto]. intros (p1 & s1 & _ & E). discriminate.
  - right. exists "]"%char, []. split; [reflexivity|]. cbn. auto.
  - apply ex_char with (e' := false); [cbn; intuition discriminate|cbn; intuition discriminate|]. apply ex_nil.
Qed.
