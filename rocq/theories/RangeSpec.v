(** Number ranges in a text. *)
From Coq Require Import List Bool Arith ZArith Ascii String.
From Verif Require Import NumParseSpec.
Import ListNotations.
Open Scope nat_scope.

(** [d] is the number [z] written with at least [w] digits, no more zeros in front than needed. *)
Definition padded (w : nat) (z : Z) (d : list ascii) : Prop :=
  positional 10 dec_digit d z /\ w <= List.length d /\ (w < List.length d -> forall r, d <> "0"%char :: r).

(** All numbers from [a] to [b], up or down. *)
Definition numbers (a b : Z) (l : list Z) : Prop :=
  List.length l = S (Z.abs_nat (b - a)) /\
  forall i x, nth_error l i = Some x -> x = (if (a <=? b)%Z then a + Z.of_nat i else a - Z.of_nat i)%Z.

Fixpoint commas (l : list (list ascii)) : list ascii :=
  match l with
  | [] => []
  | [x] => x
  | x :: r => x ++ ","%char :: commas r
  end.

Definition before_number : list ascii := ["("; "["; ","; ";"; "*"; " "; "009"]%char.
Definition after_number : list ascii := [")"; "]"; ","; ";"; "*"; " "; "009"]%char.

(** A range: prefix, number, "..", possibly the prefix again, number, suffix; stands for the numbers,
    all with the prefix, the suffix and the width of the first number.  An opening brace at the end of the
    prefix and a closing one at the start of the suffix are left out. *)
Definition range_text (r : list ascii) (items : list (list ascii)) (overflow : bool) : Prop :=
  exists pre d1 b1 b2 pre2 d2 suf a b,
    r = pre ++ d1 ++ b1 ++ "."%char :: "."%char :: b2 ++ pre2 ++ d2 ++ suf /\
    blank b1 /\ blank b2 /\ (pre2 = [] \/ pre2 = pre) /\
    Forall (fun c => ~ In c before_number /\ ~ In c ["."; "'"; """"]%char) pre /\
    Forall (fun c => ~ In c after_number /\ ~ In c ["."; "'"; """"]%char) suf /\
    (forall x c d, pre = x ++ [c] -> ~ dec_digit c d) /\ (forall c x d, suf = c :: x -> ~ dec_digit c d) /\
    (forall c x, pre = c :: x -> ~ blank [c] /\ forall d, ~ dec_digit c d) /\
    d1 <> [] /\ d2 <> [] /\ positional 10 dec_digit d1 a /\ positional 10 dec_digit d2 b /\
    (a < 2 ^ 31)%Z /\ (b < 2 ^ 31)%Z /\ (overflow = true <-> a < b /\ b = 2 ^ 31 - 1)%Z /\
    exists ns ds p s, numbers a b ns /\ Forall2 (padded (List.length d1)) ns ds /\
      items = map (fun d => p ++ d ++ s) ds /\
      ((exists p1 s1, pre = p1 ++ ["{"%char] /\ suf = "}"%char :: s1 /\ p = p1 /\ s = s1) \/
       (~ (exists p1 s1, pre = p1 ++ ["{"%char] /\ suf = "}"%char :: s1) /\ p = pre /\ s = suf)).

(** The text with its ranges replaced.  [edge]: a range can start here. *)
Inductive expansion : bool -> list ascii -> list ascii -> Prop :=
| ex_nil e : expansion e [] []
| ex_char e e' c s t : ~ In c ["."; "'"; """"]%char -> (e' = true <-> In c before_number) ->
    expansion e' s t -> expansion e (c :: s) (c :: t)
| ex_dot e s t : (forall r, s <> "."%char :: r) -> expansion false s t -> expansion e ("."%char :: s) ("."%char :: t)
| ex_quoted e q body s t : In q ["'"; """"]%char -> ~ In q body -> expansion false s t ->
    expansion e (q :: body ++ q :: s) (q :: body ++ q :: t)
| ex_range r items s t : range_text r items false -> (s = [] \/ exists c x, s = c :: x /\ In c after_number) ->
    expansion false s t -> expansion true (r ++ s) (commas items ++ t).
