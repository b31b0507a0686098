(** The number a text denotes. *)
From Coq Require Import List Bool Arith ZArith Ascii String.
Import ListNotations.
Open Scope nat_scope.

Definition blank (s : list ascii) : Prop :=
  Forall (fun c => In c [" "; "009"; "010"; "011"; "012"; "013"]%char) s.

(** Digits, by their position in the list of all digits. *)
Definition dec_digit (c : ascii) (d : nat) : Prop := nth_error (list_ascii_of_string "0123456789") d = Some c.
Definition hex_digit (c : ascii) (d : nat) : Prop :=
  nth_error (list_ascii_of_string "0123456789abcdef") d = Some c \/ nth_error (list_ascii_of_string "0123456789ABCDEF") d = Some c.

(** Positional value. *)
Inductive positional (base : Z) (digit : ascii -> nat -> Prop) : list ascii -> Z -> Prop :=
| pos_nil : positional base digit [] 0
| pos_cons c d r v : digit c d -> positional base digit r v ->
    positional base digit (c :: r) (Z.of_nat d * base ^ Z.of_nat (List.length r) + v).

Inductive denotes : list ascii -> Z -> Prop :=
| den_dec s z : s <> [] -> positional 10 dec_digit s z -> denotes s z
| den_plus s z : s <> [] -> positional 10 dec_digit s z -> denotes ("+"%char :: s) z
| den_minus s z : s <> [] -> positional 10 dec_digit s z -> denotes ("-"%char :: s) (- z)
| den_hex x s z : In x ["x"; "X"]%char -> s <> [] -> positional 16 hex_digit s z -> denotes ("0"%char :: x :: s) z.

(** With blanks around it. *)
Definition text_denotes (s : list ascii) (z : Z) : Prop :=
  exists a body b, s = a ++ body ++ b /\ blank a /\ blank b /\ denotes body z.
Definition no_minus (s : list ascii) : Prop := forall a b, blank a -> s <> a ++ "-"%char :: b.
