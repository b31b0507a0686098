(** Model of the string helpers of common/StringTools.cc.  Strings are lists of
    characters; positions are natural numbers (the code uses 32-bit unsigned or int
    positions, so texts are assumed shorter than 2^31). *)
From Coq Require Import List Bool Arith ZArith Ascii.
Import ListNotations.
Open Scope nat_scope.

(** Not in the code: the value of an unsigned char (common/StringTools.cc) *)
Definition code (c : ascii) : nat := nat_of_ascii c.

(** isspace of the C locale: blank, \t, \n, \v, \f, \r *)
(** isspace, called in common/StringTools.cc:61-75 *)
Definition isspace (c : ascii) : bool := (code c =? 32) || ((9 <=? code c) && (code c <=? 13)).
(** isdigit, called in common/StringTools.cc:319, 345, 348 *)
Definition isdigit (c : ascii) : bool := (48 <=? code c) && (code c <=? 57).

(** str[i]; the character after the last one is NUL (std::string::operator[], c_str). *)
Definition at_ (s : list ascii) (i : nat) : ascii := nth i s zero.
(** std::string::substr(st, n) *)
Definition substr (s : list ascii) (st n : nat) : list ascii := firstn n (skipn st s).

(** common/StringTools.cc:61-67; the first argument is fuel, end - st *)
Fixpoint lskip (fuel : nat) (s : list ascii) (st en : nat) : nat :=
  match fuel with
  | 0 => st
  | S f => if (st <? en) && isspace (at_ s st) then lskip f s (S st) en else st
  end.
(** common/StringTools.cc:61-67 *)
Definition lskipws (s : list ascii) (st en : nat) : nat := lskip (en - st) s st en.

(** common/StringTools.cc:69-75 *)
Fixpoint rskip (fuel : nat) (s : list ascii) (st en : nat) : nat :=
  match fuel with
  | 0 => en
  | S f => if (st <? en) && isspace (at_ s (en - 1)) then rskip f s st (en - 1) else en
  end.
(** common/StringTools.cc:69-75 *)
Definition rskipws (s : list ascii) (st en : nat) : nat := rskip (en - st) s st en.

(** std::string::find(c, pos) *)
Fixpoint find_from (c : ascii) (s : list ascii) (pos : nat) : option nat :=
  match s with
  | [] => None
  | x :: r => match pos with
              | 0 => if Ascii.eqb x c then Some 0 else option_map S (find_from c r 0)
              | S p => option_map S (find_from c r p)
              end
  end.

(** common/StringTools.cc:505-511 (skipQuoted); [None]: an exception *)
Definition skip_quoted (s : list ascii) (st : nat) : option nat := option_map S (find_from (at_ s st) s (S st)).
