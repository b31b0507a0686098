(** Model of the integer parsing of common/StringTools.cc, with the strtol and strtoul of glibc. *)
From Coq Require Import List Bool Arith ZArith Ascii.
From Verif Require Import StrModel.
Import ListNotations.
Open Scope nat_scope.

(** The value of a digit in base 10 or 16. *)
(** glibc strtol, called in common/StringTools.cc:101-103, 157-159 *)
Definition digit_value (hex : bool) (c : ascii) : option Z :=
  if isdigit c then Some (Z.of_nat (code c - 48))
  else if hex && (97 <=? code c) && (code c <=? 102) then Some (Z.of_nat (code c - 87))
  else if hex && (65 <=? code c) && (code c <=? 70) then Some (Z.of_nat (code c - 55))
  else None.

(** The digit loop: the value so far, and the number of characters used. *)
(** glibc strtol, called in common/StringTools.cc:101-103, 157-159 *)
Fixpoint digit_loop (hex : bool) (acc : Z) (n : nat) (s : list ascii) : Z * nat :=
  match s with
  | [] => (acc, n)
  | c :: r => match digit_value hex c with
              | Some d => digit_loop hex (acc * (if hex then 16 else 10) + d) (S n) r
              | None => (acc, n)
              end
  end.

(** strtol and strtoul (base 10, or base 0 for a text that starts with 0x): the exact value and
    the number of characters used, 0 if there is no number.  The sign of base 0 is absent
    because the text starts with "0x". *)
(** glibc strtol, strtoul with base 10 in common/StringTools.cc:90-167 *)
Definition strto10 (s : list ascii) : Z * nat :=
  match s with
  | c :: r =>
    if Ascii.eqb c "-" then (let '(v, n) := digit_loop false 0 0 r in if n =? 0 then (0%Z, 0) else ((- v)%Z, S n))
    else if Ascii.eqb c "+" then (let '(v, n) := digit_loop false 0 0 r in if n =? 0 then (0%Z, 0) else (v, S n))
    else digit_loop false 0 0 s
  | [] => (0%Z, 0)
  end.
(** glibc strtol, strtoul with base 0 in common/StringTools.cc:90-167, for a text with 0x *)
Definition strto_hex (s : list ascii) : Z * nat :=
  let '(v, n) := digit_loop true 0 0 (skipn 2 s) in if n =? 0 then (0%Z, 1) else (v, 2 + n).

(** common/StringTools.cc:90-110 (strToLong), 141-167 (strToUlong), for a 64-bit long;
    [None]: an exception.  ERANGE is a value outside the range; glibc does not set EINVAL
    for a text without digits. *)
Definition has_0x (s : list ascii) (st en : nat) : bool :=
  (st + 2 <? en) && Ascii.eqb (at_ s st) "0" && (Ascii.eqb (at_ s (S st)) "x" || Ascii.eqb (at_ s (S st)) "X").
(** common/StringTools.cc:90-110 *)
Definition str_to_long (s : list ascii) : option Z :=
  let st := lskipws s 0 (length s) in
  let en := rskipws s st (length s) in
  let '(v, n) := if has_0x s st en then strto_hex (skipn st s) else strto10 (skipn st s) in
  if negb (st + n =? en) then None
  else if (v <? - 2 ^ 63)%Z || (2 ^ 63 - 1 <? v)%Z then None
  else Some v.
(** common/StringTools.cc:141-167 *)
Definition str_to_ulong (s : list ascii) : option Z :=
  let st := lskipws s 0 (length s) in
  let en := rskipws s st (length s) in
  if Ascii.eqb (at_ s st) "-" then None
  else
    let '(v, n) := if has_0x s st en then strto_hex (skipn st s) else strto10 (skipn st s) in
    if negb (st + n =? en) then None
    else if (2 ^ 64 - 1 <? v)%Z then None
    else Some v.

(** common/StringTools.cc:112-139 and 169-197 *)
Definition restrict (lo hi : Z) (v : option Z) : option Z :=
  match v with Some z => if (z <? lo)%Z || (hi <? z)%Z then None else Some z | None => None end.
(** common/StringTools.cc:112-122 *)
Definition str_to_int (s : list ascii) : option Z := restrict (-32768 * 65536) 2147483647 (str_to_long s).
(** common/StringTools.cc:124-132 *)
Definition str_to_int32 (s : list ascii) : option Z := restrict (-32768 * 65536) 2147483647 (str_to_long s).
(** common/StringTools.cc:134-139 *)
Definition str_to_int16 (s : list ascii) : option Z := restrict (-32768) 32767 (str_to_long s).
(** common/StringTools.cc:169-197: the upper limit *)
Definition restrict_max (hi : Z) (v : option Z) : option Z :=
  match v with Some z => if (hi <? z)%Z then None else Some z | None => None end.
(** common/StringTools.cc:169-179 *)
Definition str_to_uint (s : list ascii) : option Z := restrict_max 4294967295 (str_to_ulong s).
(** common/StringTools.cc:181-189 *)
Definition str_to_uint32 (s : list ascii) : option Z := restrict_max 4294967295 (str_to_ulong s).
(** common/StringTools.cc:191-197 *)
Definition str_to_uint16 (s : list ascii) : option Z := restrict_max 65535 (str_to_ulong s).
(** common/StringTools.cc:227-300: the same on a platform with a 64-bit long *)
Definition str_to_int64 (s : list ascii) : option Z := str_to_long s.
(** common/StringTools.cc:227-300 *)
Definition str_to_uint64 (s : list ascii) : option Z := str_to_ulong s.
