(** Model of common/ParameterValue.cc:17-26, 32-99, 101-129, 131-157: the value of a
    parameter and its splitting in elements.  [None]: an exception is thrown.
    Simplification: the parenthesis counters are unbounded integers (in the code
    32-bit), and positions are natural numbers (texts shorter than 2^31). *)
From Coq Require Import List Bool Arith ZArith Ascii String.
From Verif Require Import StrModel.
Import ListNotations.
Open Scope nat_scope.

(** common/ParameterValue.cc:17-26 (constructor, trim = true) *)
Definition trim (v : list ascii) : list ascii :=
  let st := lskipws v 0 (List.length v) in
  let en := rskipws v st (List.length v) in
  if (0 <? st) || (en <? List.length v) then substr v st (en - st) else v.

(** common/ParameterValue.h:123-125 *)
Definition vsubstr (v : list ascii) (st en : nat) : list ascii := trim (substr v st (en - st)).

(** common/ParameterValue.cc:48, 112, 138 *)
Definition is_quote (c : ascii) : bool := Ascii.eqb c "'" || Ascii.eqb c """".

(** Counters of parentheses, brackets and braces *)
(** common/ParameterValue.cc:43-45 *)
Record counts := { npar : Z; nbracket : Z; nbrace : Z }.

(** common/ParameterValue.cc:51-66, 73-74: the effect of one unquoted character on the counters *)
Definition count_char (c : ascii) (n : counts) : option counts :=
  let r :=
    if Ascii.eqb c "(" then Some {| npar := npar n + 1; nbracket := nbracket n; nbrace := nbrace n |}
    else if Ascii.eqb c ")" then Some {| npar := npar n - 1; nbracket := nbracket n; nbrace := nbrace n |}
    else if Ascii.eqb c "[" then
      if negb (npar n =? 0)%Z then None else Some {| npar := npar n; nbracket := nbracket n + 1; nbrace := nbrace n |}
    else if Ascii.eqb c "]" then Some {| npar := npar n; nbracket := nbracket n - 1; nbrace := nbrace n |}
    else if Ascii.eqb c "{" then
      if negb (npar n =? 0)%Z then None else Some {| npar := npar n; nbracket := nbracket n; nbrace := nbrace n + 1 |}
    else if Ascii.eqb c "}" then Some {| npar := npar n; nbracket := nbracket n; nbrace := nbrace n - 1 |}
    else Some n in
  match r with
  | None => None
  | Some m => if (npar m <? 0)%Z || (nbracket m <? 0)%Z || (nbrace m <? 0)%Z then None else Some m
  end.

(** common/ParameterValue.cc:67-68: is this a comma that ends an element? *)
Definition splits (c : ascii) (n : counts) : bool :=
  Ascii.eqb c "," && (npar n + nbracket n + nbrace n =? 0)%Z.

(** common/ParameterValue.cc:46-80; the first argument is fuel, last - i *)
Fixpoint split_loop (fuel : nat) (v : list ascii) (last i st : nat) (n : counts) (acc : list (list ascii)) : option (list (list ascii)) :=
  match fuel with
  | 0 => None
  | S f =>
    if i <? last then
      if is_quote (at_ v i) then
        match skip_quoted v i with
        | None => None
        | Some j => split_loop f v last j st n acc
        end
      else match count_char (at_ v i) n with
           | None => None
           | Some m => if splits (at_ v i) n then split_loop f v last (i + 1) (i + 1) m (acc ++ [vsubstr v st i])
                       else split_loop f v last (i + 1) st m acc
           end
    else if negb (npar n =? 0)%Z || negb (nbracket n =? 0)%Z || negb (nbrace n =? 0)%Z then None
    else Some (acc ++ [vsubstr v st last])
  end.

(** common/ParameterValue.cc:32-82 (splitValue) *)
Definition split_value (v : list ascii) (st0 last : nat) : option (list (list ascii)) :=
  let st := lskipws v st0 last in
  if st =? last then Some [] else split_loop (S (last - st)) v last st st {| npar := 0; nbracket := 0; nbrace := 0 |} [].

(** common/ParameterValue.cc:84-99 (getVector) *)
Definition get_vector (v : list ascii) : option (list (list ascii)) :=
  match v with
  | [] => Some []
  | _ =>
    let last := List.length v - 1 in
    if negb (Ascii.eqb (at_ v 0) "[" && Ascii.eqb (at_ v last) "]") then Some [v]
    else if List.length v <? 2 then None
    else split_value v 1 last
  end.

(** common/ParameterValue.cc:131-157 (getString): remove the quotes; the fuel is end - pos *)
Fixpoint unquote_loop (fuel : nat) (v : list ascii) (pos stv : nat) (acc : list ascii) : option (list ascii) :=
  match fuel with
  | 0 => None
  | S f =>
    if pos <? List.length v then
      if is_quote (at_ v pos) then
        let acc1 := if stv <? pos then acc ++ substr v stv (pos - stv) else acc in
        match skip_quoted v pos with
        | None => None
        | Some p => unquote_loop f v p p (acc1 ++ substr v (pos + 1) (p - (pos + 1) - 1))
        end
      else unquote_loop f v (pos + 1) stv acc
    else Some (if stv <? List.length v then acc ++ substr v stv (List.length v - stv) else acc)
  end.
(** common/ParameterValue.cc:131-157 (getString) *)
Definition get_string (v : list ascii) : option (list ascii) := unquote_loop (S (List.length v)) v 0 0 [].

(** common/ParameterValue.cc:110-127: one name:value pair of a record *)
Definition record_pair (v : list ascii) : option (list ascii * list ascii) :=
  match (if is_quote (at_ v 0) then skip_quoted v 0 else Some 0) with
  | None => None
  | Some st => match find_from ":" v st with
               | None => None
               | Some pos => match get_string (trim (firstn pos v)) with
                             | None => None
                             | Some name => Some (name, trim (skipn (pos + 1) v))
                             end
               end
  end.

(** common/ParameterValue.cc:110-127: the loop over the elements; an exception ends it *)
Fixpoint opt_map {A B} (f : A -> option B) (l : list A) : option (list B) :=
  match l with
  | [] => Some []
  | x :: r => match f x, opt_map f r with Some y, Some ys => Some (y :: ys) | _, _ => None end
  end.

(** common/ParameterValue.cc:101-129 (getRecord); the pairs that are added, in order.
    Adding a name twice throws (ParameterSetImpl.cc add), which is not in this model. *)
Definition get_record (v : list ascii) : option (list (list ascii * list ascii)) :=
  let last := List.length v - 1 in
  if (List.length v <? 2) || negb (Ascii.eqb (at_ v 0) "{") || negb (Ascii.eqb (at_ v last) "}") then None
  else match split_value v 1 last with
       | None => None
       | Some vs => opt_map record_pair vs
       end.
