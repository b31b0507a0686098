(** Model of the set expressions of steps/PreFlagger.cc. *)
From Coq Require Import List Bool Arith Ascii String ZArith.
Import ListNotations.
Open Scope nat_scope.

(** * Splitting the expression into tokens (PreFlagger.cc:820-921) *)

(** PreFlagger.cc:834-921: the cases of the scan *)
Inductive token := TName (s : list ascii) | TOr | TAnd | TNot | TOpen | TClose.

(** boost::to_upper_copy on ASCII. *)
(** PreFlagger.cc:825: boost::to_upper_copy *)
Definition upper (c : ascii) : ascii :=
  let n := nat_of_ascii c in
  if (97 <=? n) && (n <=? 122) then ascii_of_nat (n - 32) else c.

(** PreFlagger.cc:834-930: text constants, as lists of characters *)
Definition chars (s : string) : list ascii := list_ascii_of_string s.

(** PreFlagger.cc:834: blank or tab *)
Definition is_blank (c : ascii) : bool := Ascii.eqb c " "%char || Ascii.eqb c "009"%char.

(** PreFlagger.cc:908-910: the characters that end a name. *)
Definition ends_name (c : ascii) : bool :=
  is_blank c || Ascii.eqb c "("%char || Ascii.eqb c ")"%char || Ascii.eqb c "!"%char
  || Ascii.eqb c ","%char || Ascii.eqb c "&"%char || Ascii.eqb c "|"%char.

(** PreFlagger.cc:903-912: the name up to an ending character *)
Fixpoint take_name (s : list ascii) : list ascii * list ascii :=
  match s with
  | [] => ([], [])
  | c :: r => if ends_name c then ([], s) else let '(n, r') := take_name r in (c :: n, r')
  end.

(** casacore::RXidentifier: [A-Za-z_][A-Za-z0-9_]* *)
Definition is_letter (c : ascii) : bool :=
  let n := nat_of_ascii c in
  ((65 <=? n) && (n <=? 90)) || ((97 <=? n) && (n <=? 122)) || (n =? 95).
(** casacore::RXidentifier, PreFlagger.cc:917 *)
Definition is_digit (c : ascii) : bool := let n := nat_of_ascii c in (48 <=? n) && (n <=? 57).
(** PreFlagger.cc:917: RXidentifier *)
Definition is_identifier (s : list ascii) : bool :=
  match s with [] => false | c :: r => is_letter c && forallb (fun c => is_letter c || is_digit c) r end.

(** PreFlagger.cc:858-881: the word [w] followed by one of [ends] or the end of
    the expression; [s] is the rest of the expression. *)
Definition word_here (w ends s : list ascii) : bool :=
  let n := List.length w in
  if list_eq_dec ascii_dec (map upper (firstn n s)) w then
    match skipn n s with [] => true | c :: _ => existsb (Ascii.eqb c) ends end
  else false.

(** PreFlagger.cc:834-921: one round of the scan *)
Definition lex_step (s : list ascii) : option (option token * list ascii) :=
  match s with
  | [] => None
  | c :: r =>
    if is_blank c then Some (None, r)
    else if Ascii.eqb c "("%char then Some (Some TOpen, r)
    else if Ascii.eqb c "|"%char then
      Some (Some TOr, match r with c' :: r' => if Ascii.eqb c' "|"%char then r' else r | [] => r end)
    else if Ascii.eqb c ","%char then Some (Some TOr, r)
    else if Ascii.eqb c "&"%char then
      Some (Some TAnd, match r with c' :: r' => if Ascii.eqb c' "&"%char then r' else r | [] => r end)
    else if Ascii.eqb c "!"%char then Some (Some TNot, r)
    else if word_here (chars "OR") [" "%char; "009"%char; "!"%char; "("%char] s then Some (Some TOr, skipn 2 s)
    else if word_here (chars "AND") [" "%char; "009"%char; "!"%char; "("%char] s then Some (Some TAnd, skipn 3 s)
    else if word_here (chars "NOT") [" "%char; "009"%char; "("%char] s then Some (Some TNot, skipn 3 s)
    else if Ascii.eqb c ")"%char then Some (Some TClose, r)
    else let '(n, r') := take_name s in
         if is_identifier n then Some (Some (TName n), r') else None
  end.

(** [None]: an exception (invalid set name). *)
(** PreFlagger.cc:830-921: the loop over the expression *)
Fixpoint lex (fuel : nat) (s : list ascii) : option (list token) :=
  match s with
  | [] => Some []
  | _ =>
    match fuel with
    | O => None
    | S fuel' =>
      match lex_step s with
      | None => None
      | Some (t, r) =>
        match lex fuel' r with
        | None => None
        | Some ts => Some (match t with None => ts | Some t => t :: ts end)
        end
      end
    end
  end.

(** PreFlagger.cc:820-921 *)
Definition tokens (s : list ascii) : option (list token) := lex (List.length s) s.

(** * Conversion to reverse Polish notation (PreFlagger.cc:820-955) *)

(** PreFlagger.h:105: OpParen = -1, OpOr = -2, OpAnd = -3, OpNot = -4. *)
Inductive oper := OpParen | OpOr | OpAnd | OpNot.
(** PreFlagger.h:105 *)
Definition oper_value (o : oper) : Z := match o with OpParen => -1 | OpOr => -2 | OpAnd => -3 | OpNot => -4 end.
(** PreFlagger.cc:937: comparison of the enum values *)
Definition oper_ltb (a b : oper) : bool := (oper_value a <? oper_value b)%Z.

(** An element of itsRpn: a non-negative number of a set or an operator. *)
(** PreFlagger.h:267: itsRpn *)
Inductive ritem := RSet (i : nat) | ROp (o : oper).

(** itsRpn, the operator stack (top first), the names and hadName. *)
(** PreFlagger.cc:825-829: the variables of exprToRpn *)
Record pstate := MkPstate { q_rpn : list ritem; q_stack : list oper; q_names : list (list ascii); q_had : bool }.

(** PreFlagger.cc:936-941: move operators of higher precedence to the output. *)
Fixpoint pop_higher (o : oper) (stack : list oper) (rpn : list ritem) : list ritem * list oper :=
  match stack with
  | t :: r => if oper_ltb t o then pop_higher o r (rpn ++ [ROp t]) else (rpn, stack)
  | [] => (rpn, [])
  end.

(** PreFlagger.cc:888-899: pop up to the opening parenthesis. *)
Fixpoint pop_paren (stack : list oper) (rpn : list ritem) : option (list ritem * list oper) :=
  match stack with
  | [] => None
  | OpParen :: r => Some (rpn, r)
  | t :: r => pop_paren r (rpn ++ [ROp t])
  end.

(** PreFlagger.cc:935-941 *)
Definition push_oper (s : pstate) (o : oper) : pstate :=
  let '(rpn, st) := pop_higher o (q_stack s) (q_rpn s) in
  MkPstate rpn (o :: st) (q_names s) false.

(** One round of the loop; [None]: an exception. *)
(** PreFlagger.cc:831-942: one round *)
Definition parse_step (s : pstate) (t : token) : option pstate :=
  match t with
  | TOpen => if q_had s then None else Some (MkPstate (q_rpn s) (OpParen :: q_stack s) (q_names s) (q_had s))
  | TOr => if q_had s then Some (push_oper s OpOr) else None
  | TAnd => if q_had s then Some (push_oper s OpAnd) else None
  | TNot => if q_had s then None else Some (push_oper s OpNot)
  | TClose =>
    if q_had s then
      match pop_paren (q_stack s) (q_rpn s) with
      | None => None
      | Some (rpn, st) => Some (MkPstate rpn st (q_names s) (q_had s))
      end
    else None
  | TName n =>
    if q_had s then None
    else Some (MkPstate (q_rpn s ++ [RSet (List.length (q_names s))]) (q_stack s) (q_names s ++ [n]) true)
  end.

(** PreFlagger.cc:830-943: the loop *)
Fixpoint parse_loop (s : pstate) (ts : list token) : option pstate :=
  match ts with
  | [] => Some s
  | t :: r => match parse_step s t with None => None | Some s' => parse_loop s' r end
  end.

(** PreFlagger.cc:947-953: the operators left at the end. *)
Fixpoint pop_all (stack : list oper) (rpn : list ritem) : option (list ritem) :=
  match stack with
  | [] => Some rpn
  | OpParen :: _ => None
  | t :: r => pop_all r (rpn ++ [ROp t])
  end.

(** PreFlagger.cc:825-829 *)
Definition pinit : pstate := MkPstate [] [] [] false.

(** PreFlagger.cc:830-954 *)
Definition parse (ts : list token) : option (list ritem * list (list ascii)) :=
  match parse_loop pinit ts with
  | None => None
  | Some s =>
    if q_had s then match pop_all (q_stack s) (q_rpn s) with None => None | Some rpn => Some (rpn, q_names s) end
    else None
  end.

(** The whole of exprToRpn. *)
(** PreFlagger.cc:820-955 (exprToRpn) *)
Definition expr_to_rpn (s : list ascii) : option (list ritem * list (list ascii)) :=
  match tokens s with None => None | Some ts => parse ts end.

(** * Evaluation (PreFlagger.cc:533-561) *)

(** [F] is the type of flag arrays; [None]: exception or access to an empty stack. *)
Section Eval.
Variable F : Type.
Variables (fnot : F -> F) (fand for_ : F -> F -> F) (sets : nat -> F).

(** PreFlagger.cc:535-553 *)
Fixpoint eval_rpn (rpn : list ritem) (st : list F) : option (list F) :=
  match rpn with
  | [] => Some st
  | RSet i :: r => eval_rpn r (sets i :: st)
  | ROp OpNot :: r => match st with x :: st' => eval_rpn r (fnot x :: st') | [] => None end
  | ROp OpOr :: r => match st with x :: y :: st' => eval_rpn r (for_ y x :: st') | _ => None end
  | ROp OpAnd :: r => match st with x :: y :: st' => eval_rpn r (fand y x :: st') | _ => None end
  | ROp OpParen :: _ => None
  end.

(** PreFlagger.cc:533-561 *)
Definition eval_expr (rpn : list ritem) : option F :=
  match eval_rpn rpn [] with Some [x] => Some x | _ => None end.
End Eval.
Arguments eval_rpn {F}. Arguments eval_expr {F}.
