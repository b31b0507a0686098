(** Boolean expressions over named sets. *)
From Coq Require Import List Bool Arith Ascii String.
From Verif Require Import FlagExprModel.
Import ListNotations.

Inductive bexp := BName (s : list ascii) | BNot (e : bexp) | BAnd (a b : bexp) | BOr (a b : bexp).

Fixpoint beval (env : list ascii -> bool) (e : bexp) : bool :=
  match e with
  | BName s => env s
  | BNot e => negb (beval env e)
  | BAnd a b => beval env a && beval env b
  | BOr a b => beval env a || beval env b
  end.

(** The grammar, in order of precedence. *)
Inductive prim : list token -> bexp -> Prop :=
| prim_name s : prim [TName s] (BName s)
| prim_paren ts e : disj ts e -> prim (TOpen :: ts ++ [TClose]) e
with unary : list token -> bexp -> Prop :=
| unary_prim ts e : prim ts e -> unary ts e
| unary_not ts e : unary ts e -> unary (TNot :: ts) (BNot e)
with conj : list token -> bexp -> Prop :=
| conj_unary ts e : unary ts e -> conj ts e
| conj_and ts e us f : conj ts e -> unary us f -> conj (ts ++ TAnd :: us) (BAnd e f)
with disj : list token -> bexp -> Prop :=
| disj_conj ts e : conj ts e -> disj ts e
| disj_or ts e us f : disj ts e -> conj us f -> disj (ts ++ TOr :: us) (BOr e f).

(** How a token may be written; words in any case. *)
Definition same_word (w s : list ascii) : Prop := map upper s = w.

Inductive spelling : token -> list ascii -> Prop :=
| sp_open : spelling TOpen (chars "(")
| sp_close : spelling TClose (chars ")")
| sp_or1 : spelling TOr (chars "|")
| sp_or2 : spelling TOr (chars "||")
| sp_or3 : spelling TOr (chars ",")
| sp_or4 s : same_word (chars "OR") s -> spelling TOr s
| sp_and1 : spelling TAnd (chars "&")
| sp_and2 : spelling TAnd (chars "&&")
| sp_and3 s : same_word (chars "AND") s -> spelling TAnd s
| sp_not1 : spelling TNot (chars "!")
| sp_not2 s : same_word (chars "NOT") s -> spelling TNot s
| sp_name s : is_identifier s = true ->
    ~ same_word (chars "OR") s -> ~ same_word (chars "AND") s -> ~ same_word (chars "NOT") s -> spelling (TName s) s.

(** A character that may follow a spelling without a blank in between. *)
Definition operator_word (s : list ascii) : Prop :=
  same_word (chars "OR") s \/ same_word (chars "AND") s \/ same_word (chars "NOT") s.

Inductive may_touch : list ascii -> ascii -> Prop :=
| mt_blank s c : c = " "%char \/ c = "009"%char -> may_touch s c
| mt_symbol s c : In s (map chars ["("; ")"; ","; "!"; "||"; "&&"]%string) -> may_touch s c
| mt_bar c : c <> "|"%char -> may_touch (chars "|") c
| mt_amp c : c <> "&"%char -> may_touch (chars "&") c
| mt_word_open s : operator_word s -> may_touch s "("%char
| mt_word_not s : same_word (chars "OR") s \/ same_word (chars "AND") s -> may_touch s "!"%char
| mt_name s c : is_identifier s = true -> ~ operator_word s -> In c (chars "()!,&|") -> may_touch s c.

(** Tokens written one after another with blanks where they are needed. *)
Inductive written : list token -> list ascii -> Prop :=
| wr_nil : written [] []
| wr_cons t ts s blanks r : spelling t s -> Forall (fun c => c = " "%char \/ c = "009"%char) blanks ->
    match blanks ++ r with [] => True | c :: _ => may_touch s c end ->
    written ts r -> written (t :: ts) (s ++ blanks ++ r).

(** Blanks before the first token. *)
Definition expression (ts : list token) (s : list ascii) : Prop :=
  exists blanks r, s = blanks ++ r /\ Forall (fun c => c = " "%char \/ c = "009"%char) blanks /\ written ts r.

Fixpoint names_of (ts : list token) : list (list ascii) :=
  match ts with [] => [] | TName s :: r => s :: names_of r | _ :: r => names_of r end.
