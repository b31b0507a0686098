(** The elements of a list value. *)
From Coq Require Import List Bool Arith ZArith Ascii String.
From Verif Require Import NumParseSpec.
Import ListNotations.
Open Scope nat_scope.

(** A text is read as a row of quoted strings and single other characters. *)
Inductive tok : Type :=
| plain (c : ascii)
| quoted (q : ascii) (body : list ascii).

Definition tok_text (t : tok) : list ascii :=
  match t with plain c => [c] | quoted q b => q :: b ++ [q] end.
Definition text (ts : list tok) : list ascii := flat_map tok_text ts.
Definition good_tok (t : tok) : Prop :=
  match t with
  | plain c => c <> "'"%char /\ c <> """"%char
  | quoted q b => In q ["'"; """"]%char /\ ~ In q b
  end.

(** Number of opening minus closing characters outside quotes. *)
Definition depth1 (o c : ascii) (t : tok) : Z :=
  match t with plain x => if Ascii.eqb x o then 1 else if Ascii.eqb x c then -1 else 0 | quoted _ _ => 0 end.
Definition depth (o c : ascii) (ts : list tok) : Z := fold_right (fun t a => (depth1 o c t + a)%Z) 0%Z ts.
Definition par := depth "(" ")".
Definition bracket := depth "[" "]".
Definition brace := depth "{" "}".

(** An element: everything opened is closed, nothing is closed that was not opened,
    no bracket or brace opens inside parentheses, and all its commas are inside something. *)
Record element (ts : list tok) : Prop := {
  el_good : Forall good_tok ts;
  el_end : par ts = 0%Z /\ bracket ts = 0%Z /\ brace ts = 0%Z;
  el_pre : forall a b, ts = a ++ b -> (0 <= par a /\ 0 <= bracket a /\ 0 <= brace a)%Z;
  el_open : forall a c b, ts = a ++ plain c :: b -> In c ["["; "{"]%char -> par a = 0%Z;
  el_comma : forall a b, ts = a ++ plain ","%char :: b -> (0 < par a + bracket a + brace a)%Z
}.

(** [join] puts commas between elements. *)
Fixpoint join (es : list (list tok)) : list tok :=
  match es with
  | [] => []
  | [e] => e
  | e :: r => e ++ plain ","%char :: join r
  end.

(** [t] is [s] without leading and trailing blanks. *)
Definition trimmed (s t : list ascii) : Prop :=
  (exists a b, s = a ++ t ++ b /\ blank a /\ blank b) /\
  (forall c r, t = c :: r -> ~ blank [c]) /\ (forall c r, t = r ++ [c] -> ~ blank [c]).

(** The elements of a text. *)
Definition elements (s : list ascii) (r : list (list ascii)) : Prop :=
  (blank s /\ r = []) \/
  (~ blank s /\ exists es, es <> [] /\ text (join es) = s /\ Forall element es /\ Forall2 (fun e x => trimmed (text e) x) es r).

(** Properly nested texts: the usual grammar. *)
Inductive nested : list tok -> Prop :=          (* inside [] or {} *)
| n_nil : nested []
| n_char c ts : ~ In c (list_ascii_of_string "()[]{}'""") -> nested ts -> nested (plain c :: ts)
| n_quoted q b ts : In q ["'"; """"]%char -> ~ In q b -> nested ts -> nested (quoted q b :: ts)
| n_par a ts : flat a -> nested ts -> nested (plain "(" :: a ++ plain ")" :: ts)
| n_bracket a ts : nested a -> nested ts -> nested (plain "[" :: a ++ plain "]" :: ts)
| n_brace a ts : nested a -> nested ts -> nested (plain "{" :: a ++ plain "}" :: ts)
with flat : list tok -> Prop :=                 (* inside () *)
| f_nil : flat []
| f_char c ts : ~ In c (list_ascii_of_string "()[]{}'""") -> flat ts -> flat (plain c :: ts)
| f_quoted q b ts : In q ["'"; """"]%char -> ~ In q b -> flat ts -> flat (quoted q b :: ts)
| f_par a ts : flat a -> flat ts -> flat (plain "(" :: a ++ plain ")" :: ts).

(** The text without the quotes that protect its parts. *)
Definition unquoted (ts : list tok) : list ascii := flat_map (fun t => match t with plain c => [c] | quoted _ b => b end) ts.
