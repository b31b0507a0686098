(** What patterns of names and values per station mean. *)
From Coq Require Import Ascii String List Bool.
Import ListNotations.

(** A pattern: [*] is any text, [?] any character, other characters are themselves *)
Inductive glob : list ascii -> list ascii -> Prop :=
| glob_nil : glob [] []
| glob_star_none p s : glob p s -> glob ("*"%char :: p) s
| glob_star_more p c s : glob ("*"%char :: p) s -> glob ("*"%char :: p) (c :: s)
| glob_any p c s : glob p s -> glob ("?"%char :: p) (c :: s)
| glob_same c p s : c <> "*"%char -> c <> "?"%char -> glob p s -> glob (c :: p) (c :: s).

(** Letters, digits and so on: what has no meaning in a regular expression, and the three that are replaced *)
Definition plain_char (c : ascii) : Prop := ~ In c ["\"; "+"; "^"; "$"; "("; ")"; "["; "]"; "{"; "}"; "|"]%char.
Definition one_line (s : list ascii) : Prop := ~ In (ascii_of_nat 10) s /\ ~ In (ascii_of_nat 13) s.

Section Values.
Variable matches : list ascii -> list ascii -> bool.
(** A pattern that starts with [!] or [^] is for stations to leave out *)
Definition leaves_out (p : list ascii) : option (list ascii) :=
  match p with
  | ("!" | "^")%char :: (c :: rest) => Some (c :: rest)
  | _ => None
  end.
Definition body (p : list ascii) : list ascii := match leaves_out p with Some b => b | None => p end.
(** The last pattern that matches decides *)
Definition picked (patterns : list (list ascii)) (name : list ascii) : bool :=
  match find (fun p => matches (body p) name) (rev patterns) with
  | Some p => match leaves_out p with Some _ => false | None => true end
  | None => false
  end.
(** The last item that picks the station decides *)
Definition station_value {V} (items : list (list (list ascii) * V)) (name : list ascii) (default : V) : V :=
  match find (fun i => picked (fst i) name) (rev items) with Some i => snd i | None => default end.
End Values.
