(** Model of the patterns of names (common/StringTools.cc, PatternToRegex) and of values per station
    (common/ValuePerStationParsing.h). *)
From Coq Require Import Ascii String List Bool Arith ZArith.
From Verif Require Import StrModel SplitModel InfoModel.
Import ListNotations.
Open Scope nat_scope.

(** std::regex_replace of a single character *)
(** common/StringTools.cc:551-557 *)
Definition replace_char (c : ascii) (by_ : list ascii) (s : list ascii) : list ascii :=
  flat_map (fun x => if Ascii.eqb x c then by_ else [x]) s.
(** common/StringTools.cc:548-560 (PatternToRegex) *)
Definition pattern_to_regex (pattern : list ascii) : list ascii :=
  let s := replace_char "." ["\"; "."]%char pattern in
  let s := replace_char "*" ["."; "*"]%char s in
  replace_char "?" ["."]%char s.

(** * std::regex: the part that is needed here.  A regular expression is a list of characters, each one with a possible
    repetition. *)
(** common/ValuePerStationParsing.h:40-42 *)
Inductive atom := Lit (c : ascii) | Any.
(** common/ValuePerStationParsing.h:40-42 *)
Inductive item := One (a : atom) | Star (a : atom) | Plus (a : atom).
(** common/ValuePerStationParsing.h:40: characters with a meaning in a regular expression *)
Definition special (c : ascii) : bool := existsb (Ascii.eqb c) ["\"; "."; "*"; "+"; "?"; "^"; "$"; "("; ")"; "["; "]"; "{"; "}"; "|"]%char.
(** common/ValuePerStationParsing.h:40: the repetition after an atom *)
Definition repetition (a : atom) (s : list ascii) : item * bool :=
  match s with
  | c :: _ => if Ascii.eqb c "*" then (Star a, true) else if Ascii.eqb c "+" then (Plus a, true) else (One a, false)
  | [] => (One a, false)
  end.
(** common/ValuePerStationParsing.h:40: [None]: an expression that is not in this model; the fuel is the length *)
Fixpoint parse_regex (fuel : nat) (s : list ascii) : option (list item) :=
  match fuel with
  | O => match s with [] => Some [] | _ => None end
  | S f =>
    let continue a rest :=
      let (i, skip) := repetition a rest in
      option_map (cons i) (parse_regex f (if skip then tl rest else rest)) in
    match s with
    | [] => Some []
    | c :: rest =>
      if Ascii.eqb c "\" then
        match rest with
        | d :: rest => if special d then continue (Lit d) rest else None
        | [] => None
        end
      else if Ascii.eqb c "." then continue Any rest
      else if special c then None
      else continue (Lit c) rest
    end
  end.
(** common/ValuePerStationParsing.h:42: any character but the end of a line *)
Definition atom_matches (a : atom) (c : ascii) : bool :=
  match a with Lit d => Ascii.eqb c d | Any => negb (Ascii.eqb c (ascii_of_nat 10) || Ascii.eqb c (ascii_of_nat 13)) end.
(** common/ValuePerStationParsing.h:42 (std::regex_match): the whole name *)
Fixpoint regex_match (items : list item) (s : list ascii) : bool :=
  let star (a : atom) (rest : list item) := (fix star (s : list ascii) : bool :=
    regex_match rest s || match s with c :: s' => atom_matches a c && star s' | [] => false end) in
  match items with
  | [] => match s with [] => true | _ => false end
  | One a :: rest => match s with c :: s' => atom_matches a c && regex_match rest s' | [] => false end
  | Star a :: rest => star a rest s
  | Plus a :: rest => match s with c :: s' => atom_matches a c && star a rest s' | [] => false end
  end.
(** common/ValuePerStationParsing.h:40-42: [None]: an expression that is not in this model, or is refused *)
Definition name_matches (pattern name : list ascii) : option bool :=
  let r := pattern_to_regex pattern in option_map (fun items => regex_match items name) (parse_regex (List.length r) r).

(** * Values per station *)
Section Values.
(** Whether a name matches a pattern; [None]: exception *)
Variable matches : list ascii -> list ascii -> option bool.
Variable V : Type.
(** The value of a text (operator>> of a stream); texts that are no value also give one *)
Variable parse_value : list ascii -> V.

(** common/ParameterValue.cc:280-289 (getStringVector) *)
Definition get_string_vector (v : list ascii) : option (list (list ascii)) :=
  match get_vector v with Some l => opt_map get_string l | None => None end.

(** common/ValuePerStationParsing.h:39-47: set the stations that match *)
Definition set_selected (new_value : bool) (pattern : list ascii) (names : list (list ascii)) (selected : list bool) : option (list bool) :=
  opt_map (fun p : list ascii * bool => option_map (fun m : bool => if m then new_value else snd p) (matches pattern (fst p))) (combine names selected).
(** common/ValuePerStationParsing.h:48-52: [true] if it is a pattern of stations to leave out *)
Definition negated (pattern : list ascii) : bool * list ascii :=
  match pattern with
  | c :: (_ :: _) as rest => if Ascii.eqb c "!" || Ascii.eqb c "^" then (true, tl pattern) else (false, pattern)
  | _ => (false, pattern)
  end.
(** common/ValuePerStationParsing.h:37-57: the stations of a list of patterns *)
Fixpoint select (patterns : list (list ascii)) (names : list (list ascii)) (selected : list bool) : option (list bool) :=
  match patterns with
  | [] => Some selected
  | p :: rest =>
    let (neg, p) := negated p in
    match set_selected (negb neg) p names selected with Some s => select rest names s | None => None end
  end.
(** common/ValuePerStationParsing.h:27-61 (AssignStationValues); [None]: exception *)
Definition assign_values (result : list V) (value : V) (pattern : list ascii) (names : list (list ascii)) : option (list V) :=
  match get_string_vector pattern with
  | None => None
  | Some patterns =>
    option_map (fun s => map (fun p : bool * V => if fst p then value else snd p) (combine s result))
      (select patterns names (repeat false (List.length names)))
  end.
(** common/ValuePerStationParsing.h:79-101 (ParseValuePerStation); [None]: exception *)
Fixpoint parse_values (items : list (list ascii)) (names : list (list ascii)) (result : list V) : option (list V) :=
  match items with
  | [] => Some result
  | item :: rest =>
    match find_from ":" item 0 with
    | None => None
    | Some colon =>
      match assign_values result (parse_value (skipn (colon + 1) item)) (firstn colon item) names with
      | None => None
      | Some r => parse_values rest names r
      end
    end
  end.
End Values.
Arguments assign_values matches {V}. Arguments parse_values matches {V}.

(** common/ValuePerStationParsing.h:93-95: operator>> of a stream for a size_t: white space, a sign and digits; zero if there are
    none, the largest value if it does not fit, and modulo 2^64 with a minus sign.  What follows is not looked at. *)
Fixpoint digits (acc : Z) (s : list ascii) : Z :=
  match s with
  | c :: s => if isdigit c then digits (acc * 10 + (Z.of_nat (code c) - 48)) s else acc
  | [] => acc
  end.
(** common/ValuePerStationParsing.h:93-95 *)
Definition stream_size (s : list ascii) : Z :=
  let fix skip (s : list ascii) := match s with c :: r => if isspace c then skip r else s | [] => [] end in
  let limit z := Z.min z (2 ^ 64 - 1) in
  match skip s with
  | c :: r => if Ascii.eqb c "-" then (if (digits 0 r <? 2 ^ 64)%Z then (- digits 0 r) mod 2 ^ 64 else 2 ^ 64 - 1)%Z
              else if Ascii.eqb c "+" then limit (digits 0 r) else limit (digits 0 (c :: r))
  | [] => 0%Z
  end.
