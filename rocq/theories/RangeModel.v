(** Model of the expansion of number ranges in texts (common/StringTools.cc). *)
From Coq Require Import List Bool Arith ZArith Ascii String.
From Verif Require Import StrModel NumParseModel.
Import ListNotations.
Open Scope nat_scope.

(** The loops over a class of characters, forwards up to the end of the text (348-350, 355-359)
    and backwards down to its start (319-321, 329-334): the position where they stop.
    The C++ code keeps the position before that one, which may be -1; here it is the position itself. *)
(** common/StringTools.cc:348-350, 355-359 *)
Fixpoint fwd_loop (fuel : nat) (p : ascii -> bool) (s : list ascii) (i : nat) : nat :=
  match fuel with
  | O => i
  | S f => if (i <? List.length s) && p (at_ s i) then fwd_loop f p s (S i) else i
  end.
(** common/StringTools.cc:348-350, 355-359 *)
Definition fwd (p : ascii -> bool) (s : list ascii) (i : nat) : nat := fwd_loop (List.length s - i) p s i.
(** common/StringTools.cc:319-321, 329-334 *)
Fixpoint bwd (p : ascii -> bool) (s : list ascii) (i : nat) : nat :=
  match i with
  | O => O
  | S j => if p (at_ s j) then bwd p s j else i
  end.

(** common/StringTools.cc:329-331 and 355-357: the characters a prefix and a suffix can have *)
Definition is_in (l : list ascii) (c : ascii) : bool := existsb (Ascii.eqb c) l.
(** common/StringTools.cc:329-331 *)
Definition prefix_char (c : ascii) : bool := negb (is_in ["("; "["; ","; ";"; "*"; " "; "009"]%char c).
(** common/StringTools.cc:355-357 *)
Definition suffix_char (c : ascii) : bool := negb (is_in [")"; "]"; ","; ";"; "*"; " "; "009"]%char c).

(** operator<<(ostream, int) for a number that is not negative, with setfill('0') and setw(width);
    ten digits are enough for an int *)
(** common/StringTools.cc:372-385: operator<< *)
Definition digit_char (d : Z) : ascii := ascii_of_nat (48 + Z.to_nat d).
(** common/StringTools.cc:372-385: operator<< *)
Fixpoint show_loop (fuel : nat) (n : Z) (acc : list ascii) : list ascii :=
  match fuel with
  | O => acc
  | S f => let acc := digit_char (n mod 10) :: acc in if (n / 10 =? 0)%Z then acc else show_loop f (n / 10)%Z acc
  end.
(** common/StringTools.cc:372-385: operator<< with setfill and setw *)
Definition show (width : nat) (n : Z) : list ascii :=
  let d := show_loop 10 n [] in repeat "0"%char (width - List.length d) ++ d.

(** common/StringTools.cc:372-385: the loops writing the numbers; [step] is 1 or -1 and [count] is the
    number of iterations *)
Fixpoint fill (count : nat) (step : Z) (pre suf : list ascii) (width : nat) (num : Z) : list ascii :=
  match count with
  | O => []
  | S n => pre ++ show width num ++ suf ++ (match n with O => [] | S _ => ","%char :: fill n step pre suf width (num + step) end)
  end.

(** common/StringTools.cc:306-396: how an iteration ends *)
Inductive progress : Type :=
| Next (s : list ascii) (i : nat)   (* the next iteration *)
| Failed                            (* an exception *)
| Overflow.                         (* signed overflow of the loop counter *)

(** common/StringTools.cc:342: equality of texts *)
Definition text_eqb (a b : list ascii) : bool := if list_eq_dec ascii_dec a b then true else false.

(** common/StringTools.cc:363-370 *)
Definition braces (pre suf : list ascii) : list ascii * list ascii :=
  match suf with
  | c :: r => if (0 <? List.length pre) && Ascii.eqb (at_ pre (List.length pre - 1)) "{" && Ascii.eqb c "}"
              then (firstn (List.length pre - 1) pre, r) else (pre, suf)
  | [] => (pre, suf)
  end.

(** common/StringTools.cc:306-396: one iteration of the outer loop.  [last] is the length of the text. *)
Definition expand_step (s : list ascii) (i : nat) : progress :=
  if Ascii.eqb (at_ s i) "'" || Ascii.eqb (at_ s i) """" then
    match find_from (at_ s i) s (S i) with None => Failed | Some p => Next s (S p) end
  else if Ascii.eqb (at_ s i) "." && Ascii.eqb (at_ s (S i)) "." then
    let last := List.length s in
    let endnum := rskipws s 0 i in
    let stnum := bwd isdigit s endnum in
    let lennum := endnum - stnum in
    if lennum =? 0 then Next s (S i)
    else match str_to_int (substr s stnum lennum) with
    | None => Failed
    | Some num =>
      let stalp := bwd prefix_char s stnum in
      let prefix := substr s stalp (stnum - stalp) in
      let i1 := lskipws s (i + 2) last in
      let i2 := if (0 <? List.length prefix) && (List.length prefix <? last - i1) && text_eqb (substr s i1 (List.length prefix)) prefix
                then i1 + List.length prefix else i1 in
      if isdigit (at_ s i2) then
        let i3 := fwd isdigit s i2 in
        match str_to_int (substr s i2 (i3 - i2)) with
        | None => Failed
        | Some en =>
          let i4 := fwd suffix_char s i3 in
          let '(pre, suf) := braces prefix (substr s i3 (i4 - i3)) in
          if (num <? en)%Z then
            if (en =? 2147483647)%Z then Overflow
            else Next (firstn stalp s ++ fill (Z.to_nat (en - num + 1)) 1 pre suf lennum num ++ skipn i4 s) stalp
          else Next (firstn stalp s ++ fill (Z.to_nat (num - en + 1)) (-1) pre suf lennum num ++ skipn i4 s) stalp
        end
      else Next s (S i2)
    end
  else Next s (S i).

(** common/StringTools.cc:302-398: how the function ends *)
Inductive expanded : Type :=
| Expanded (s : list ascii)
| Expand_failed
| Expand_overflow
| Not_yet.                          (* the given number of iterations is not enough *)

(** common/StringTools.cc:302-398 (expandRangeString), for at most [fuel] iterations *)
Fixpoint expand_loop (fuel : nat) (s : list ascii) (i : nat) : expanded :=
  match fuel with
  | O => Not_yet
  | S f => if S i <? List.length s then
             match expand_step s i with
             | Next s' i' => expand_loop f s' i'
             | Failed => Expand_failed
             | Overflow => Expand_overflow
             end
           else Expanded s
  end.
(** common/StringTools.cc:302-398 (expandRangeString) *)
Definition expand_range_string (fuel : nat) (s : list ascii) : expanded := expand_loop fuel s 0.
