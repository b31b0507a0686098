(** Model of base/FlagCounter.cc: counting flags and the tables shown.  Counts are natural numbers
    (in the code int64_t, below 2^63); vectors of counts are functions of the index. *)
From Coq Require Import List Bool Arith Ascii String.
From Verif Require Import StrModel.
Import ListNotations.
Open Scope nat_scope.

(** base/FlagCounter.h:107-109: the counts per baseline, channel and correlation *)
Record counter := MkCounter { n_bl : nat -> nat; n_ch : nat -> nat; n_corr : nat -> nat }.
(** base/FlagCounter.cc:69-81 (init) *)
Definition zero_counts : counter := MkCounter (fun _ => 0) (fun _ => 0) (fun _ => 0).

(** base/FlagCounter.h:48-55: the increments *)
Inductive event := IncrBaseline (b : nat) | IncrChannel (c : nat) | IncrCorrelation (p : nat).
(** base/FlagCounter.h:49-55: v[i]++ *)
Definition incr (f : nat -> nat) (i : nat) : nat -> nat := fun j => if j =? i then S (f j) else f j.
(** base/FlagCounter.h:48-55 *)
Definition count (s : counter) (e : event) : counter :=
  match e with
  | IncrBaseline b => MkCounter (incr (n_bl s) b) (n_ch s) (n_corr s)
  | IncrChannel c => MkCounter (n_bl s) (incr (n_ch s) c) (n_corr s)
  | IncrCorrelation p => MkCounter (n_bl s) (n_ch s) (incr (n_corr s) p)
  end.
(** base/FlagCounter.cc:83-97 (add), counters of equal sizes *)
Definition add (s t : counter) : counter :=
  MkCounter (fun b => n_bl s b + n_bl t b) (fun c => n_ch s c + n_ch t c) (fun p => n_corr s p + n_corr t p).
(** Not in the code: what one thread counts after init (base/FlagCounter.cc:69-81) *)
Definition run (es : list event) : counter := fold_left count es zero_counts.

(** A baseline as used by the tables: its antennas and count (base/FlagCounter.cc:114-121) *)
Record bline := MkBline { ant1 : nat; ant2 : nat; cnt : nat }.

(** base/FlagCounter.cc:107-121 (showStation) and 160-175 (showBaseline): v[i] += x *)
Definition plus_at (f : nat -> nat) (i x : nat) : nat -> nat := fun j => if j =? i then f j + x else f j.
(** base/FlagCounter.cc:166-175: m(i, j) += x *)
Definition plus_at2 (f : nat -> nat -> nat) (i j x : nat) : nat -> nat -> nat :=
  fun k l => if (k =? i) && (l =? j) then f k l + x else f k l.

(** base/FlagCounter.cc:160-163: the four arrays *)
Record tables := MkTables { used_ant : nat -> nat; count_ant : nat -> nat; used_bl : nat -> nat -> nat; count_bl : nat -> nat -> nat }.
(** base/FlagCounter.cc:164-175 (showBaseline); showStation (114-121) fills the first two arrays in the same way *)
Definition tally (t : tables) (b : bline) : tables :=
  let a := ant1 b in let a' := ant2 b in
  let t1 := MkTables (plus_at (used_ant t) a 1) (plus_at (count_ant t) a (cnt b)) (plus_at2 (used_bl t) a a' 1) (plus_at2 (count_bl t) a a' (cnt b)) in
  if a =? a' then t1
  else MkTables (plus_at (used_ant t1) a' 1) (plus_at (count_ant t1) a' (cnt b)) (plus_at2 (used_bl t1) a' a 1) (plus_at2 (count_bl t1) a' a (cnt b)).
(** base/FlagCounter.cc:160-175 *)
Definition tallies (bs : list bline) : tables :=
  fold_left tally bs (MkTables (fun _ => 0) (fun _ => 0) (fun _ _ => 0) (fun _ _ => 0)).

(** base/FlagCounter.cc:176-182: number of antennas that are used *)
Definition n_used (used : nat -> nat) (nant : nat) : nat :=
  List.length (filter (fun a => 0 <? used a) (seq 0 nant)).

(** base/FlagCounter.cc:195-201, also 207-228: the columns of a line, [n] used antennas from [ant] on, and the next
    antenna.  [fuel] is the number of antennas left; [None]: read beyond the end of the arrays. *)
Fixpoint columns (used : nat -> nat) (fuel n ant : nat) : option (list nat * nat) :=
  match n with
  | O => Some ([], ant)
  | S m =>
    match fuel with
    | O => None
    | S f => if 0 <? used ant then
               match columns used f m (S ant) with Some (cs, a) => Some (ant :: cs, a) | None => None end
             else columns used f n (S ant)
    end
  end.

(** base/FlagCounter.cc:187-244: the columns of all lines, 15 antennas per line; [k] lines are left, [r] used antennas
    are still to be shown *)
Fixpoint lines (used : nat -> nat) (nant k r ant : nat) : option (list (list nat)) :=
  match k with
  | O => Some []
  | S k' =>
    match columns used (nant - ant) (Nat.min 15 r) ant with
    | None => None
    | Some (cs, ant') => match lines used nant k' (r - 15) ant' with Some ls => Some (cs :: ls) | None => None end
    end
  end.
(** base/FlagCounter.cc:183-187 *)
Definition all_lines (used : nat -> nat) (nant : nat) : option (list (list nat)) :=
  let nrused := n_used used nant in lines used nant ((nrused + 15 - 1) / 15) nrused 0.

(** base/FlagCounter.cc:204-231: the pairs of one line noted as fully flagged *)
Definition flagged_pairs (t : tables) (npoints nant : nat) (cols : list nat) : list (nat * nat) :=
  flat_map (fun k => if 0 <? used_ant t k then
    flat_map (fun ia => if (0 <? used_bl t k ia) && (k <=? ia) && (count_bl t k ia =? used_bl t k ia * npoints) then [(k, ia)] else []) cols
    else []) (seq 0 nant).
(** base/FlagCounter.cc:143-269: the list of fully flagged baselines; [nant] is one more than the largest antenna number *)
Definition fully_flagged (bs : list bline) (npoints nant : nat) : option (list (nat * nat)) :=
  let t := tallies bs in
  option_map (flat_map (flagged_pairs t npoints nant)) (all_lines (used_ant t) nant).

(** std::string::rfind(c) in base/FlagCounter.cc:45: position of the last occurrence *)
Fixpoint rfind (c : ascii) (s : list ascii) : option nat :=
  match s with
  | [] => None
  | x :: r => match rfind c r with Some p => Some (S p) | None => if Ascii.eqb x c then Some 0 else None end
  end.
(** base/FlagCounter.cc:40-43, 54-57: the text before the first dot *)
Definition before_dot (s : list ascii) : list ascii :=
  match find_from "." s 0 with Some p => firstn p s | None => s end.
(** base/FlagCounter.cc:36-59 (MakeSaveFilename); for npos, pos + 1 wraps to 0 *)
Definition save_filename (path ms_name suffix : list ascii) : list ascii :=
  let sfx := before_dot suffix in
  let pos := rfind "/" ms_name in
  let dir := match path with
             | [] => match pos with None => ["."%char] | Some p => firstn p ms_name end
             | _ => path
             end in
  let name := before_dot (match pos with None => ms_name | Some p => skipn (S p) ms_name end) in
  dir ++ ["/"%char] ++ name ++ ["_"%char] ++ sfx ++ list_ascii_of_string ".flag".
