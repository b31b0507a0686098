(** The axes of the parameter database (/repo/parmdb/Axis.cc, Axis.h), and the
   mapping of one axis on another one (/repo/parmdb/AxisMapping.cc).

   An axis is a series of cells (intervals); the code keeps the lower and upper
   border, the center and the width of each of them, the model keeps the borders.

   Simplifications, for all definitions below:
   - numbers are exact (rationals), so casacore::near, which holds for numbers
     that are equal up to a relative 1e-13, is equality;
   - the asserts (Axis.cc:24, 55, 56, 78, 80 and 320) become hypotheses of the
     theorems: an axis has at least one cell, widths are positive and the cells
     are in order;
   - the unique id of an axis, the reading from and writing to streams, and
     AxisCache are left out. *)
From Coq Require Import Qcanon List Arith Lia Bool QArith.
From Verif Require Import QcUtil AverageModel GainModel.
Import ListNotations.
Open Scope Qc_scope.
Open Scope nat_scope.

(** A cell: its lower and its upper border.
   itsLower and itsUpper, /repo/parmdb/Axis.h:155-159. *)
Notation cell := (Qc * Qc)%type.

(** An axis: is it a RegularAxis, and its cells.
   /repo/parmdb/Axis.h:155-159 (itsIsRegular, itsLower, itsUpper). *)
Record axis := Axis { regular : bool; cells : list cell }.

(** The center of a cell.
   /repo/parmdb/Axis.cc:31 and 73; for a regular axis start + width * 0.5,
   which is the same number. *)
Definition center (c : cell) : Qc := ((fst c + snd c) * half)%Qc.

(** The width of a cell.
   /repo/parmdb/Axis.cc:30 and 74. *)
Definition width (c : cell) : Qc := (snd c - fst c)%Qc.

(** casacore::near, taken as equality. /repo/parmdb/Axis.cc:105, 127, 149, 156. *)
Definition near (x y : Qc) : bool := if Qc_eq_dec x y then true else false.

(** The cells of a regular axis: every next cell starts at the end of the one
   before. /repo/parmdb/Axis.cc:22-50 (setup). *)
Fixpoint regular_cells (start w : Qc) (count : nat) : list cell :=
  match count with
  | 0 => []
  | S n => (start, start + w)%Qc :: regular_cells (start + w)%Qc w n
  end.

(** The RegularAxis with this start, width and number of cells.
   /repo/parmdb/Axis.cc:361-368. *)
Definition regular_axis (start w : Qc) (count : nat) : axis :=
  Axis true (regular_cells start w count).

(** The RegularAxis given by its start and end (asStartEnd).
   /repo/parmdb/Axis.cc:364-367. *)
Definition regular_axis_to (start stop : Qc) (count : nat) : axis :=
  regular_axis start ((stop - start) / qn count)%Qc count.

(** A cell given by its center and width.
   /repo/parmdb/Axis.cc:58-66 (setup with asStartEnd false). *)
Definition around (c w : Qc) : cell := (c - w * half, c - w * half + w)%Qc.

(** The axis that stands for everything: one cell from -1e30 to 1e30.
   /repo/parmdb/Axis.cc:357-359. *)
Definition default_axis : axis :=
  regular_axis (Q2Qc (- (10 ^ 30))) (Q2Qc (2 * 10 ^ 30)) 1.

(** start(): the first lower border.  /repo/parmdb/Axis.h:72. *)
Definition start_of (l : list cell) : Qc := fst (hd (0, 0)%Qc l).

(** end(): the last upper border.  /repo/parmdb/Axis.h:73. *)
Definition end_of (l : list cell) : Qc := snd (last l (0, 0)%Qc).

(** The search loop of Axis::find: from the cell with index i on.
   /repo/parmdb/Axis.cc:139-173. *)
Fixpoint find_from (l : list cell) (i : nat) (x : Qc) (bias : bool) : nat * bool :=
  match l with
  | [] => (i, false)
  | c :: l' =>
    if near x (fst c) then (i, bias)
    else if near x (snd c) then
      (if bias then find_from l' (S i) x bias else (i, true))
    else if qltb x (fst c) then (i, false)
    else if qltb x (snd c) then (i, true)
    else find_from l' (S i) x bias
  end.

(** Axis::find: the index of the cell that contains x, with the hint where to
   start searching.  /repo/parmdb/Axis.cc:113-174. *)
Definition find (l : list cell) (x : Qc) (bias : bool) (start : nat) : nat * bool :=
  match nth_error l start with
  | None => find_from l 0 x bias
  | Some c =>
    if near x (fst c) then
      (if bias then (start, true) else find_from l 0 x bias)
    else if qltb x (fst c) then find_from l 0 x bias
    else find_from (skipn start l) start x bias
  end.

(** Axis::locate. /repo/parmdb/Axis.h:92-96. *)
Definition locate (l : list cell) (x : Qc) (bias : bool) (start : nat) : outcome nat :=
  let r := find l x bias start in
  if snd r then Ok (fst r) else Throw.

(** Axis::makeAxis: a regular axis if all widths are the same.
   /repo/parmdb/Axis.cc:318-329. *)
Definition make_axis (l : list cell) : axis :=
  let first := hd (0, 0)%Qc l in
  if forallb (fun c => near (width first) (width c)) (tl l)
  then regular_axis (fst first) (width first) (length l)
  else Axis false l.

(** Axis::add: that axis is put behind this one; a hole between them gets a
   cell of its own.  The assert of line 306 is left out: add is only called by
   combine, which has tested it.  /repo/parmdb/Axis.cc:288-316. *)
Definition add (a b : list cell) : axis :=
  make_axis
    (a ++ (if near (end_of a) (start_of b) then [] else [(end_of a, start_of b)]) ++ b).

(** The check that nr cells of both axes are equal, from the cells s2 of this
   axis and s1 of that axis on; the cells are read one by one, reading past the
   end of an axis is undefined.  /repo/parmdb/Axis.cc:228-240. *)
Fixpoint same_cells (a b : list cell) (s2 s1 nr : nat) : outcome unit :=
  match nr with
  | 0 => Ok tt
  | S n =>
    let! c1 := get a s2 in
    let! c2 := get b s1 in
    if near (fst c1) (fst c2) && near (snd c1) (snd c2)
    then same_cells a b (S s2) (S s1) n
    else Throw
  end.

(** Axis::combine: the union of this axis (a) and that axis (b), with the first
   index and the index past the last one of both in the union (s1, e1, s2, e2).
   The counts are int in the code; they are never negative.
   /repo/parmdb/Axis.cc:181-286. *)
Definition combine (a b : axis) : outcome (axis * (nat * nat) * (nat * nat)) :=
  let ca := cells a in
  let cb := cells b in
  if qleb (end_of ca) (start_of cb) then
    let n := add ca cb in
    let size := length (cells n) in
    Ok (n, (0, length ca), (size - length cb, size))
  else if qleb (end_of cb) (start_of ca) then
    let n := add cb ca in
    let size := length (cells n) in
    Ok (n, (size - length ca, size), (0, length cb))
  else
    let nr1 := length ca in
    let nr2 := length cb in
    let sc1 := center (hd (0, 0)%Qc ca) in
    let ec1 := center (last ca (0, 0)%Qc) in
    let sc2 := center (hd (0, 0)%Qc cb) in
    let ec2 := center (last cb (0, 0)%Qc) in
    let '(s1, s2) :=
      if qltb (start_of ca) (start_of cb)
      then (0, fst (find ca sc2 true 0))
      else (fst (find cb sc1 true 0), 0) in
    let nr :=
      S (if qltb (end_of cb) (end_of ca)
         then fst (find ca ec2 true 0) - s2
         else fst (find cb ec1 true 0) - s1) in
    let! _ := same_cells ca cb s2 s1 nr in
    if (s1 =? 0) && (nr =? nr2) then Ok (a, (s1, nr1), (s2, s2 + nr))
    else if (s2 =? 0) && (nr =? nr1) then Ok (b, (s1, s1 + nr), (s2, nr2))
    else if s1 =? 0 then
      Ok (make_axis (firstn s2 ca ++ cb), (s1, nr1), (s2, s2 + nr2))
    else
      Ok (make_axis (firstn s1 cb ++ ca), (s1, s1 + nr1), (s2, nr2)).

(** RegularAxis::doSubset and OrderedAxis::doSubset: the cells from start up to
   and including stop.  The regular axis is made again from the start and the
   width of the first cell.  /repo/parmdb/Axis.cc:399-408 and 440-452. *)
Definition subset_index (a : axis) (start stop : nat) : axis :=
  let stop := Nat.min stop (length (cells a) - 1) in
  if stop <? start then default_axis
  else if regular a then
    let w := width (hd (0, 0)%Qc (cells a)) in
    regular_axis (start_of (cells a) + qn start * w)%Qc w (stop - start + 1)
  else
    Axis false (map (fun c => around (center c) (width c))
                    (firstn (stop - start + 1) (skipn start (cells a)))).

(** Axis::subset with a start and an end value; the index of the first cell is
   given back too.  /repo/parmdb/Axis.cc:331-350. *)
Definition subset (a : axis) (start stop : Qc) : nat * axis :=
  let l := cells a in
  let sinx := if qltb (start_of l) start then fst (find l start true 0) else 0 in
  let '(sinx, einx) :=
    if qltb stop (end_of l) then
      let r := find l stop false 0 in
      if (fst r =? 0) && negb (snd r) then (1, fst r) else (sinx, fst r)
    else (sinx, length l - 1) in
  (sinx, subset_index a sinx einx).

(** Axis::operator==.  /repo/parmdb/Axis.cc:86-92. *)
Definition same_axis (a b : axis) : bool :=
  if regular a && regular b then
    near (start_of (cells a)) (start_of (cells b)) &&
    near (end_of (cells a)) (end_of (cells b)) &&
    (length (cells a) =? length (cells b))
  else
    (length (cells a) =? length (cells b)) &&
    forallb (fun p => near (center (fst p)) (center (snd p)) &&
                      near (width (fst p)) (width (snd p)))
            (List.combine (cells a) (cells b)).

(** Axis::checkIntervals.  /repo/parmdb/Axis.cc:94-111. *)
Definition check_intervals (a b : axis) : bool :=
  let c1 := cells (snd (subset a (start_of (cells b)) (end_of (cells b)))) in
  let c2 := cells (snd (subset b (start_of (cells a)) (end_of (cells a)))) in
  (length c2 =? length c1) &&
  forallb (fun p => near (fst (fst p)) (fst (snd p)) && near (snd (fst p)) (snd (snd p)))
          (List.combine c1 c2).

(** RegularAxis::compress.  /repo/parmdb/Axis.cc:410-425. *)
Definition compress_regular (l : list cell) (factor : nat) : axis :=
  let count := length l in
  let start := start_of l in
  let w := width (hd (0, 0)%Qc l) in
  if count mod factor =? 0 then
    regular_axis start (w * qn factor)%Qc (count / factor)
  else
    Axis false
      (map (fun i => around (start + (qn i + half) * qn factor * w)%Qc (qn factor * w)%Qc)
           (seq 0 (count / factor)) ++
       [around (fst (nth (count - count mod factor) l (0, 0)%Qc) +
                half * qn (count mod factor) * w)%Qc
               (qn (count mod factor) * w)%Qc]).

(** OrderedAxis::compress; the size divided by the factor, rounded up.
   /repo/parmdb/Axis.cc:454-466. *)
Definition compress_ordered (l : list cell) (factor : nat) : axis :=
  let size := length l in
  let count := (size + factor - 1) / factor in
  Axis false
    (map (fun i =>
            let first := i * factor in
            let stop := Nat.min (first + factor) size - 1 in
            let low := fst (nth first l (0, 0)%Qc) in
            let upp := snd (nth stop l (0, 0)%Qc) in
            around (half * (upp + low))%Qc (upp - low)%Qc)
         (seq 0 count)).

(** Axis::compress.  /repo/parmdb/Axis.h:114. *)
Definition compress (a : axis) (factor : nat) : axis :=
  if regular a then compress_regular (cells a) factor else compress_ordered (cells a) factor.

(** One turn of the loop of AxisMapping: the index found for this cell is the
   hint for the next one.  The state is the last index, the borders, the mapping
   and the scaled centers.  /repo/parmdb/AxisMapping.cc:19-28. *)
Definition map_step (b : list cell) (st : nat * list nat * list nat * list Qc)
  (ic : nat * cell) : nat * list nat * list nat * list Qc :=
  let '(inx, borders, mapping, centers) := st in
  let x := center (snd ic) in
  let inxn := Nat.min (fst (find b x true inx)) (length b - 1) in
  let borders := if negb (inxn =? inx) && (0 <? fst ic) then borders ++ [fst ic] else borders in
  let c := nth inxn b (0, 0)%Qc in
  (inxn, borders, mapping ++ [inxn], centers ++ [((x - fst c) / width c)%Qc]).

(** AxisMapping::AxisMapping: the mapping, the borders and the scaled centers.
   /repo/parmdb/AxisMapping.cc:12-30. *)
Definition axis_mapping (a b : list cell) : list nat * list nat * list Qc :=
  let '(_, borders, mapping, centers) :=
    fold_left (map_step b) (List.combine (seq 0 (length a)) a) (0, [], [], []) in
  (mapping, borders ++ [length a], centers).
