(** Model of the grids of the parameter database that are made from domains: parmdb/Grid.cc and Grid.h.  Numbers are exact, so casacore::near is equality, as for the axes (AxisModel).
    A failing assert gives Throw if asserts are compiled in; without them (NDEBUG) the code continues.  std::sort, the default grid and grids made from grids are not modelled. *)
From Coq Require Import Qcanon List Arith Bool.
From Verif Require Import QcUtil AverageModel GainModel AxisModel.
Import ListNotations.
Open Scope nat_scope.

(** parmdb/Box.h: a box as its interval in x and its interval in y *)
Notation box := (cell * cell)%type.

(** parmdb/Grid.cc:63-75: the other boxes of the first row; their number, and whether they are regular.  [ex] is the end of the box before. *)
Fixpoint row (sy ex dx : Qc) (l : list box) : nat * bool :=
  match l with
  | [] => (0, true)
  | (x, y) :: l =>
      if Qc_eq_dec sy (fst y) then
        let '(n, r) := row sy (snd x) dx l in (S n, near ex (fst x) && near dx (width x) && r)
      else (0, true)
  end.
(** parmdb/Grid.cc:100-111: whether the rows are regular *)
Fixpoint rows_regular (ey dy : Qc) (ys : list cell) : bool :=
  match ys with [] => true | y :: ys => near ey (fst y) && near dy (width y) && rows_regular (snd y) dy ys end.
(** parmdb/Grid.cc:118-129: a regular axis, or one with the given borders *)
Definition make_axis (r : bool) (first : cell) (cs : list cell) : axis :=
  if r then regular_axis (fst first) (width first) (length cs) else Axis false cs.
(** operator[] of the domains, parmdb/Grid.cc:90, 104; the first one stands for one that does not exist *)
Definition domain (l : list box) (first : box) (i : nat) : box := nth i l first.
(** casacore::near for both borders, parmdb/Grid.cc:90-91, 114-115 *)
Definition near_cell (a b : cell) : bool := near (fst a) (fst b) && near (snd a) (snd b).
(** parmdb/Grid.cc:77, 88-93 and 112-117: the asserts *)
Definition rectangular (l : list box) (first : box) (nx ny : nat) : bool :=
  (length l mod nx =? 0) &&
  forallb (fun j => forallb (fun i => near_cell (fst (domain l first i)) (fst (domain l first (j * nx + i)))) (seq 0 nx)) (seq 1 (ny - 1)) &&
  forallb (fun j => forallb (fun i => near_cell (snd (domain l first (j * nx))) (snd (domain l first (j * nx + i)))) (seq 1 (nx - 1))) (seq 0 ny).
(** parmdb/Axis.cc:24 and 77-83: the asserts for an axis: widths are positive and the intervals are ordered.  For a regular axis only its width is checked; its intervals follow each other. *)
Fixpoint ordered (cs : list cell) : bool :=
  match cs with
  | [] => true
  | c :: cs' =>
      (if Qclt_le_dec 0 (width c) then true else false) &&
      match cs' with [] => true | d :: _ => if Qclt_le_dec (fst d) (snd c) then false else true end && ordered cs'
  end.
(** parmdb/Grid.cc:54-130: setup from domains; without domains the first one does not exist.  [asserts]: they are compiled in. *)
Definition setup (asserts : bool) (l : list box) : outcome (axis * axis) :=
  match l with
  | [] => Undefined
  | first :: others =>
      let '(n, xregular) := row (fst (snd first)) (snd (fst first)) (width (fst first)) others in
      let nx := S n in
      let ny := length l / nx in
      let xs := map fst (firstn nx l) in
      let ys := map (fun j => snd (domain l first (j * nx))) (seq 0 ny) in
      if asserts && negb (rectangular l first nx ny && ordered xs && ordered ys) then Throw
      else Ok (make_axis xregular (fst first) xs, make_axis (rows_regular (fst (snd first)) (width (snd first)) ys) (snd first) ys)
  end.

(** parmdb/Grid.h:136-138: getCellId *)
Definition cell_id (ax : axis) (x y : nat) : nat := y * length (cells ax) + x.
(** parmdb/Grid.h:141-143: getCellLocation *)
Definition cell_location (ax : axis) (id : nat) : nat * nat := (id mod length (cells ax), id / length (cells ax)).
(** parmdb/Grid.h:154-162: getCell; the assert makes a cell outside of the grid undefined *)
Definition get_cell (ax ay : axis) (loc : nat * nat) : outcome box := let! x := get (cells ax) (fst loc) in let! y := get (cells ay) (snd loc) in Ok (x, y).
(** parmdb/Grid.cc:236-259: toDomains; sy and ey have the number of cells in x, so that they are too short if there are more cells in y *)
Definition to_domains (ax ay : axis) (domains : list box) : outcome (list box) :=
  if length (cells ax) <? length (cells ay) then Undefined
  else Ok (domains ++ flat_map (fun y => map (fun x => (x, y)) (cells ax)) (cells ay)).
