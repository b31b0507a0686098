(** Model of the grids of the parameter database that are made from grids: parmdb/Grid.cc.  See DomainModel for the numbers and the asserts.  Sorting the grids and the default grid are not modelled. *)
From Coq Require Import Qcanon List Arith Bool.
From Verif Require Import QcUtil AverageModel GainModel AxisModel DomainModel.
Import ListNotations.
Open Scope nat_scope.

(** parmdb/Grid.h:56-60: the axes of a grid in x and in y *)
Notation grid := (axis * axis)%type.
(** parmdb/Grid.h:166-169: getBoundingBox *)
Definition bounding (g : grid) : box := ((start_of (cells (fst g)), end_of (cells (fst g))), (start_of (cells (snd g)), end_of (cells (snd g)))).
(** parmdb/Grid.cc:176-184: whether the axes after the first are regular, have its width and follow each other.  [last] is the end of the axis before. *)
Fixpoint continues (w last : Qc) (axes : list axis) : bool :=
  match axes with
  | [] => true
  | a :: axes => regular a && near w (width (hd (0, 0)%Qc (cells a))) && near last (start_of (cells a)) && continues w (end_of (cells a)) axes
  end.
(** parmdb/Grid.cc:163-202: combineAxes of the axes of the grids 0, step, 2 step, ...; the asserts are those of the new axis. *)
Definition combine_axes (asserts : bool) (axes : list axis) : outcome axis :=
  match axes with
  | [] => Undefined
  | [a] => Ok a
  | a :: others =>
      let w := width (hd (0, 0)%Qc (cells a)) in
      let r := if regular a && continues w (end_of (cells a)) others
               then regular_axis (start_of (cells a)) w (length (flat_map cells axes))
               else Axis false (flat_map cells axes) in
      if asserts && negb (ordered (cells r)) then Throw else Ok r
  end.
(** operator[] of the grids, parmdb/Grid.cc:152, 158, 177; the first one stands for one that does not exist *)
Definition grid_at (gs : list grid) (first : grid) (i : nat) : grid := nth i gs first.
(** parmdb/Grid.cc:147-160: the asserts that the axes are equal for all rows and columns *)
Definition same_axes (gs : list grid) (first : grid) (nx ny : nat) : bool :=
  forallb (fun j => forallb (fun i => same_axis (fst (grid_at gs first i)) (fst (grid_at gs first (j * nx + i)))) (seq 0 nx)) (seq 1 (ny - 1)) &&
  forallb (fun j => forallb (fun i => same_axis (snd (grid_at gs first (j * nx))) (snd (grid_at gs first (j * nx + i)))) (seq 1 (nx - 1))) (seq 0 ny).
(** parmdb/Grid.cc:132-161: setup from grids *)
Definition setup_grids (asserts : bool) (gs : list grid) : outcome grid :=
  match gs with
  | [] => Undefined
  | first :: _ =>
      let! d := setup asserts (map bounding gs) in
      let nx := length (cells (fst d)) in
      let ny := length (cells (snd d)) in
      let! ax := combine_axes asserts (map (fun i => fst (grid_at gs first i)) (seq 0 nx)) in
      let! ay := combine_axes asserts (map (fun j => snd (grid_at gs first (j * nx))) (seq 0 ny)) in
      if asserts && negb (same_axes gs first nx ny) then Throw else Ok (ax, ay)
  end.
(** parmdb/Grid.cc:204-211: a grid made from one grid is that grid. *)
Definition make_grid (asserts : bool) (gs : list grid) : outcome grid :=
  match gs with [g] => Ok g | _ => setup_grids asserts gs end.
