(** Model of the boxes of the parameter database: parmdb/Box.cc and Box.h.  Numbers are exact and casacore::near is equality (AxisModel).  A box is its interval in x and its interval in y (DomainModel).
    The asserts of the constructor, reading from a vector and printing are not modelled. *)
From Coq Require Import Qcanon List Bool.
From Verif Require Import QcUtil AverageModel AxisModel DomainModel.

(** operator<, parmdb/Box.h:81-87, parmdb/Box.cc:41-42 *)
Definition less (a b : Qc) : bool := if Qclt_le_dec a b then true else false.
(** std::min, parmdb/Box.cc:29-30, 39-40 *)
Definition min (a b : Qc) : Qc := if less b a then b else a.
(** std::max, parmdb/Box.cc:31-32, 37-38 *)
Definition max (a b : Qc) : Qc := if less a b then b else a.

(** parmdb/Box.h:39: an empty box *)
Definition no_box : box := ((0, 0), (0, 0))%Qc.
(** parmdb/Box.cc:17-26: a box from start and end, or from center and width *)
Definition make_box (x1 x2 y1 y2 : Qc) (as_start_end : bool) : box :=
  if as_start_end then ((x1, x2), (y1, y2)) else ((x1 - x2 * half, x2 + (x1 - x2 * half)), (y1 - y2 * half, y2 + (y1 - y2 * half)))%Qc.
(** parmdb/Box.cc:28-34: unite *)
Definition unite (a b : box) : box :=
  ((min (fst (fst a)) (fst (fst b)), max (snd (fst a)) (snd (fst b))), (min (fst (snd a)) (fst (snd b)), max (snd (snd a)) (snd (snd b)))).
(** parmdb/Box.cc:36-46: intersect *)
Definition intersect (a b : box) : box :=
  let sx := max (fst (fst a)) (fst (fst b)) in
  let sy := max (fst (snd a)) (fst (snd b)) in
  let ex := min (snd (fst a)) (snd (fst b)) in
  let ey := min (snd (snd a)) (snd (snd b)) in
  if less sx ex && negb (near sx ex) && less sy ey && negb (near sy ey) then ((sx, ex), (sy, ey)) else no_box.
(** parmdb/Box.h:80-89: intersects *)
Definition intersects (a other : box) : bool :=
  less (fst (fst other)) (snd (fst a)) && negb (near (fst (fst other)) (snd (fst a))) &&
  less (fst (fst a)) (snd (fst other)) && negb (near (snd (fst other)) (fst (fst a))) &&
  less (fst (snd other)) (snd (snd a)) && negb (near (fst (snd other)) (snd (snd a))) &&
  less (fst (snd a)) (snd (snd other)) && negb (near (snd (snd other)) (fst (snd a))).
(** parmdb/Box.h:93-102: contains *)
Definition contains (a other : box) : bool :=
  (negb (less (fst (fst other)) (fst (fst a))) || near (fst (fst other)) (fst (fst a))) &&
  (negb (less (snd (fst a)) (snd (fst other))) || near (snd (fst other)) (snd (fst a))) &&
  (negb (less (fst (snd other)) (fst (snd a))) || near (fst (snd other)) (fst (snd a))) &&
  (negb (less (snd (snd a)) (snd (snd other))) || near (snd (snd other)) (snd (snd a))).
(** parmdb/Box.h:105-108: empty *)
Definition empty (b : box) : bool := near (fst (fst b)) (snd (fst b)) || near (fst (snd b)) (snd (snd b)).
(** parmdb/Box.h:125-129: the order of boxes *)
Definition before (a b : box) : bool := less (fst (snd a)) (fst (snd b)) || near (fst (snd a)) (fst (snd b)) && less (fst (fst a)) (fst (fst b)).
