(** Model of the constructor of a grid of the parameter database from domains that may have to be sorted: parmdb/Grid.cc.  See DomainModel and BoxModel. *)
From Coq Require Import Qcanon List Bool.
From Verif Require Import QcUtil AverageModel AxisModel DomainModel BoxModel.
Import ListNotations.

(** std::sort of domains, parmdb/Grid.cc:28-29, as insertion: a domain comes before the first one that it is less than.  std::sort may give domains that start at the same point in another order. *)
Fixpoint insert_box (b : box) (l : list box) : list box :=
  match l with [] => [b] | c :: l' => if before b c then b :: l else c :: insert_box b l' end.
(** std::sort of domains, parmdb/Grid.cc:28-29 *)
Definition sort_boxes (l : list box) : list box := fold_right insert_box [] l.
(** parmdb/Grid.cc:20-35: the constructor from domains; without domains the axes are default ones *)
Definition grid_of_domains (asserts : bool) (l : list box) (sort : bool) : outcome (axis * axis) :=
  match l with
  | [] => Ok (default_axis, default_axis)
  | _ => setup asserts (if sort then sort_boxes l else l)
  end.
