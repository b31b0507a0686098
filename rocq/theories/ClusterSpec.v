(** What clustering should do. *)
From Coq Require Import List Bool Arith Permutation.
Import ListNotations.

(** Each one in exactly one cluster *)
Definition partition (l : list nat) (clusters : list (list nat)) : Prop := Permutation (concat clusters) l.

(** Clusters around their first element: the first one with all that are near to it, and so on with what is left *)
Inductive around (near : nat -> nat -> bool) : list nat -> list (list nat) -> Prop :=
| around_nil : around near [] []
| around_cons i rest clusters :
    around near (filter (fun j => negb (near i j)) rest) clusters ->
    around near (i :: rest) ((i :: filter (near i) rest) :: clusters).
