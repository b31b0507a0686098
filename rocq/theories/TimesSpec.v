(** What a reader of a measurement set should deliver. *)
From Coq Require Import QArith Qcanon List Bool Arith ZArith Sorted.
Import ListNotations.
Open Scope nat_scope.

Definition qnat (k : nat) : Qc := Q2Qc (inject_Z (Z.of_nat k)).
(** At most [tol] apart *)
Definition within (tol x y : Qc) : Prop := (x - y <= tol /\ y - x <= tol)%Qc.

(** Time slots in order, more than [tol] apart *)
Definition ordered {S} (time : S -> Qc) (tol : Qc) (l : list S) : Prop :=
  StronglySorted (fun a b => time a + tol < time b)%Qc l.

(** The delivered time slots come one after the other *)
Definition increasing {S} (outs : list (Qc * option S)) : Prop := StronglySorted (fun a b => fst a < fst b)%Qc outs.
(** The stored time slots among them *)
Definition stored {S} (outs : list (Qc * option S)) : list S :=
  flat_map (fun x => match snd x with Some s => [s] | None => [] end) outs.

(** A regular measurement set: some of the time slots of a grid, within [tol] *)
Definition on_grid {S} (time : S -> Qc) (index : S -> nat) (first interval tol : Qc) (l : list S) : Prop :=
  StronglySorted (fun a b => index a < index b) l /\ Forall (fun s => within tol (time s) (first + qnat (index s) * interval)) l.
(** The whole grid, with the stored time slots where there are any *)
Definition grid_slot {S} (index : S -> nat) (l : list S) (k : nat) : option S := find (fun s => index s =? k) l.
