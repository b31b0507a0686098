(** What a user of a sky model expects. *)
From Coq Require Import List Arith.
Import ListNotations.

(** p is the last element of l with this name. *)
Definition last_named {T} (name_of : T -> nat) (l : list T) (name : nat) (p : T) : Prop :=
  exists before behind, l = before ++ p :: behind /\ name_of p = name /\ forall q, In q behind -> name_of q <> name.

(** Numbers in strictly ascending order *)
Fixpoint increasing (l : list nat) : Prop :=
  match l with [] => True | a :: l' => (forall b, In b l' -> a < b) /\ increasing l' end.
