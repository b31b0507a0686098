(** What a working chain of steps is. *)
From Coq Require Import List Bool.
Import ListNotations.

Section Chain.
Variables (S K : Type) (process : S -> K -> option (option K)).
(** What a chain does with a buffer: no step gets a buffer that it does not process *)
Inductive works : option K -> list S -> Prop :=
| works_end k : works k []
| works_nothing s r : works None r -> works None (s :: r)
| works_step k k' s r : process s k = Some k' -> works k' r -> works (Some k) (s :: r).

(** All neighbours *)
Inductive neighbours (P : S -> S -> Prop) : list S -> Prop :=
| neighbours_nil : neighbours P []
| neighbours_one s : neighbours P [s]
| neighbours_cons s t r : P s t -> neighbours P (t :: r) -> neighbours P (s :: t :: r).
End Chain.
