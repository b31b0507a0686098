(** What combining and keeping named data means. *)
From Coq Require Import String List Bool Arith.
Import ListNotations.

(** Two lists of the same length combined value by value *)
Definition pointwise {A} (f : A -> A -> A) (a b r : list A) : Prop :=
  List.length r = List.length a /\ List.length b = List.length a /\
  forall i x y, nth_error a i = Some x -> nth_error b i = Some y -> nth_error r i = Some (f x y).
(** Two readings of named things differ only in the names given *)
Definition same_but {A} (names : list string) (f g : string -> A) : Prop := forall n, ~ In n names -> f n = g n.
(** Position of a value in a solution of one channel: antenna, then direction, then polarization *)
Definition position (n_directions n_pol antenna direction pol : nat) : nat := (antenna * n_directions + direction) * n_pol + pol.
