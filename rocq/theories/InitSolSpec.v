(** What a user expects of the solutions that DDECal starts with, without the code of DP3. *)
From Coq Require Import String List Arith.
Import ListNotations.
Open Scope nat_scope.

(** Solution number [s] is one of direction [d], if the solutions of the directions follow each other. *)
Definition is_solution_of (per_direction : list nat) (s d : nat) : Prop :=
  exists before n after i, per_direction = before ++ n :: after /\ length before = d /\ i < n /\ s = list_sum before + i.

(** Where the solver has gain [p] of solution [s] of antenna [a] *)
Definition place (n_solutions n_gains a s p : nat) : nat := (a * n_solutions + s) * n_gains + p.

(** A name with a given text in it *)
Definition has_text (text name : string) : Prop := exists before after, name = (before ++ text ++ after)%string.

(** The product of several gains *)
Fixpoint product_of {A} (one : A) (mul : A -> A -> A) (l : list A) : A := match l with [] => one | x :: l => mul x (product_of one mul l) end.
