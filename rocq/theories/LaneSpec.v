(** What a queue should do. *)
From Coq Require Import List.
Import ListNotations.

(** [a] is a part of [b], in the same order *)
Inductive sublist {A} : list A -> list A -> Prop :=
| sublist_nil : sublist [] []
| sublist_cons x a b : sublist a b -> sublist (x :: a) (x :: b)
| sublist_skip x a b : sublist a b -> sublist a (x :: b).
