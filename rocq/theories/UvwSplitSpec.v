(** What coordinates of stations should be. *)
From Coq Require Import List Arith Relations Permutation Sorted.
Import ListNotations.

(** Coordinates of stations that give the coordinates of every baseline, as those of the second antenna minus those of the first *)
Definition gives {V} (sub : V -> V -> V) (d : V) (bls : list (nat * nat)) (station coordinates : list V) : Prop :=
  forall i a b, nth_error bls i = Some (a, b) -> sub (nth b station d) (nth a station d) = nth i coordinates d.
(** Antennas that are connected by some of the baselines *)
Definition linked (bls : list (nat * nat)) (chosen : list nat) : relation nat :=
  clos_refl_sym_trans nat (fun a b => exists i, In i chosen /\ nth_error bls i = Some (a, b)).
(** Coordinates that can be those of baselines between stations *)
Definition consistent {V} (sub : V -> V -> V) (d : V) (bls : list (nat * nat)) (coordinates : list V) : Prop :=
  exists position : nat -> V, forall i a b, nth_error bls i = Some (a, b) -> nth i coordinates d = sub (position b) (position a).

(** All of a number of things, in an order in which none is preceded by a shorter one *)
Definition longest_first {L} (shorter : L -> L -> Prop) (len : nat -> L) (n : nat) (order : list nat) : Prop :=
  Permutation order (seq 0 n) /\ StronglySorted (fun i j => ~ shorter (len i) (len j)) order.
