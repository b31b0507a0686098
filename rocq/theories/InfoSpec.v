(** What the bookkeeping of channels, antennas and times should do. *)
From Coq Require Import QArith Qcanon List Bool Arith ZArith.
From Verif Require Import QcUtil AverageModel AverageProofs InfoModel.
Import ListNotations.
Open Scope Qc_scope.

(** [l'] is the part of [l] from [start] with [n] elements. *)
Definition part_of {A} (start n : nat) (l l' : list A) : Prop :=
  length l' = n /\ forall i, (i < n)%nat -> nth_error l' i = nth_error l (start + i).

(** An antenna takes part in a baseline. *)
Definition takes_part {A} (d : ants A) (a : nat) : Prop := In a (d_ant1 d) \/ In a (d_ant2 d).

(** Antenna lists with their derived tables, as any sequence of calls makes them. *)
Inductive reachable {A} : ants A -> Prop :=
| reach_set l a1 a2 d : set_antennas l a1 a2 = Some d -> reachable d
| reach_sel d bl d' : reachable d -> select_baselines d bl = Some d' -> reachable d'
| reach_rem d d' : reachable d -> remove_unused d = Some d' -> reachable d'.

(** [d'] has exactly the antennas of [d] that take part in a baseline, in the
    same order, with the baselines renumbered accordingly. *)
Definition renumbered {A} (d d' : ants A) : Prop := exists f : nat -> nat,
  (forall a b, takes_part d a -> takes_part d b -> (a < b)%nat -> (f a < f b)%nat) /\
  (forall a, takes_part d a -> exists x, nth_error (d_ants d) a = Some x /\ nth_error (d_ants d') (f a) = Some x) /\
  d_ant1 d' = map f (d_ant1 d) /\ d_ant2 d' = map f (d_ant2 d) /\
  (forall k, (k < length (d_ants d'))%nat -> exists a, takes_part d a /\ f a = k).

(** The entry of antenna [a] in the table of autocorrelations. *)
Definition auto_entry (ant1 ant2 : list nat) (a : nat) (e : option nat) : Prop :=
  match e with
  | Some i => nth_error ant1 i = Some a /\ nth_error ant2 i = Some a /\
              forall j, (i < j)%nat -> ~ (nth_error ant1 j = Some a /\ nth_error ant2 j = Some a)
  | None => forall j, ~ (nth_error ant1 j = Some a /\ nth_error ant2 j = Some a)
  end.
