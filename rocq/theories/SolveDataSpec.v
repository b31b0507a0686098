(** What a solver is to be given: the cross-correlations, in order, distributed over channel blocks and over the solutions of every direction. *)
From Coq Require Import QArith Qcanon List Bool Arith ZArith.
From Verif Require Import QcUtil.
Import ListNotations.
Open Scope nat_scope.

(** The block of a channel if [n] channels are divided over [N] blocks: the [k]-th part of the band ends at channel [k n / N]. *)
Definition block_of (n N ch : nat) : nat := (S ch * N - 1) / n.
(** The channels of a block, in order *)
Definition channels_of (n N cb : nat) : list nat := filter (fun ch => block_of n N ch =? cb) (seq 0 n).

(** The visibilities of a block, for things [u] with two antennas, a number of channels and something for every channel *)
Definition content {U V} (a1 a2 n : U -> nat) (f : U -> nat -> V) (N cb : nat) (us : list U) : list V :=
  flat_map (fun u => map (f u) (channels_of (n u) N cb)) (filter (fun u => negb (a1 u =? a2 u)) us).

(** Number of the first solution of a direction, if the solutions of all directions are numbered together *)
Definition first_solution (n_sol : list nat) (d : nat) : nat := list_sum (firstn d n_sol).
(** The solution of the [n] of a direction that belongs to time step [t] of [T]: the [k]-th of [n] parts starts at time step [k T / n], rounded up *)
Definition part_of (n T t k : nat) : Prop := k < n /\ k * T <= t * n < S k * T.
(** The same for a time [mid] since the start of an interval; what is later than the end belongs to the last part *)
Definition part_at (n : nat) (mid duration : Qc) (k : nat) : Prop :=
  k < n /\ (qn k * duration <= mid * qn n)%Qc /\ ((mid * qn n < qn (S k) * duration)%Qc \/ k = n - 1).
