(** Specification for the solution file, independent of the model. *)
From Coq Require Import Arith QArith Qcanon.
From Verif Require Import QcUtil AverageModel.
Open Scope nat_scope.

(** Slot [o] is in part [j] of an interval of [size] slots that has [n] equal parts *)
Definition in_part (size n o j : nat) : Prop := j * size <= o * n /\ o * n < (j + 1) * size.
(** The place of a value in an array with axes time, frequency, antenna, direction and polarization *)
Definition at5 (n_freq n_ant n_dir n_pol t f a d p : nat) : nat := (((t * n_freq + f) * n_ant + a) * n_dir + d) * n_pol + p.
(** The place of a value in an array with axes antenna, solution and polarization *)
Definition at3 (n_sol n_pol a s p : nat) : nat := (a * n_sol + s) * n_pol + p.
(** An entry of the time axis at [center] with [width] has all of the time between [b] and [e] *)
Definition covers (center width b e : Qc) : Prop := (center - half * width <= b /\ e <= center + half * width)%Qc.
(** How many intervals of [size] are necessary for [n] slots *)
Definition intervals (n size : nat) : nat := (n + size - 1) / size.
