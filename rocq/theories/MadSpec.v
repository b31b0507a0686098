(** What the median flagger should look at. *)
From Coq Require Import List Bool Arith ZArith QArith Qcanon Permutation.
From Verif Require Import QcUtil MedianSpec.
Import ListNotations.

(** Reflection of a position at both ends of 0 .. n-1 *)
Definition reflect (n z : Z) : Z := if (z <? 0)%Z then (- z)%Z else if (n <=? z)%Z then (2 * (n - 1) - z)%Z else z.

(** The positions of the window of half width [hw] around [x]: the centre, then one further on both sides each time *)
Definition centred (n x : Z) (hw : nat) : list Z :=
  reflect n x :: flat_map (fun i => [reflect n (x - Z.of_nat i); reflect n (x + Z.of_nat i)]) (seq 1 hw).

(** Absolute value and the values of a window *)
Definition absolute (x : Qc) : Qc := if Qclt_le_dec x 0 then Qcopp x else x.

(** [z] is the median of the window values, [m] the median of their distances to it *)
Definition med_and_mad (vals : list Qc) (z m : Qc) : Prop :=
  is_median vals z /\ is_median (map (fun x => absolute (x - z)) vals) m.

(** The values of one correlation in the window: the first [tw] of the given time slots, and the channels within [hw] *)
Definition window_vals (ampl : nat -> Z -> nat -> Qc) (slots_used : list nat) (tw hw : nat) (chan nchan : Z) (corr : nat) : list Qc :=
  flat_map (fun t => map (fun c => ampl t c corr) (centred nchan chan hw)) (firstn tw slots_used).

(** The sample exceeds the median of its window by more than [fac] times the median deviation *)
Definition exceeds (ampl : nat -> Z -> nat -> Qc) (slots_used : list nat) (tw hw : nat) (fac : Qc) (t : nat) (chan nchan : Z) (ip : nat) : Prop :=
  exists z m, med_and_mad (window_vals ampl slots_used tw hw chan nchan ip) z m /\ (z + fac * m < ampl t chan ip)%Qc.
