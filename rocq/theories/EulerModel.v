(** Model of fillEulerMatrix in steps/PhaseShift.cc, and of the matrices it is used with.  Numbers are real numbers. *)
From Coq Require Import Reals List Arith.
Import ListNotations.
Open Scope R_scope.

(** casacore::C::c and aocommon::kSpeedOfLight *)
Definition light : R := 299792458.
(** base/Direction.h:15-28 *)
Record direction := MkDir { ra : R; dec : R }.
(** base/Simulator.h:35-60: UVW and LMN coordinates *)
Notation vec := (R * R * R)%type.
(** casacore::Matrix: three by three numbers, column by column *)
Definition at_ (m : list R) (i j : nat) : R := nth (i + 3 * j) m 0.
(** casacore::Matrix: a matrix by its elements *)
Definition matrix (f : nat -> nat -> R) : list R := [f 0 0; f 1 0; f 2 0; f 0 1; f 1 1; f 2 1; f 0 2; f 1 2; f 2 2]%nat.
(** casacore::product *)
Definition product (a b : list R) : list R := matrix (fun i j => at_ a i 0 * at_ b 0 j + at_ a i 1 * at_ b 1 j + at_ a i 2 * at_ b 2 j).
(** casacore::transpose *)
Definition transpose (a : list R) : list R := matrix (fun i j => at_ a j i).
(** casacore::product of a matrix and a column *)
Definition apply (a : list R) (x : vec) : vec :=
  let '(u, v, w) := x in
  (at_ a 0 0 * u + at_ a 0 1 * v + at_ a 0 2 * w, at_ a 1 0 * u + at_ a 1 1 * v + at_ a 1 2 * w, at_ a 2 0 * u + at_ a 2 1 * v + at_ a 2 2 * w).
(** steps/PhaseShift.cc:197-212 (fillEulerMatrix) *)
Definition euler (d : direction) : list R :=
  let sinra := sin (ra d) in let cosra := cos (ra d) in let sindec := sin (dec d) in let cosdec := cos (dec d) in
  [cosra; - sinra; 0; - sinra * sindec; - cosra * sindec; cosdec; sinra * cosdec; cosra * cosdec; sindec].
