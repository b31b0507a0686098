(** What the constraints on Jones matrices of DDECal promise. *)
From Coq Require Import Reals List Arith.
From Verif Require Import RealCplx RotModel.
Import ListNotations.
Open Scope R_scope.

(** A function that gives the argument of a complex number, between -pi and pi *)
Definition principal (arg : rc -> R) : Prop := forall z, z = RC (rabs z * cos (arg z)) (rabs z * sin (arg z)) /\ - PI <= arg z <= PI.
(** The matrix product of a diagonal matrix and a rotation, and of a rotation and a diagonal matrix *)
Definition diagonal_rotation (x y : rc) (a : R) : jones :=
  Jones (rmul x (RC (cos a) 0)) (rmul x (RC (- sin a) 0)) (rmul y (RC (sin a) 0)) (rmul y (RC (cos a) 0)).
Definition rotation_diagonal (a : R) (x y : rc) : jones :=
  Jones (rmul (RC (cos a) 0) x) (rmul (RC (- sin a) 0) y) (rmul (RC (sin a) 0) x) (rmul (RC (cos a) 0) y).
(** Angles that are the same but for half turns *)
Definition same_axis (a b : R) : Prop := exists k : Z, a = b + IZR k * PI.
(** A diagonal that is of a given type: amplitudes are not negative and real, phases have size one, and scalars are equal *)
Definition is_amplitude (z : rc) : Prop := im z = 0 /\ 0 <= re z.
Definition is_phase (z : rc) : Prop := rabs z = 1.
Definition of_mode (m : dmode) (x y : rc) : Prop :=
  match m with
  | Diagonal => True
  | DiagonalAmplitude => is_amplitude x /\ is_amplitude y
  | DiagonalPhase => is_phase x /\ is_phase y
  | Scalar => x = y
  | ScalarAmplitude => x = y /\ is_amplitude x
  | ScalarPhase => x = y /\ is_phase x
  | Rotation => x = rc1 /\ y = rc1
  end.
(** Whether the sign of the diagonal is not kept *)
Definition unsigned (m : dmode) : Prop := match m with DiagonalAmplitude | ScalarAmplitude | Rotation => True | _ => False end.
(** The mean of the numbers of the valid antennas *)
Definition mean_of (l : list R) : R := fold_right Rplus 0 l / INR (length l).
(** More than a factor of five from the mean *)
Definition far (x mean : R) : Prop := x < mean / 5 \/ 5 * mean < x.
(** Position in an array by antenna, sub-solution, channel block and polarization *)
Definition position (n_sub n_ch n_pol a s c p : nat) : nat := (((a * n_sub + s) * n_ch + c) * n_pol + p)%nat.
(** What is read back for a polarization from tables with amplitudes and phases, by name: a missing amplitude is one, a missing phase is zero, and a table with one value has it for all polarizations *)
Definition read_back (ts : list (table * list R)) (p : nat) : rc :=
  let get k d := fold_right (fun '(t, v) r => match t, k with Amplitude, Amplitude | Phase, Phase => nth p v (nth 0 v d) | _, _ => r end) d ts in
  RC (get Amplitude 1 * cos (get Phase 0)) (get Amplitude 1 * sin (get Phase 0)).
