(** Model of the constraints on Jones matrices of DDECal (ddecal/constraints): rotation, rotation and diagonal, Faraday rotation, leakage.  Numbers are real numbers; a matrix with an element that is not finite is None. *)
From Coq Require Import Reals List Arith Bool.
From Verif Require Import RealCplx ConstrModel.
Import ListNotations.
Open Scope R_scope.

(** ddecal/constraints/RotationConstraint.cc:36, 43: the four elements of a solution, by row *)
Record jones := Jones { j0 : rc; j1 : rc; j2 : rc; j3 : rc }.
(** base/CalType.h:11-29; the types for the diagonal, RotationAndDiagonalConstraint.cc:64-107 *)
Inductive dmode := Diagonal | DiagonalAmplitude | DiagonalPhase | Scalar | ScalarAmplitude | ScalarPhase | Rotation.
(** base/CalType.h:37-61 (GetNPolarizations), for the types above *)
Definition n_pol (m : dmode) : nat := match m with Diagonal | DiagonalAmplitude | DiagonalPhase => 2 | Rotation => 4 | _ => 1 end.

(** ddecal/constraints/AmplitudeOnlyConstraint.h:20-22 *)
Definition amplitude_only (z : rc) : rc := RC (rabs z) 0.
(** ddecal/constraints/PolarizationLeakageConstraint.cc:13-15 *)
Definition leakage (j : jones) : jones := Jones rc1 (j1 j) (j2 j) rc1.
(** ddecal/constraints/RotationConstraint.h:40-45 (SetRotation) *)
Definition set_rotation (a : R) : jones := Jones (RC (cos a) 0) (RC (- sin a) 0) (RC (- - sin a) 0) (RC (cos a) 0).
(** std::fmod with a positive divisor, as in ddecal/constraints/RotationAndDiagonalConstraint.cc:225 *)
Definition fmod (x y : R) : R := if Rle_dec 0 x then x - y * IZR (Int_part (x / y)) else - (- x - y * IZR (Int_part (- x / y))).
(** ddecal/constraints/RotationAndDiagonalConstraint.cc:225, 324 *)
Definition restrict (a : R) : R := fmod (a + 7 / 2 * PI) PI - / 2 * PI.

Section Arg.
(** std::arg *)
Variable arg : rc -> R.

(** ddecal/constraints/RotationConstraint.h:29-38 (FitRotation) *)
Definition fit_rotation (j : jones) : R :=
  let i := RC 0 1 in
  let ll := radd (radd (j0 j) (j3 j)) (rmul i (rsub (j2 j) (j1 j))) in
  let rr := radd (radd (j0 j) (j3 j)) (rmul i (rsub (j1 j) (j2 j))) in
  / 2 * (arg ll - arg rr).
(** ddecal/constraints/RotationConstraint.cc:42-50: the angle that is stored, and the solution *)
Definition rotation_constraint (j : jones) : R * jones := let a := fit_rotation j in (a, set_rotation a).

(** * Rotation and diagonal *)

(** ddecal/constraints/RotationAndDiagonalConstraint.cc:218-232 (FitRotationAndDiagonal) *)
Definition fit_both (j : jones) : R * (rc * rc) :=
  let a := restrict (fit_rotation j) in
  (a, (rsub (rscale (cos a) (j0 j)) (rscale (sin a) (j1 j)), radd (rscale (cos a) (j3 j)) (rscale (sin a) (j2 j)))).
(** ddecal/constraints/RotationAndDiagonalConstraint.cc:64-107 (ConstrainDiagonal); the last is for Faraday rotation only *)
Definition constrain_diagonal (m : dmode) (d : rc * rc) : rc * rc :=
  let '(x, y) := d in
  let half := rscale (/ 2) (radd x y) in
  let unit z := rscale (/ rabs z) z in
  match m with
  | Diagonal => d
  | DiagonalAmplitude => (RC (rabs x) 0, RC (rabs y) 0)
  | DiagonalPhase => (unit x, unit y)
  | Scalar => (half, half)
  | ScalarAmplitude => (RC (rabs half) 0, RC (rabs half) 0)
  | ScalarPhase => (unit half, unit half)
  | Rotation => (rc1, rc1)
  end.
(** ddecal/constraints/RotationAndDiagonalConstraint.cc:31-33: a loop; fuel is a bound on the number of iterations *)
Fixpoint raise (fuel : nat) (mean ratio : R) (v : rc) : rc :=
  let v := rscale (12 / 10) v in match fuel with O => v | S fuel => if rltb (rabs v / mean) (1 / ratio) then raise fuel mean ratio v else v end.
(** ddecal/constraints/RotationAndDiagonalConstraint.cc:34-36 *)
Fixpoint lower (fuel : nat) (mean ratio : R) (v : rc) : rc :=
  let v := rscale (/ (12 / 10)) v in match fuel with O => v | S fuel => if rltb ratio (rabs v / mean) then lower fuel mean ratio v else v end.
(** ddecal/constraints/RotationAndDiagonalConstraint.cc:25-39 (Limit): the value, and the result *)
Definition limit (fuel : nat) (v : rc) (mean ratio : R) : rc * bool :=
  if rltb 0 mean then
    if (rltb (rabs v / mean) (1 / ratio) || rltb ratio (rabs v / mean))%bool then (v, true)
    else (lower fuel mean ratio (raise fuel mean ratio v), false)
  else (v, false).
(** ddecal/constraints/RotationAndDiagonalConstraint.cc:254-278: the mean amplitudes of the diagonals *)
Definition means (l : list (option jones)) : R * R :=
  let amp f := fold_left (fun acc o => match o with Some j => acc + rabs (f (snd (fit_both j))) | None => acc end) l 0 in
  (amp fst / INR (length l), amp snd / INR (length l)).
(** ddecal/constraints/RotationAndDiagonalConstraint.cc:318-337: the angle and the diagonal that are stored, and the solution *)
Record result := Result { r_angle : R; r_diagonal : rc * rc; r_jones : jones }.
(** ddecal/constraints/RotationAndDiagonalConstraint.cc:301-337: an antenna with valid data; the angle of the reference antenna is None as long as there is none.  The result, the angle of the reference, and whether there is divergence *)
Definition constrain_antenna (fuel : nat) (m : dmode) (refer : bool) (mean : R * R) (angle0 : option R) (j : jones) : result * option R * bool :=
  let '(angle, (x, y)) := fit_both j in
  let '(x, div1) := if rltb 0 (fst mean) then limit fuel x (fst mean) 5 else (x, false) in
  let '(y, div2) := if rltb 0 (snd mean) then limit fuel y (fst mean) 5 else (y, false) in
  let d := constrain_diagonal m (x, y) in
  let '(angle, angle0) := if refer then match angle0 with None => (0, Some angle) | Some a0 => (restrict (angle - a0), Some a0) end else (angle, angle0) in
  let out := Jones (rscale (cos angle) (fst d)) (ropp (rscale (sin angle) (fst d))) (rscale (sin angle) (snd d)) (rscale (cos angle) (snd d)) in
  (Result angle d out, angle0, (div1 || div2)%bool).
(** ddecal/constraints/RotationAndDiagonalConstraint.cc:130-152 (MakeDiagonalResults): the names of the tables *)
Inductive table := Amplitude | Phase.
(** ddecal/constraints/RotationAndDiagonalConstraint.cc:130-152 (MakeDiagonalResults): the tables for the diagonal *)
Definition tables (m : dmode) : list table :=
  (match m with Diagonal | DiagonalAmplitude | Scalar | ScalarAmplitude => [Amplitude] | _ => [] end) ++ (match m with Diagonal | DiagonalPhase | Scalar | ScalarPhase => [Phase] | _ => [] end).
(** ddecal/constraints/RotationAndDiagonalConstraint.h:60-99 (StoreDiagonal): for each table what is stored, with the positions *)
Definition store_diagonal (n_sub n_ch : nat) (m : dmode) (d : rc * rc) (a s c : nat) : list (list (nat * R)) :=
  let i := ((a * n_sub + s) * n_ch + c)%nat in
  let '(x, y) := d in
  match m with
  | Diagonal => [[((i * 2)%nat, rabs x); ((i * 2 + 1)%nat, rabs y)]; [((i * 2)%nat, arg x); ((i * 2 + 1)%nat, arg y)]]
  | DiagonalAmplitude => [[((i * 2)%nat, rabs x); ((i * 2 + 1)%nat, rabs y)]]
  | DiagonalPhase => [[((i * 2)%nat, arg x); ((i * 2 + 1)%nat, arg y)]]
  | Scalar => [[(i, rabs x)]; [(i, arg x)]]
  | ScalarAmplitude => [[(i, rabs x)]]
  | ScalarPhase => [[(i, arg x)]]
  | Rotation => []
  end.
(** ddecal/constraints/RotationAndDiagonalConstraint.cc:283-338: the loop over the antennas *)
Fixpoint constrain_antennas (fuel : nat) (m : dmode) (refer : bool) (mean : R * R) (angle0 : option R) (diverged : bool) (l : list (option jones)) : list (option result) * bool :=
  match l with
  | [] => ([], diverged)
  | None :: l => let '(r, d) := constrain_antennas fuel m refer mean angle0 diverged l in (None :: r, d)
  | Some j :: l =>
    let '(x, angle0, div) := constrain_antenna fuel m refer mean angle0 j in
    let '(r, d) := constrain_antennas fuel m refer mean angle0 (diverged || div)%bool l in (Some x :: r, d)
  end.
(** ddecal/constraints/RotationAndDiagonalConstraint.cc:251-352: one channel block and sub-solution; what is stored for the antennas, and whether there is divergence *)
Definition apply_channel (fuel : nat) (m : dmode) (refer : bool) (l : list (option jones)) : list (option result) * bool :=
  constrain_antennas fuel m refer (means l) None false l.

(** * Faraday rotation *)

(** ddecal/constraints/FaradayConstraint.cc:129-153: the samples for the fit, in the order of the square of the wavelength; the last component is the weight.  c is the speed of light *)
Definition samples (c : R) (n : nat) (freq : nat -> R) (data : nat -> option jones) (weight : nat -> R) : list (R * R * R) :=
  map (fun i => let ch := (n - i - 1)%nat in let x := c / freq ch * (c / freq ch) in
    match data ch with Some j => (x, fit_rotation j * 2, weight ch) | None => (x, 0, 0) end) (seq 0 n).
(** ddecal/constraints/FaradayConstraint.cc:164-183: a channel block; an element that is not finite remains so, but for the diagonal that is set to one *)
Definition faraday_channel (m : dmode) (angle : R) (data : option jones) : option jones :=
  let set d := let r := set_rotation angle in Jones (rmul (j0 r) (fst d)) (rmul (j1 r) (snd d)) (rmul (j2 r) (fst d)) (rmul (j3 r) (snd d)) in
  match data with
  | Some j => Some (set (constrain_diagonal m (rsub (rscale (cos angle) (j0 j)) (rscale (sin angle) (j1 j)), radd (rscale (sin angle) (j2 j)) (rscale (cos angle) (j3 j)))))
  | None => match m with Rotation => Some (set (rc1, rc1)) | _ => None end
  end.
(** ddecal/constraints/FaradayConstraint.cc:124-185 (PerformFit): the rotation measure and the solutions; fit_slope is common/phasefitting's FitSlope *)
Definition perform_fit (fit_slope : list (R * R * R) -> R) (c : R) (n : nat) (freq : nat -> R) (m : dmode) (data : nat -> option jones) (weight : nat -> R) : R * (nat -> option jones) :=
  let s := samples c n freq data weight in
  let slope := / 2 * fit_slope s in
  (slope, fun ch => if (ch <? n)%nat then faraday_channel m (fst (fst (nth (n - ch - 1) s (0, 0, 0))) * slope) (data ch) else data ch).
End Arg.

(** * Weights of the results *)

(** ddecal/constraints/RotationConstraint.cc:26-32 (SetWeights), and RotationAndDiagonalConstraint.cc:183-186 for the rotation *)
Definition rotation_weights (n_sub : nat) (w : list R) : list R := concat (repeat w n_sub).
(** ddecal/constraints/RotationAndDiagonalConstraint.cc:190-210, FaradayConstraint.cc:64-83: the weights of the diagonal *)
Definition diagonal_weights (n_ant n_sub n_ch n_pol : nat) (w : list R) : list R :=
  flat_map (fun a => flat_map (fun _ => flat_map (fun ch => map (fun _ => nth (a * n_ch + ch) w 0) (seq 0 n_pol)) (seq 0 n_ch)) (seq 0 n_sub)) (seq 0 n_ant).
(** ddecal/constraints/FaradayConstraint.cc:91-103 (SetSubSolutionWeights): the weights of the diagonal *)
Definition sub_weights (n_ant n_ch : nat) (ws : list (list R)) : list R :=
  flat_map (fun a => flat_map (fun w => map (fun ch => nth (a * n_ch + ch) w 0) (seq 0 n_ch)) ws) (seq 0 n_ant).
(** Assignment to an element of a vector, as in ddecal/constraints/RotationAndDiagonalConstraint.cc:239 *)
Definition set_at (w : nat -> R) (i : nat) (v : R) : nat -> R := fun k => if (k =? i)%nat then v else w k.
(** ddecal/constraints/RotationAndDiagonalConstraint.cc:234-242 (SetChannelWeights) *)
Definition set_channel_weights (n_ant n_ch pols : nat) (w : nat -> R) (ch : nat) : nat -> R :=
  fold_left (fun w a => fold_left (fun w p => set_at w ((a * n_ch + ch) * pols + p)%nat (-1)) (seq 0 pols) w) (seq 0 n_ant) w.
(** ddecal/constraints/RotationAndDiagonalConstraint.cc:284-299: the weights of the antennas that have no valid data *)
Definition flag_invalid (n_ant n_sub n_ch pols : nat) (invalid : nat -> bool) (w : nat -> R) (sub ch : nat) : nat -> R :=
  fold_left (fun w a => if invalid a then fold_left (fun w p => set_at w (((a * n_sub + sub) * n_ch + ch) * pols + p)%nat (-1)) (seq 0 pols) w else w) (seq 0 n_ant) w.
(** ddecal/constraints/RotationAndDiagonalConstraint.cc:249-353 (Apply): the weights of one of the results; whether data are invalid and whether there is divergence is given *)
Definition apply_weights (n_ant n_sub n_ch pols : nat) (invalid : nat -> nat -> nat -> bool) (diverged : nat -> nat -> bool) (w : nat -> R) : nat -> R :=
  fold_left (fun w sub => fold_left (fun w ch =>
    let w := flag_invalid n_ant n_sub n_ch pols (invalid sub ch) w sub ch in
    if diverged sub ch then set_channel_weights n_ant n_ch pols w ch else w) (seq 0 n_ch) w) (seq 0 n_sub) w.
