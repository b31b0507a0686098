(** What a change of the phase centre should do. *)
From Coq Require Import Reals List.
From Verif Require Import EulerModel SimulateModel SimulateSpec.
Import ListNotations.
Open Scope R_scope.

(** The coordinates of the same baselines for another centre *)
Definition same_baselines (old new : direction) (uvw uvw' : list vec) : Prop := map (of_frame new) uvw' = map (of_frame old) uvw.
(** The data of a baseline for another centre: each channel has its phase changed by the change of the path length, in turns of the wavelength *)
Definition phase_change (f : R) (uvw uvw' : vec) : cx := let '(_, w) := uvw in let '(_, w') := uvw' in cis (2 * PI * (f / light) * (w - w')).
(** A component that looks the same for every centre: a point, or a Gaussian whose angle is absolute *)
Definition absolute (c : component) : Prop := match c with Point _ => True | Gaussian _ g => g_absolute g = true end.
