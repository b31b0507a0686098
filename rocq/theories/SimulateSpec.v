(** What the visibilities of model components should be. *)
From Coq Require Import Reals List Permutation.
From Verif Require Import EulerModel SimulateModel.
Import ListNotations.
Open Scope R_scope.

(** * Directions on the sky *)
Definition dot (a b : vec) : R := let '(x, y, z) := a in let '(x', y', z') := b in x * x' + y * y' + z * z'.
Definition minus (a b : vec) : vec := let '(x, y, z) := a in let '(x', y', z') := b in (x - x', y - y', z - z').
Definition cross (a b : vec) : vec := let '(x, y, z) := a in let '(x', y', z') := b in (y * z' - z * y', z * x' - x * z', x * y' - y * x').
(** The unit vector to a direction, and those to the east and the north of it *)
Definition sky (d : direction) : vec := (cos (dec d) * cos (ra d), cos (dec d) * sin (ra d), sin (dec d)).
Definition east (d : direction) : vec := (- sin (ra d), cos (ra d), 0).
Definition north (d : direction) : vec := (- sin (dec d) * cos (ra d), - sin (dec d) * sin (ra d), cos (dec d)).
(** The coordinates of a vector in the frame of a reference direction, and the vector with given coordinates *)
Definition to_frame (ref : direction) (x : vec) : vec := (dot x (east ref), dot x (north ref), dot x (sky ref)).
Definition of_frame (ref : direction) (b : vec) : vec :=
  let '(u, v, w) := b in let '(x, y, z) := east ref in let '(x', y', z') := north ref in let '(x'', y'', z'') := sky ref in
  (u * x + v * x' + w * x'', u * y + v * y' + w * y'', u * z + v * z' + w * z'').

(** * Complex numbers *)
Definition czero : cx := MkC 0 0.
Definition cconj (a : cx) : cx := MkC (cr a) (- ci a).
Definition ctimes (a b : cx) : cx := MkC (cr a * cr b - ci a * ci b) (cr a * ci b + ci a * cr b).
Definition cscale (x : R) (a : cx) : cx := MkC (x * cr a) (x * ci a).
Definition cis (phi : R) : cx := MkC (cos phi) (sin phi).
Definition csum (l : list cx) : cx := fold_right cplus czero l.

(** * Visibilities *)
(** The coherencies of linear feeds, or the intensity *)
Definition coherencies (i_only : bool) (s : stokes) : list cx :=
  if i_only then [MkC (s_I s) 0]
  else [MkC (s_I s + s_Q s) 0; cplus (MkC (s_U s) 0) (ctimes (MkC 0 1) (MkC (s_V s) 0)); cplus (MkC (s_U s) 0) (ctimes (MkC 0 (-1)) (MkC (s_V s) 0)); MkC (s_I s - s_Q s) 0].
(** The phase of a source in a direction, for a baseline with coordinates [b] in the frame of the reference; it is zero for the reference *)
Definition phase (ref d : direction) (b : vec) (f : R) : R := 2 * PI * f / light * dot (minus (to_frame ref (sky d)) (0, 0, 1)) b.
(** How fast it changes if the baseline rotates about the pole [ncp] *)
Definition rate (ref d : direction) (ncp : R * R) (b : vec) (f : R) : R :=
  2 * PI * f / light * dot (minus (to_frame ref (sky d)) (0, 0, 1)) (cross b (0, fst ncp, snd ncp)).
(** The amplitude of a Gaussian with sizes (sigma) along the major and minor axis; the angle of the major axis is from north over east *)
Definition gaussian (major minor angle f u v : R) : R :=
  let along := sin angle * u + cos angle * v in
  let across := cos angle * u - sin angle * v in
  exp (- (2 * (PI * (f / light)) ^ 2 * ((major * along) ^ 2 + (minor * across) ^ 2))).
(** A full width at half maximum has half the value at half the width *)
Definition sigma_of (fwhm : R) : R := fwhm / (2 * sqrt (2 * ln 2)).
(** The amplitude for a component: one for a point; for a Gaussian seen from its own direction, or else from the reference *)
Definition size_factor (ref : direction) (c : component) (b : vec) (f : R) : R :=
  match c with
  | Point _ => 1
  | Gaussian s g =>
    let '(u, v, _) := if g_absolute g then to_frame (p_dir s) (of_frame ref b) else b in
    gaussian (sigma_of (g_major g)) (sigma_of (g_minor g)) (g_angle g) f u v
  end.
Definition source_of (c : component) : source := match c with Point s => s | Gaussian s _ => s end.
(** The visibility of a component: correlation [k] in a channel with frequency [f] and width [d] on a baseline with coordinates [b] *)
Definition visibility (ref : direction) (ncp : R * R) (smear_time smear_freq i_only : bool) (c : component) (f d : R) (b : vec) (k : nat) : cx :=
  let dir := p_dir (source_of c) in
  cscale (size_factor ref c b f * (if smear_time then sinc (rate ref dir ncp b f / 2) else 1) * (if smear_freq then sinc (phase ref dir b d / 2) else 1))
    (ctimes (nth k (coherencies i_only (stokes_at (source_of c) f)) czero) (cis (phase ref dir b f))).

(** * Buffers *)
Definition value (buffer : list (list (list cx))) (bl ch k : nat) : cx := nth k (nth ch (nth bl buffer []) []) czero.
Definition shaped (nbl nchan ncorr : nat) (buffer : list (list (list cx))) : Prop :=
  length buffer = nbl /\ forall b, In b buffer -> length b = nchan /\ forall c, In c b -> length c = ncorr.

(** * Spectra *)
(** A polynomial with given coefficients, from low to high *)
Fixpoint polynomial (terms : list R) (x : R) : R := match terms with [] => 0 | t :: terms => t + x * polynomial terms x end.

(** * The rotation of the Earth *)
(** The coordinates of a baseline (X, Y, Z) for a declination and an hour angle *)
Definition uvw_at (xyz : vec) (delta h : R) : vec :=
  let '(x, y, z) := xyz in
  (x * sin h + y * cos h, - x * sin delta * cos h + y * sin delta * sin h + z * cos delta, x * cos delta * cos h - y * cos delta * sin h + z * sin delta).
