(** Model of base/Simulator.cc and base/PointSource.cc: the visibilities of model components.  Numbers are real numbers. *)
From Coq Require Import Reals List Arith.
From Verif Require Import EulerModel.
Import ListNotations.
Open Scope R_scope.

(** * Components *)

(** base/Stokes.h:16-21 *)
Record stokes := MkStokes { s_I : R; s_Q : R; s_U : R; s_V : R }.
(** base/PointSource.h:61-69: a source; [p_rm] are the polarized fraction, polarization angle and rotation measure, if there is one *)
Record source := MkSource { p_dir : direction; p_stokes : stokes; p_ref : R; p_terms : list R; p_log : bool; p_rm : option (R * R * R) }.
(** base/GaussianSource.h:52-59 *)
Record shape := MkShape { g_angle : R; g_absolute : bool; g_major : R; g_minor : R }.
(** base/ModelComponentVisitor.h: what can be visited *)
Inductive component := Point (s : source) | Gaussian (s : source) (g : shape).

(** std::log10, for positive arguments *)
Definition log10 (x : R) : R := ln x / ln 10.
(** base/PointSource.cc:63-71, 78-84: Horner's rule from the last term to the first *)
Definition horner (x : R) (terms : list R) : R := fold_left (fun v t => v * x + t) (rev terms) 0.
(** base/PointSource.cc:54-86: Stokes I *)
Definition intensity (s : source) (freq : R) : R :=
  match p_terms s with
  | [] => s_I (p_stokes s)
  | _ =>
    if p_log s then let base := log10 freq - log10 (p_ref s) in s_I (p_stokes s) * Rpower 10 (base * horner base (p_terms s))
    else let x := freq / p_ref s - 1 in s_I (p_stokes s) + horner x (p_terms s) * x
  end.
(** base/PointSource.cc:51-98 *)
Definition stokes_at (s : source) (freq : R) : stokes :=
  let i := intensity s freq in
  match p_rm s with
  | None => MkStokes i (s_Q (p_stokes s)) (s_U (p_stokes s)) (s_V (p_stokes s))
  | Some (fraction, angle, rm) =>
    let lambda := light / freq in
    let chi := 2 * (angle + rm * lambda * lambda) in
    MkStokes i (i * fraction * cos chi) (i * fraction * sin chi) (s_V (p_stokes s))
  end.

(** * The simulator *)

(** std::complex *)
Record cx := MkC { cr : R; ci : R }.
(** std::complex: sum *)
Definition cplus (a b : cx) : cx := MkC (cr a + cr b) (ci a + ci b).
(** base/Simulator.h:192-211 *)
Record simulator := MkSim {
  m_ref : direction; m_baselines : list (nat * nat); m_freq : list R; m_width : list R;
  m_ncp : R * R; (* the second and third value of the direction to the pole; the first is taken to be zero (Simulator.cc:491-495) *)
  m_uvw : list vec; m_time : bool; m_freq_smear : bool; m_stokes_i : bool }.
(** base/Simulator.h:35-60 *)
Definition lmn (reference d : direction) : vec :=
  let delta := ra d - ra reference in
  (cos (dec d) * sin delta, sin (dec d) * cos (dec reference) - cos (dec d) * sin (dec reference) * cos delta,
   sin (dec d) * sin (dec reference) + cos (dec d) * cos (dec reference) * cos delta).
(** base/Simulator.cc:486 *)
Definition cinv : R := 2 * PI / light.
(** base/Simulator.cc:489-490 *)
Definition station_phase (uvw s : vec) : R :=
  let '(u, v, w) := uvw in let '(l, m, n) := s in cinv * (u * l + v * m + w * (n - 1)).
(** base/Simulator.cc:496-503 *)
Definition earth_rotation (ncp : R * R) (uvw s : vec) : R :=
  let '(u, v, w) := uvw in let '(l, m, n) := s in
  cinv * (l * (v * snd ncp - w * fst ncp) + m * (- u * snd ncp) + (n - 1) * (u * fst ncp)).
(** base/Simulator.cc:472-474: the argument is a float there *)
Definition sinc (x : R) : R := if Rlt_dec (Rabs x) (/ 1000000) then 1 else sin x / x.
(** base/Simulator.cc:527-549: the coherencies of a component *)
Definition spectrum (i_only : bool) (s : stokes) : list cx :=
  if i_only then [MkC (s_I s) 0]
  else [MkC (s_I s + s_Q s) 0; MkC (s_U s) (s_V s); MkC (s_U s) (- s_V s); MkC (s_I s - s_Q s) 0].

Section Simulate.
Variable m : simulator.
(** base/Simulator.h:201-204: the coordinates of a station *)
Notation uvw st := (nth st (m_uvw m) (0, 0, 0)).
(** base/Simulator.cc:510-523: the phase shift of a station in a channel with frequency [f] *)
Definition shift (s : vec) (f : R) (st : nat) : cx := MkC (cos (station_phase (uvw st) s * f)) (sin (station_phase (uvw st) s * f)).
(** base/Simulator.cc:204-211: the coherency [c] times the shift of [q] and the conjugate of the shift of [p] *)
Definition product_of (xp xq c : cx) : cx :=
  let re := cr xp * cr xq + ci xp * ci xq in
  let im := cr xp * ci xq - cr xq * ci xp in
  MkC (re * cr c - im * ci c) (re * ci c + im * cr c).
(** base/Simulator.cc:178-189, 386-395: the smearing in time *)
Definition time_term (s : vec) (f : R) (p q : nat) : R :=
  if m_time m then sinc (1 / 2 * (earth_rotation (m_ncp m) (uvw q) s - earth_rotation (m_ncp m) (uvw p) s) * f) else 1.
(** base/Simulator.cc:190-199, 396-405: the smearing over the width [d] of a channel *)
Definition freq_term (s : vec) (d : R) (p q : nat) : R :=
  if m_freq_smear m then sinc (1 / 2 * (station_phase (uvw q) s - station_phase (uvw p) s) * d) else 1.
(** base/Simulator.cc:217-227 (Stokes I), 258-279 (all): whether the terms are used for a point source *)
Definition smeared : bool := if m_stokes_i m then m_time m || m_freq_smear m else m_freq_smear m.
(** base/Simulator.cc:217-279: the factor of a point source *)
Definition point_term (s : vec) (f d : R) (p q : nat) : R := if smeared then time_term s f p q * freq_term s d p q else 1.
(** base/Simulator.cc:331-333: from the full width at half maximum to sigma *)
Definition fwhm2sigma : R := 1 / (2 * sqrt (2 * ln 2)).
(** base/Simulator.cc:312-327: the coordinates used for the shape of a Gaussian *)
Definition shape_uvw (d : direction) (g : shape) (st : nat) : vec :=
  if g_absolute g then apply (product (transpose (euler d)) (euler (m_ref m))) (uvw st) else uvw st.
(** base/Simulator.cc:298-300, 331-333, 352-384: the amplitude of a Gaussian *)
Definition amplitude (d : direction) (g : shape) (f : R) (p q : nat) : R :=
  let phi := PI / 2 + g_angle g + PI in
  let '(uq, vq, _) := shape_uvw d g q in
  let '(up, vp, _) := shape_uvw d g p in
  let u := uq - up in
  let v := vq - vp in
  let u' := g_major g * fwhm2sigma * (u * cos phi - v * sin phi) in
  let v' := g_minor g * fwhm2sigma * (u * sin phi + v * cos phi) in
  exp (f * f * (1 / (light * light)) * (- (2) * PI * PI * (u' * u' + v' * v'))).
(** base/Simulator.cc:110-282, 284-468: what a component adds to a baseline in a channel, for each correlation *)
Definition contribution (c : component) (f d : R) (p q : nat) : list cx :=
  let '(s, factor) := match c with
    | Point s => (s, point_term (lmn (m_ref m) (p_dir s)) f d p q)
    | Gaussian s g => (s, let x := lmn (m_ref m) (p_dir s) in amplitude (p_dir s) g f p q * time_term x f p q * freq_term x d p q)
    end in
  let x := lmn (m_ref m) (p_dir s) in
  map (fun k => let r := product_of (shift x f p) (shift x f q) k in MkC (factor * cr r) (factor * ci r)) (spectrum (m_stokes_i m) (stokes_at s f)).
(** base/Simulator.cc:157-281, 344-467: a baseline; autocorrelations are left as they are *)
Definition visit_baseline (c : component) (b : nat * nat) (buffer : list (list cx)) : list (list cx) :=
  let '(p, q) := b in
  if (p =? q)%nat then buffer
  else map (fun x => let '(k, cell) := x in
         map (fun y => cplus (fst y) (snd y)) (combine cell (contribution c (nth k (m_freq m) 0) (nth k (m_width m) 0) p q)))
       (combine (seq 0 (length (m_freq m))) buffer).
(** base/Simulator.cc:110-282, 284-468 (visit): the buffer has the values of each baseline, channel and correlation *)
Definition visit (buffer : list (list (list cx))) (c : component) : list (list (list cx)) :=
  map (fun x => visit_baseline c (fst x) (snd x)) (combine (m_baselines m) buffer).
(** steps/OnePredict.cc:592-611: the components one after the other *)
Definition simulate (components : list component) (buffer : list (list (list cx))) : list (list (list cx)) := fold_left visit components buffer.
End Simulate.
