(** Model of the step in phase-only mode: ddecal/gain_solvers/SolverBase.cc:117-156.  Numbers are real numbers. *)
From Coq Require Import Reals List Arith.
Import ListNotations.
Open Scope R_scope.

(** SolverBase.cc:148-153: the distance along the circle, for a single solution *)
Definition wrap (distance : R) : R :=
  if Rlt_dec PI distance then distance - 2 * PI else if Rlt_dec distance (- PI) then distance + 2 * PI else distance.
(** SolverBase.cc:137-140: the same for a batch, with two selections after each other *)
Definition wrap_batch (distance : R) : R :=
  let distance := distance - (if Rlt_dec PI distance then 2 * PI else 0) in
  distance + (if Rlt_dec distance (- PI) then 2 * PI else 0).
(** SolverBase.cc:142-143, 154: std::polar(1.0, phase) *)
Definition polar (phase : R) : R * R := (cos phase, sin phase).

Section Step.
(** std::arg *)
Context {C : Type}.
Variable arg : C -> R.
Variable step_size : R.
(** SolverBase.cc:146-155: one solution *)
Definition phase_single (s n : C) : R * R := polar (arg s + step_size * wrap (arg n - arg s)).
(** SolverBase.cc:128-144: a solution in a batch *)
Definition phase_batch (s n : C) : R * R := polar (arg s + step_size * wrap_batch (arg n - arg s)).
(** SolverBase.cc:127-156: [n] batches of size [B], and the rest *)
Fixpoint phase_steps (B n : nat) (l : list (C * C)) : list (R * R) :=
  match n with
  | O => map (fun p => phase_single (fst p) (snd p)) l
  | S n => map (fun p => phase_batch (fst p) (snd p)) (firstn B l) ++ phase_steps B n (skipn B l)
  end.
(** SolverBase.cc:120-156: all solutions of a channel block *)
Definition phase_step (B : nat) (l : list (C * C)) : list (R * R) := phase_steps B (length l / B) l.
End Step.
