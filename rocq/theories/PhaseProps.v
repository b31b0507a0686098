(** C71: the step in phase-only mode. *)
From Coq Require Import Reals List Arith Lra Lia.
From Verif Require Import PhaseModel.
Import ListNotations.
Open Scope R_scope.

Lemma wrap_batch_eq d : wrap_batch d = wrap d.
Proof.
  unfold wrap_batch, wrap. pose proof PI_RGT_0. destruct (Rlt_dec PI d) as [A|A].
  - destruct (Rlt_dec (d - 2 * PI) (- PI)); lra.
  - rewrite Rminus_0_r. destruct (Rlt_dec d (- PI)); lra.
Qed.
Lemma steps_eq {C} (arg : C -> R) step B n : forall l, phase_steps arg step B n l = map (fun p => phase_single arg step (fst p) (snd p)) l.
Proof.
  induction n as [|n IH]; intros l; [reflexivity|]. cbn [phase_steps]. rewrite IH. rewrite <- (firstn_skipn B l) at 3. rewrite map_app. f_equal. apply map_ext. intros p. unfold phase_batch. now rewrite wrap_batch_eq.
Qed.
(** For any batch size of the processor, solutions and next solutions: every new solution has absolute value one, and its phase is the given fraction of the way from the phase
    of the solution to that of the next one, along the circle in the shorter direction. *)
Theorem C71_phase : forall C (arg : C -> R) step B (l : list (C * C)) i s n, (forall c, - PI <= arg c <= PI) -> (i < length l)%nat -> nth i l (s, n) = (s, n) ->
  length (phase_step arg step B l) = length l /\
  exists d, nth i (phase_step arg step B l) (0, 0) = (cos (arg s + step * d), sin (arg s + step * d)) /\ Rabs d <= PI /\ (exists k : Z, arg s + d = arg n + IZR k * (2 * PI)) /\
  let x := nth i (phase_step arg step B l) (0, 0) in fst x * fst x + snd x * snd x = 1.
Proof.
  intros C arg step B l i s n HA Hi E. unfold phase_step. rewrite steps_eq. split; [apply map_length|]. set (f := fun p => phase_single arg step (fst p) (snd p)).
  assert (X : nth i (map f l) (0, 0) = f (s, n)) by (rewrite (nth_indep _ (0, 0) (f (s, n))) by (now rewrite map_length); now rewrite map_nth, E).
  exists (wrap (arg n - arg s)). rewrite X. split; [reflexivity|]. pose proof (HA s). pose proof (HA n). pose proof PI_RGT_0. split; [|split].
  - unfold wrap. destruct (Rlt_dec PI (arg n - arg s)); [apply Rabs_le; lra|]. destruct (Rlt_dec (arg n - arg s) (- PI)); apply Rabs_le; lra.
  - unfold wrap. destruct (Rlt_dec PI (arg n - arg s)); [exists (-1)%Z; lra|]. destruct (Rlt_dec (arg n - arg s) (- PI)); [exists 1%Z|exists 0%Z]; lra.
  - unfold f, phase_single, polar. cbn [fst snd]. pose proof (sin2_cos2 (arg s + step * wrap (arg n - arg s))) as Q. unfold Rsqr in Q. lra.
Qed.
Print Assumptions C71_phase.
(** From a phase just below pi to one just above - pi: the step goes through pi *)
Example C71_phase_case : wrap ((- PI + 1 / 10) - (PI - 1 / 10)) = 2 / 10 /\ wrap_batch ((PI - 1 / 10) - (- PI + 1 / 10)) = - (2 / 10).
Proof.
  assert (3 < PI) by (pose proof PI2_3_2; lra). rewrite wrap_batch_eq. unfold wrap. split; repeat match goal with |- context [Rlt_dec ?a ?b] => destruct (Rlt_dec a b) end; lra.
Qed.
