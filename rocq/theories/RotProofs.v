(** Lemmas about the constraints on Jones matrices of DDECal. *)
From Coq Require Import Reals List Arith Bool Lia Lra Psatz.
From Verif Require Import RealCplx ConstrModel ConstrProofs RotModel RotSpec.
Import ListNotations.
Open Scope R_scope.

Lemma half_turns a k : exists s, s * s = 1 /\ cos (a + IZR k * PI) = s * cos a /\ sin (a + IZR k * PI) = s * sin a.
Proof.
  assert (S : sin (IZR k * PI) = 0) by (apply sin_eq_0_1; now exists k).
  pose proof (sin2_cos2 (IZR k * PI)) as Q. unfold Rsqr in Q. rewrite S in Q.
  exists (cos (IZR k * PI)). split; [lra|]. rewrite cos_plus, sin_plus, S. split; ring.
Qed.
(** angles with the same double angle *)
Lemma double_angle d : cos (2 * d) = 1 -> exists k, d = IZR k * PI.
Proof. intros H. apply sin_eq_0_0. rewrite cos_2a_sin in H. nra. Qed.
Lemma fmod_range x : 0 <= x -> exists k, fmod x PI = x - IZR k * PI /\ 0 <= fmod x PI < PI.
Proof.
  intros X. unfold fmod. destruct (Rle_dec 0 x); [|easy]. exists (Int_part (x / PI)). split; [ring|].
  pose proof PI_RGT_0 as P. destruct (base_Int_part (x / PI)) as [A B]. assert (E : x = PI * (x / PI)) by (field; lra).
  set (q := x / PI) in *. set (n := IZR (Int_part q)) in *. split; nra.
Qed.
Lemma restrict_ok a : - (7 / 2) * PI <= a -> same_axis (restrict a) a /\ - (PI / 2) <= restrict a < PI / 2.
Proof.
  intros H. unfold restrict. destruct (fmod_range (a + 7 / 2 * PI)) as (k & E & R); [lra|]. split; [|lra].
  exists (3 - k)%Z. rewrite E, minus_IZR. field.
Qed.

Section Arg.
Variable arg : rc -> R.
Hypothesis Harg : principal arg.

Lemma fit_bound j : - PI <= fit_rotation arg j <= PI.
Proof.
  unfold fit_rotation. set (ll := radd _ _). set (rr := radd _ (rmul _ (rsub (j1 j) _))). destruct (Harg ll) as [_ A], (Harg rr) as [_ B]. lra.
Qed.
Lemma fit_turned q t j : q <> rc0 ->
  radd (radd (j0 j) (j3 j)) (rmul (RC 0 1) (rsub (j2 j) (j1 j))) = rmul q (RC (cos t) (sin t)) ->
  radd (radd (j0 j) (j3 j)) (rmul (RC 0 1) (rsub (j1 j) (j2 j))) = rmul q (RC (cos t) (- sin t)) ->
  same_axis (fit_rotation arg j) t.
Proof.
  intros Q L R. unfold fit_rotation. rewrite L, R. clear L R.
  set (u := rmul q (RC (cos t) (sin t))). set (v := rmul q (RC (cos t) (- sin t))).
  destruct (Harg u) as [U _], (Harg v) as [V _]. set (al := arg u) in *. set (be := arg v) in *.
  pose proof (sin2_cos2 t) as SC. unfold Rsqr in SC.
  assert (N1 : rabs u = rabs q). { unfold u. rewrite rabs_mul. replace (rabs (RC (cos t) (sin t))) with 1; [ring|]. unfold rabs, rnorm; cbn. replace (cos t * cos t + sin t * sin t) with 1 by lra. now rewrite sqrt_1. }
  assert (N2 : rabs v = rabs q). { unfold v. rewrite rabs_mul. replace (rabs (RC (cos t) (- sin t))) with 1; [ring|]. unfold rabs, rnorm; cbn. replace (cos t * cos t + - sin t * - sin t) with 1 by lra. now rewrite sqrt_1. }
  rewrite N1 in U. rewrite N2 in V. pose proof (rabs_pos q Q) as P. set (r := rabs q) in *.
  (* u * conj v = q * conj q * e^(2it) *)
  assert (E : rmul u (rconj v) = rmul (RC (r * r) 0) (rmul (RC (cos t) (sin t)) (RC (cos t) (sin t)))).
  { unfold u, v. rewrite rconj_mul. replace (RC (r * r) 0) with (rmul (rconj q) q) by (rewrite rnorm_spec; unfold r; now rewrite rabs_square).
    replace (rconj (RC (cos t) (- sin t))) with (RC (cos t) (sin t)) by (apply rc_eq; cbn; ring). ring. }
  rewrite U, V in E. inversion E as [[E1 E2]]. clear E.
  assert (C : cos (al - be) = cos (2 * t)).
  { rewrite cos_minus, cos_2a. apply (Rmult_eq_reg_l (r * r)); [|nra]. lra. }
  assert (S : sin (al - be) = sin (2 * t)).
  { rewrite sin_minus, sin_2a. apply (Rmult_eq_reg_l (r * r)); [|nra]. lra. }
  destruct (double_angle (/ 2 * (al - be) - t)) as (k & K).
  - replace (2 * (/ 2 * (al - be) - t)) with ((al - be) - 2 * t) by field. rewrite cos_minus, C, S.
    pose proof (sin2_cos2 (2 * t)) as X. unfold Rsqr in X. lra.
  - exists k. lra.
Qed.
Lemma fit_dr x y t : radd x y <> rc0 -> same_axis (fit_rotation arg (diagonal_rotation x y t)) t.
Proof. intros N. apply (fit_turned (radd x y) t); [assumption| |]; apply rc_eq; cbn; ring. Qed.
Lemma fit_rd x y t : radd x y <> rc0 -> same_axis (fit_rotation arg (rotation_diagonal t x y)) t.
Proof. intros N. apply (fit_turned (radd x y) t); [assumption| |]; apply rc_eq; cbn; ring. Qed.
Lemma same_axis_trans a b c : same_axis a b -> same_axis b c -> same_axis a c.
Proof. intros (k & ->) (l & ->). exists (l + k)%Z. rewrite plus_IZR. ring. Qed.
Lemma axis_range a : - (7 / 2) * PI <= a -> exists b, restrict a = b /\ same_axis b a /\ - (PI / 2) <= b < PI / 2.
Proof. intros H. destruct (restrict_ok a H). eauto. Qed.
Lemma fit_both_range j : same_axis (fst (fit_both arg j)) (fit_rotation arg j) /\ - (PI / 2) <= fst (fit_both arg j) < PI / 2.
Proof. unfold fit_both. cbn [fst]. apply restrict_ok. pose proof (fit_bound j). pose proof PI_RGT_0. lra. Qed.
Lemma same_angle a b : same_axis a b -> - (PI / 2) <= a < PI / 2 -> - (PI / 2) <= b < PI / 2 -> a = b.
Proof.
  intros (k & E) A B. pose proof PI_RGT_0 as P. assert (k = 0)%Z as ->; [|lra].
  assert (-1 < k < 1)%Z; [|lia]. split; apply lt_IZR; nra.
Qed.
(** the diagonal of a product, up to a sign *)
Lemma fit_both_dr x y t : radd x y <> rc0 -> exists a s, fit_both arg (diagonal_rotation x y t) = (a, (rscale s x, rscale s y)) /\ s * s = 1 /\ cos a = s * cos t /\ sin a = s * sin t /\
  (- (PI / 2) <= t < PI / 2 -> s = 1 /\ a = t).
Proof.
  intros N. set (j := diagonal_rotation x y t). destruct (fit_both_range j) as [A B].
  assert (C : same_axis (fst (fit_both arg j)) t) by (eapply same_axis_trans; [apply A|now apply fit_dr]).
  destruct (C) as (k & K). destruct (half_turns t k) as (s & S & C1 & C2). rewrite <- K in C1, C2.
  unfold fit_both in *. cbn [fst] in *. set (a := restrict (fit_rotation arg j)) in *.
  pose proof (sin2_cos2 t) as SC. unfold Rsqr in SC.
  exists a, s. repeat split; auto.
  - unfold j, diagonal_rotation. cbn [j0 j1 j2 j3]. rewrite C1, C2. f_equal. f_equal; apply rc_eq; cbn.
    + transitivity (s * re x * (sin t * sin t + cos t * cos t)); [ring|rewrite SC; ring].
    + transitivity (s * im x * (sin t * sin t + cos t * cos t)); [ring|rewrite SC; ring].
    + transitivity (s * re y * (sin t * sin t + cos t * cos t)); [ring|rewrite SC; ring].
    + transitivity (s * im y * (sin t * sin t + cos t * cos t)); [ring|rewrite SC; ring].
  - assert (E : a = t) by (apply same_angle; auto). rewrite E in C1, C2. destruct (Req_dec (cos t) 0); [|nra]. nra.
  - apply same_angle; auto.
Qed.

Lemma limit_value fuel v m r : 0 < r -> fst (limit (S fuel) v m r) = v.
Proof.
  intros R. unfold limit. destruct (rltb 0 m) eqn:M; [|reflexivity]. apply rltb_true in M.
  destruct (rltb (rabs v / m) (1 / r)) eqn:A; [reflexivity|]. destruct (rltb r (rabs v / m)) eqn:B; [reflexivity|]. cbn [orb fst].
  apply rltb_false in A, B.
  assert (P : 0 <= rabs v / m). { unfold Rdiv. apply Rmult_le_pos; [apply rabs_nonneg|]. left. now apply Rinv_0_lt_compat. }
  assert (SC : forall x z, 0 <= x -> rabs (rscale x z) = x * rabs z).
  { intros x z X. unfold rabs. rewrite rnorm_scale, sqrt_mult; [|nra|apply rnorm_nonneg]. now rewrite sqrt_square. }
  assert (U : raise (S fuel) m r v = rscale (12 / 10) v).
  { cbn [raise]. rewrite (proj2 (rltb_false _ _)); [reflexivity|]. rewrite SC by lra. replace (12 / 10 * rabs v / m) with (12 / 10 * (rabs v / m)) by (field; lra). lra. }
  rewrite U. cbn [lower]. replace (rscale (/ (12 / 10)) (rscale (12 / 10) v)) with v by (apply rc_eq; cbn; field). now rewrite (proj2 (rltb_false _ _) B).
Qed.
Lemma limit_flag fuel v m : snd (limit fuel v m 5) = true <-> 0 < m /\ far (rabs v) m.
Proof.
  unfold limit, far. destruct (rltb 0 m) eqn:M.
  - apply rltb_true in M. assert (E : rabs v = rabs v / m * m) by (field; lra). set (q := rabs v / m) in *.
    destruct (rltb q (1 / 5)) eqn:A; [|destruct (rltb 5 q) eqn:B]; cbn [orb snd].
    + apply rltb_true in A. split; [|reflexivity]. intros _. split; [assumption|]. left. nra.
    + apply rltb_true in B. split; [|reflexivity]. intros _. split; [assumption|]. right. nra.
    + apply rltb_false in A, B. split; [discriminate|]. intros (_ & [H|H]); nra.
  - apply rltb_false in M. cbn. split; [discriminate|]. intros (H & _). lra.
Qed.
(** a run of the loop: what is stored *)
Lemma antenna_at fuel m refer mean angle0 j :
  let '(a, (x, y)) := fit_both arg j in
  exists a' o d, constrain_antenna arg (S fuel) m refer mean angle0 j = (Result a' (constrain_diagonal m (x, y)) (diagonal_rotation (fst (constrain_diagonal m (x, y))) (snd (constrain_diagonal m (x, y))) a'), o, d) /\
  (refer = false -> a' = a /\ o = angle0) /\
  (refer = true -> angle0 = None -> a' = 0 /\ o = Some a) /\
  (refer = true -> forall a0, angle0 = Some a0 -> a' = restrict (a - a0) /\ o = Some a0) /\
  (d = true <-> (0 < fst mean /\ far (rabs x) (fst mean)) \/ (0 < snd mean /\ 0 < fst mean /\ far (rabs y) (fst mean))).
Proof.
  destruct (fit_both arg j) as [a [x y]] eqn:E. unfold constrain_antenna. rewrite E. destruct mean as [ma mb]. cbn [fst snd].
  destruct (limit (S fuel) x ma 5) as [x' dx] eqn:LX. destruct (limit (S fuel) y ma 5) as [y' dy] eqn:LY.
  assert (X : x' = x) by (pose proof (limit_value fuel x ma 5) as Q; rewrite LX in Q; apply Q; lra).
  assert (Y : y' = y) by (pose proof (limit_value fuel y ma 5) as Q; rewrite LY in Q; apply Q; lra).
  pose proof (limit_flag (S fuel) x ma) as FX. rewrite LX in FX. pose proof (limit_flag (S fuel) y ma) as FY. rewrite LY in FY. cbn [snd] in FX, FY. subst x' y'.
  assert (O : forall d a', Jones (rscale (cos a') (fst d)) (ropp (rscale (sin a') (fst d))) (rscale (sin a') (snd d)) (rscale (cos a') (snd d)) = diagonal_rotation (fst d) (snd d) a').
  { intros d a'. unfold diagonal_rotation. f_equal; apply rc_eq; cbn; ring. }
  assert (D : exists dx' dy', (if rltb 0 ma then (x, dx) else (x, false)) = (x, dx') /\ (if rltb 0 mb then (y, dy) else (y, false)) = (y, dy') /\
    ((dx' || dy')%bool = true <-> (0 < ma /\ far (rabs x) ma) \/ (0 < mb /\ 0 < ma /\ far (rabs y) ma))).
  { destruct (rltb 0 ma) eqn:A, (rltb 0 mb) eqn:B; [exists dx, dy|exists dx, false|exists false, dy|exists false, false]; (split; [reflexivity|]); (split; [reflexivity|]).
    all: rewrite orb_true_iff; repeat match goal with H : rltb _ _ = true |- _ => apply rltb_true in H | H : rltb _ _ = false |- _ => apply rltb_false in H end.
    - tauto.
    - split; [intros [H|H]; [left; now apply FX|discriminate]|]. intros [H|H]; [left; now apply FX|lra].
    - split; [intros [H|H]; [discriminate|]|]; [apply FY in H; lra|]. intros [H|H]; lra.
    - split; [intros [H|H]; discriminate|]. intros [H|H]; lra. }
  destruct D as (dx' & dy' & -> & -> & D).
  destruct refer; [destruct angle0 as [a0|]|]; cbn [fst snd]; rewrite O; eexists _, _, _; (split; [reflexivity|]); repeat split; try discriminate; try tauto; try congruence; intros; try (apply D; assumption).
  all: match goal with H : Some _ = Some _ |- _ => injection H as -> end; reflexivity.
Qed.
End Arg.
