(** C98: the constraints on Jones matrices of DDECal. *)
From Coq Require Import Reals List Arith Bool Lia Lra Psatz.
From Verif Require Import CellsProofs AntFlagProofs GainFileModel GainFileProps RealCplx ConstrModel ConstrProofs RotModel RotSpec RotProofs.
Import ListNotations.
Open Scope R_scope.

(** std::arg with values between -pi and pi exists *)
Lemma parg_principal : principal parg.
Proof.
  intros z. split; [apply parg_ok|]. unfold parg. pose proof PI_RGT_0. destruct (Req_EM_T (rabs z) 0); [lra|].
  pose proof (acos_bound (re z / rabs z)). destruct (Rle_dec 0 (im z)); lra.
Qed.

(** C98, leakage and amplitudes: mode=leakage gives matrices with ones on the diagonal and keeps the other elements; the amplitude modes give numbers that are real and not negative, of the same size. *)
Theorem C98_leakage : forall j z, j0 (leakage j) = rc1 /\ j3 (leakage j) = rc1 /\ j1 (leakage j) = j1 j /\ j2 (leakage j) = j2 j /\
  is_amplitude (amplitude_only z) /\ rabs (amplitude_only z) = rabs z.
Proof.
  intros j z. repeat split; cbn; try apply rabs_nonneg. unfold rabs at 1, rnorm. cbn. replace (rabs z * rabs z + 0 * 0) with (rabs z * rabs z) by ring.
  rewrite sqrt_square; [reflexivity|apply rabs_nonneg].
Qed.
Example C98_leakage_example : rabs (amplitude_only (RC 3 (-4))) = rabs (RC 3 (-4)) /\ rabs (RC 3 (-4)) = 5.
Proof.
  split; [apply (proj2 (proj2 (proj2 (proj2 (proj2 (C98_leakage (set_rotation 0) (RC 3 (-4)))))))) |].
  unfold rabs, rnorm. cbn. replace (3 * 3 + -4 * -4) with (5 * 5) by ring. apply sqrt_square. lra.
Qed.
Print Assumptions C98_leakage.

(** C98, mode=rotation: a rotation by t, multiplied with any complex number but zero, is fitted with an angle that is t up to half turns, and becomes that rotation, up to the sign. *)
Theorem C98_rotation : forall arg z t, principal arg -> z <> rc0 ->
  let r := rotation_constraint arg (diagonal_rotation z z t) in
  same_axis (fst r) t /\ exists s, s * s = 1 /\ snd r = diagonal_rotation (RC s 0) (RC s 0) t.
Proof.
  intros arg z t P Z r. assert (A : same_axis (fst r) t).
  { apply fit_dr; [assumption|]. intros E. apply Z. inversion E as [[A B]]. apply rc_eq; cbn; lra. }
  split; [assumption|]. destruct A as (k & K). destruct (half_turns t k) as (s & S & C & D). exists s. split; [assumption|].
  change (snd r) with (set_rotation (fst r)). unfold set_rotation, diagonal_rotation. rewrite K, C, D. f_equal; apply rc_eq; cbn; ring.
Qed.
Example C98_rotation_example : principal parg /\ RC 0 2 <> rc0.
Proof. split; [apply parg_principal|]. intros E. inversion E. lra. Qed.
Print Assumptions C98_rotation.

(** a run over the antennas: what is stored for an antenna, and which angle is the reference *)
Lemma run_at arg fuel m refer mean : forall l angle0 div k,
  let '(outs, _) := constrain_antennas arg (S fuel) m refer mean angle0 div l in
  (nth k l None = None -> nth k outs None = None) /\
  forall j, nth k l None = Some j -> exists o, nth k outs None = Some (fst (fst (constrain_antenna arg (S fuel) m refer mean o j))) /\
  ((forall i, (i < k)%nat -> nth i l None = None) -> o = angle0) /\
  (refer = true -> forall i j', (i < k)%nat -> (forall i', (i' < i)%nat -> nth i' l None = None) -> nth i l None = Some j' ->
   o = match angle0 with Some a0 => Some a0 | None => Some (fst (fit_both arg j')) end) /\
  (refer = true -> forall a0, angle0 = Some a0 -> o = Some a0).
Proof.
  induction l as [|x l IH]; intros angle0 div k; cbn [constrain_antennas].
  - split; [now destruct k|]. intros j E. destruct k; discriminate.
  - destruct x as [j0|].
    + destruct (constrain_antenna arg (S fuel) m refer mean angle0 j0) as [[x o] d] eqn:E.
      destruct (constrain_antennas arg (S fuel) m refer mean o (div || d) l) as [r d'] eqn:R.
      destruct k as [|k].
      * cbn [nth]. split; [discriminate|]. intros j Q. injection Q as <-. exists angle0. rewrite E. cbn [fst]. repeat split; auto; lia.
      * cbn [nth]. pose proof (IH o (div || d)%bool k) as X. rewrite R in X. destruct X as [X1 X2]. split; [assumption|].
        intros j J. destruct (X2 j J) as (o' & O1 & O2 & O3 & O4). exists o'. split; [assumption|].
        pose proof (antenna_at arg fuel m refer mean angle0 j0) as A. destruct (fit_both arg j0) as [a [u v]] eqn:F.
        destruct A as (a' & o1 & d1 & A1 & A2 & A3 & A4 & _). rewrite A1 in E. injection E as _ <- _.
        assert (OO : refer = true -> o1 = match angle0 with Some a0 => Some a0 | None => Some a end).
        { intros Q. destruct angle0 as [a0|]; [destruct (A4 Q a0 eq_refl)|destruct (A3 Q eq_refl)]; assumption. }
        split; [|split].
        -- intros H. specialize (H 0%nat). cbn in H. discriminate H. lia.
        -- intros Q i j' L N J'. rewrite OO in * by assumption. destruct i as [|i].
           ++ cbn in J'. injection J' as <-. rewrite F. cbn [fst]. destruct angle0 as [a0|]; apply O4; auto.
           ++ specialize (N 0%nat). cbn in N. discriminate N. lia.
        -- intros Q a0 ->. apply O4; auto.
    + pose proof (IH angle0 div) as X. destruct (constrain_antennas arg (S fuel) m refer mean angle0 div l) as [r d'] eqn:R.
      destruct k as [|k]; cbn [nth]; [split; [reflexivity|discriminate]|]. specialize (X k). destruct X as [X1 X2]. split; [assumption|].
      intros j J. destruct (X2 j J) as (o' & O1 & O2 & O3 & O4). exists o'. split; [assumption|]. split; [|split].
      * intros H. apply O2. intros i L. specialize (H (S i)). cbn in H. apply H. lia.
      * intros Q i j' L N J'. destruct i as [|i]; [discriminate|]. apply (O3 Q i j'); [lia| |assumption]. intros i' L'. specialize (N (S i')). cbn in N. apply N. lia.
      * intros Q a0 ->. apply O4; auto.
Qed.
Lemma constrained m x y : let d := constrain_diagonal m (x, y) in fst d <> rc0 -> snd d <> rc0 -> of_mode m (fst d) (snd d).
Proof.
  assert (U : forall z, rscale (/ rabs z) z <> rc0 -> rabs (rscale (/ rabs z) z) = 1).
  { intros z N. assert (Z : z <> rc0) by (intros ->; apply N; apply rc_eq; cbn; ring). pose proof (rabs_pos z Z) as P.
    assert (I : 0 < / rabs z) by now apply Rinv_0_lt_compat.
    unfold rabs at 1. rewrite rnorm_scale, <- (rabs_square z). replace (/ rabs z * / rabs z * (rabs z * rabs z)) with 1 by (field; lra). apply sqrt_1. }
  assert (A : forall z, is_amplitude (RC (rabs z) 0)) by (intros z; split; [reflexivity|apply rabs_nonneg]).
  destruct m; cbn; intros; auto; split; auto; apply U; assumption.
Qed.

(** C98, mode=rotation+diagonal and rotationdiagonalmode: an antenna without valid data has no result; the solution of any other antenna becomes a diagonal matrix times a rotation, by the diagonal and the angle that are stored.  The angle is at least -pi/2 and less than pi/2, and the diagonal is of the type that is asked for (amplitudes, phases, or two equal numbers), unless it is zero. *)
Theorem C98_form : forall arg fuel m refer l, principal arg ->
  let outs := fst (apply_channel arg (S fuel) m refer l) in
  forall k, (nth k l None = None -> nth k outs None = None) /\
  (nth k l None <> None -> exists r, nth k outs None = Some r /\
   let '(x, y) := r_diagonal r in
   r_jones r = diagonal_rotation x y (r_angle r) /\ - (PI / 2) <= r_angle r < PI / 2 /\ (x <> rc0 -> y <> rc0 -> of_mode m x y)).
Proof.
  intros arg fuel m refer l P outs k. unfold outs, apply_channel. pose proof (run_at arg fuel m refer (means arg l) l None false k) as X.
  destruct (constrain_antennas arg (S fuel) m refer (means arg l) None false l) as [r d]. destruct X as [X1 X2]. cbn [fst]. split; [assumption|].
  intros N. destruct (nth k l None) as [j|] eqn:J; [|easy]. destruct (X2 j eq_refl) as (o & O1 & O2 & O3 & O4).
  pose proof (antenna_at arg fuel m refer (means arg l) o j) as A. pose proof (fit_both_range arg P j) as [_ B]. destruct (fit_both arg j) as [a [u v]] eqn:F. cbn [fst] in B.
  destruct A as (a' & o1 & d1 & A1 & A2 & A3 & A4 & _). rewrite A1 in O1. cbn [fst] in O1. exists (Result a' (constrain_diagonal m (u, v)) (diagonal_rotation (fst (constrain_diagonal m (u, v))) (snd (constrain_diagonal m (u, v))) a')).
  split; [assumption|]. cbn [r_diagonal r_jones r_angle]. pose proof (constrained m u v) as C. cbn zeta in C. destruct (constrain_diagonal m (u, v)) as [x y]. cbn [fst snd] in *.
  split; [reflexivity|]. split; [|assumption]. pose proof PI_RGT_0 as PP.
  destruct refer.
  - destruct o as [a0|].
    + destruct (A4 eq_refl a0 eq_refl) as [-> _]. assert (H0 : - (PI / 2) <= a0 < PI / 2).
      { (* the reference angle is the angle of an antenna *)
        clear - X2 O1 O2 O3 J P. destruct (Nat.eq_dec k k) as [_|]; [|easy].
        assert (D : (forall i, (i < k)%nat -> nth i l None = None) \/ exists i j', (i < k)%nat /\ (forall i', (i' < i)%nat -> nth i' l None = None) /\ nth i l None = Some j').
        { clear. induction k as [|k IH]; [left; lia|]. destruct IH as [H|(i & j' & A & B & C)].
          - destruct (nth k l None) as [j'|] eqn:E; [right; exists k, j'; auto|left]. intros i L. destruct (Nat.eq_dec i k) as [->|]; [assumption|]. apply H. lia.
          - right. exists i, j'. repeat split; auto. }
        destruct D as [D|(i & j' & D1 & D2 & D3)]; [now apply O2 in D|]. specialize (O3 eq_refl i j' D1 D2 D3). injection O3 as ->. apply fit_both_range; assumption. }
      apply restrict_ok. lra.
    + destruct (A3 eq_refl eq_refl) as [-> _]. lra.
  - destruct (A2 eq_refl) as [-> _]. assumption.
Qed.
Example C98_form_example : nth 1 [None; Some (set_rotation 1)] None <> None. Proof. discriminate. Qed.
Print Assumptions C98_form.

(** C98, solutions of the right form are kept: without rotationreference, a solution that is a diagonal matrix of the type that is asked for, times a rotation by any angle, is not changed, and the angle that is stored is the angle up to half turns; unless the two elements of the diagonal add up to zero.  If only amplitudes are asked for this is so for angles that are at least -pi/2 and less than pi/2. *)
Theorem C98_fixed : forall arg fuel m l k x y t, principal arg -> radd x y <> rc0 -> of_mode m x y -> (unsigned m -> - (PI / 2) <= t < PI / 2) ->
  nth k l None = Some (diagonal_rotation x y t) ->
  exists r, nth k (fst (apply_channel arg (S fuel) m false l)) None = Some r /\ r_jones r = diagonal_rotation x y t /\ same_axis (r_angle r) t.
Proof.
  intros arg fuel m l k x y t P N M T J. unfold apply_channel. pose proof (run_at arg fuel m false (means arg l) l None false k) as X.
  destruct (constrain_antennas arg (S fuel) m false (means arg l) None false l) as [r d]. destruct X as [_ X2]. cbn [fst]. destruct (X2 _ J) as (o & O1 & _).
  pose proof (antenna_at arg fuel m false (means arg l) o (diagonal_rotation x y t)) as A. pose proof (fit_both_range arg P (diagonal_rotation x y t)) as [B _].
  destruct (fit_both_dr arg P x y t N) as (a & s & F & S & C1 & C2 & R). rewrite F in A, B. cbn [fst] in B.
  destruct A as (a' & o1 & d1 & A1 & A2 & _). destruct (A2 eq_refl) as [-> _]. rewrite A1 in O1. cbn [fst] in O1. eexists. split; [exact O1|]. cbn [r_jones r_angle].
  split; [|eapply same_axis_trans; [exact B|now apply fit_dr]].
  assert (S1 : forall z, rabs (rscale s z) = rabs z).
  { intros z. unfold rabs. rewrite rnorm_scale, S. f_equal. ring. }
  assert (Am : forall z, is_amplitude z -> RC (rabs z) 0 = z).
  { intros [zr zi] [I0 R0]. cbn in *. subst zi. apply rc_eq; [|reflexivity]. cbn. unfold rabs, rnorm. cbn. replace (zr * zr + 0 * 0) with (zr * zr) by ring. now apply sqrt_square. }
  assert (V1 : ~ unsigned m -> constrain_diagonal m (rscale s x, rscale s y) = (rscale s x, rscale s y)).
  { intros NA. destruct m; cbn in *; try tauto.
    - destruct M as [M1 M2]. unfold is_phase in *. rewrite !S1, M1, M2. f_equal; apply rc_eq; cbn; field.
    - subst y. f_equal; apply rc_eq; cbn; field.
    - destruct M as [-> M]. unfold is_phase in *. replace (rscale (/ 2) (radd (rscale s y) (rscale s y))) with (rscale s y) by (apply rc_eq; cbn; field). rewrite S1, M. f_equal; apply rc_eq; cbn; field. }
  assert (V2 : unsigned m -> s = 1 -> constrain_diagonal m (rscale s x, rscale s y) = (rscale s x, rscale s y)).
  { intros NA ->. assert (I : forall z, rscale 1 z = z) by (intros; apply rc_eq; cbn; ring). rewrite !I. destruct m; cbn in *; try tauto.
    - destruct M as [M1 M2]. now rewrite !Am.
    - destruct M as [-> M]. replace (rscale (/ 2) (radd y y)) with y by (apply rc_eq; cbn; field). now rewrite !Am.
    - destruct M as [-> ->]. reflexivity. }
  assert (O : diagonal_rotation (rscale s x) (rscale s y) a = diagonal_rotation x y t).
  { unfold diagonal_rotation. rewrite C1, C2. f_equal; apply rc_eq; cbn.
    - transitivity (s * s * (re x * cos t)); [ring|rewrite S; ring].
    - transitivity (s * s * (im x * cos t)); [ring|rewrite S; ring].
    - transitivity (s * s * (re x * - sin t)); [ring|rewrite S; ring].
    - transitivity (s * s * (im x * - sin t)); [ring|rewrite S; ring].
    - transitivity (s * s * (re y * sin t)); [ring|rewrite S; ring].
    - transitivity (s * s * (im y * sin t)); [ring|rewrite S; ring].
    - transitivity (s * s * (re y * cos t)); [ring|rewrite S; ring].
    - transitivity (s * s * (im y * cos t)); [ring|rewrite S; ring]. }
  assert (D : constrain_diagonal m (rscale s x, rscale s y) = (rscale s x, rscale s y)).
  { assert (U : unsigned m \/ ~ unsigned m) by (destruct m; cbn; tauto). destruct U as [U|U]; [|now apply V1]. apply V2; [assumption|]. apply R, T, U. }
  rewrite D. exact O.
Qed.
Example C98_fixed_example : principal parg /\ radd (RC 2 0) (RC 3 0) <> rc0 /\ of_mode DiagonalAmplitude (RC 2 0) (RC 3 0) /\ - (PI / 2) <= 1 < PI / 2.
Proof.
  split; [apply parg_principal|]. split; [intros E; inversion E; lra|]. split; [repeat split; cbn; lra|]. pose proof PI2_1. pose proof PI_RGT_0. unfold PI2 in *. lra.
Qed.
Print Assumptions C98_fixed.

(** C98, rotationreference: the angle of the first antenna with valid data becomes zero, and that of each other antenna becomes its angle minus that of the first one, up to half turns. *)
Theorem C98_reference : forall arg fuel m l k0 x0 y0 t0, principal arg -> radd x0 y0 <> rc0 ->
  (forall i, (i < k0)%nat -> nth i l None = None) -> nth k0 l None = Some (diagonal_rotation x0 y0 t0) ->
  let outs := fst (apply_channel arg (S fuel) m true l) in
  (exists r, nth k0 outs None = Some r /\ r_angle r = 0) /\
  forall k x y t, (k0 < k)%nat -> radd x y <> rc0 -> nth k l None = Some (diagonal_rotation x y t) -> exists r, nth k outs None = Some r /\ same_axis (r_angle r) (t - t0).
Proof.
  intros arg fuel m l k0 x0 y0 t0 P N0 F J0 outs. unfold outs, apply_channel. pose proof (run_at arg fuel m true (means arg l) l None false) as X.
  destruct (constrain_antennas arg (S fuel) m true (means arg l) None false l) as [r d]. cbn [fst]. split.
  - destruct (X k0) as [_ X2]. destruct (X2 _ J0) as (o & O1 & O2 & _). rewrite (O2 F) in O1.
    pose proof (antenna_at arg fuel m true (means arg l) None (diagonal_rotation x0 y0 t0)) as A. destruct (fit_both arg (diagonal_rotation x0 y0 t0)) as [a [u v]].
    destruct A as (a' & o1 & d1 & A1 & _ & A3 & _). rewrite A1 in O1. cbn [fst] in O1. eexists. split; [exact O1|]. cbn. apply (A3 eq_refl eq_refl).
  - intros k x y t L N J. destruct (X k) as [_ X2]. destruct (X2 _ J) as (o & O1 & _ & O3 & _). specialize (O3 eq_refl k0 _ L F J0). cbn match in O3. subst o.
    pose proof (antenna_at arg fuel m true (means arg l) (Some (fst (fit_both arg (diagonal_rotation x0 y0 t0)))) (diagonal_rotation x y t)) as A.
    destruct (fit_both_range arg P (diagonal_rotation x0 y0 t0)) as [B0 C0]. destruct (fit_both_range arg P (diagonal_rotation x y t)) as [B1 C1].
    destruct (fit_both arg (diagonal_rotation x y t)) as [a [u v]]. cbn [fst] in B1, C1.
    destruct A as (a' & o1 & d1 & A1 & _ & _ & A4 & _). rewrite A1 in O1. cbn [fst] in O1. eexists. split; [exact O1|]. cbn. destruct (A4 eq_refl _ eq_refl) as [-> _].
    destruct (same_axis_trans _ _ _ B0 (fit_dr arg P x0 y0 t0 N0)) as (p & Q0). destruct (same_axis_trans _ _ _ B1 (fit_dr arg P x y t N)) as (q & Q1).
    pose proof PI_RGT_0. eapply same_axis_trans; [apply restrict_ok; lra|]. exists (q - p)%Z. rewrite Q0, Q1, minus_IZR. ring.
Qed.
Example C98_reference_example : principal parg /\ let l := [None; Some (diagonal_rotation rc1 rc1 1); Some (diagonal_rotation rc1 rc1 2)] in
  (forall i, (i < 1)%nat -> nth i l None = None) /\ nth 1 l None = Some (diagonal_rotation rc1 rc1 1).
Proof. split; [apply parg_principal|]. split; [|reflexivity]. intros i L. assert (i = 0%nat) as -> by lia. reflexivity. Qed.
Print Assumptions C98_reference.

(** divergence of a run *)
Lemma run_diverged arg fuel m refer ma mb : forall ps angle0 div, principal arg -> (forall x y t, In (x, y, t) ps -> radd x y <> rc0) ->
  (snd (constrain_antennas arg (S fuel) m refer (ma, mb) angle0 div (map (fun '(x, y, t) => Some (diagonal_rotation x y t)) ps)) = true <->
   div = true \/ exists x y t, In (x, y, t) ps /\ ((0 < ma /\ far (rabs x) ma) \/ (0 < mb /\ 0 < ma /\ far (rabs y) ma))).
Proof.
  induction ps as [|[[x y] t] ps IH]; intros angle0 div P N; cbn [map constrain_antennas].
  - cbn [snd]. split; [now left|]. now intros [H|(x & y & t & [] & _)].
  - pose proof (antenna_at arg fuel m refer (ma, mb) angle0 (diagonal_rotation x y t)) as A.
    destruct (fit_both_dr arg P x y t (N x y t (or_introl eq_refl))) as (a & s & F & S & _). rewrite F in A. destruct A as (a' & o & d & A1 & _ & _ & _ & A5). rewrite A1.
    assert (S1 : forall z, rabs (rscale s z) = rabs z) by (intros z; unfold rabs; rewrite rnorm_scale, S; f_equal; ring).
    rewrite !S1 in A5. cbn [fst snd] in A5. specialize (IH o (div || d)%bool P (fun x y t H => N x y t (or_intror H))).
    destruct (constrain_antennas arg (Datatypes.S fuel) m refer (ma, mb) o (div || d) _) as [r d']. cbn [snd] in *. rewrite IH, orb_true_iff, A5. clear. split.
    + intros [[H|H]|(u & v & w & H & K)]; [now left|right; exists x, y, t; split; [now left|assumption]|right; exists u, v, w; split; [now right|assumption]].
    + intros [H|(u & v & w & [H|H] & K)]; [now left; left|injection H as -> -> ->; left; now right|right; now exists u, v, w].
Qed.
Lemma run_means arg ps : principal arg -> (forall x y t, In (x, y, t) ps -> radd x y <> rc0) ->
  means arg (map (fun '(x, y, t) => Some (diagonal_rotation x y t)) ps) = (mean_of (map (fun '(x, _, _) => rabs x) ps), mean_of (map (fun '(_, y, _) => rabs y) ps)).
Proof.
  intros P N. unfold means, mean_of. rewrite !map_length.
  assert (G : forall f g, (forall x y t, In (x, y, t) ps -> rabs (f (snd (fit_both arg (diagonal_rotation x y t)))) = g x y) ->
    fold_left (fun acc o => match o with Some j => acc + rabs (f (snd (fit_both arg j))) | None => acc end) (map (fun '(x, y, t) => Some (diagonal_rotation x y t)) ps) 0 =
    fold_right Rplus 0 (map (fun '(x, y, _) => g x y) ps)).
  { intros f g E0. rewrite <- (Rplus_0_l (fold_right Rplus 0 _)). revert E0. set (r0 := 0) at 1 2. generalize r0. clear N r0. induction ps as [|[[x y] t] l IH]; intros r E; cbn [map fold_left fold_right]; [ring|].
    rewrite IH by (intros u v w H; apply E; now right). rewrite (E x y t (or_introl eq_refl)). ring. }
  rewrite (G fst (fun x y => rabs x)), (G snd (fun x y => rabs y)); [reflexivity| |].
  all: intros x y t H; destruct (fit_both_dr arg P x y t (N x y t H)) as (a & s & F & S & _); rewrite F; cbn [fst snd]; unfold rabs; rewrite rnorm_scale, S; f_equal; ring.
Qed.
Lemma run_channel arg fuel m refer ps : principal arg -> (forall x y t, In (x, y, t) ps -> radd x y <> rc0) ->
  let ma := mean_of (map (fun '(x, _, _) => rabs x) ps) in let mb := mean_of (map (fun '(_, y, _) => rabs y) ps) in
  (snd (apply_channel arg (S fuel) m refer (map (fun '(x, y, t) => Some (diagonal_rotation x y t)) ps)) = true <->
   exists x y t, In (x, y, t) ps /\ ((0 < ma /\ far (rabs x) ma) \/ (0 < mb /\ 0 < ma /\ far (rabs y) ma))).
Proof.
  intros P N ma mb. unfold apply_channel. rewrite run_means by assumption. rewrite run_diverged by assumption. fold ma mb. split; [intros [H|H]; [discriminate|assumption]|now right].
Qed.
Lemma sum_zero {A} (f : A -> R) l : (forall x, 0 <= f x) -> fold_right Rplus 0 (map f l) <= 0 -> forall x, In x l -> f x = 0.
Proof.
  intros P. assert (Q : forall l, 0 <= fold_right Rplus 0 (map f l)) by (clear l; induction l; cbn; [lra|specialize (P a); lra]).
  induction l as [|a l IH]; [easy|]. cbn [map fold_right]. specialize (P a) as Pa. specialize (Q l) as Ql. intros H x [<-|I]; [lra|]. apply IH; [lra|assumption].
Qed.

(** C98, flagdivergedonly: if all antennas have valid data, and the mean amplitudes of the two polarizations are the same, divergence is found if and only if the amplitude of some antenna is more than a factor of five from the mean.  Missing: antennas without valid data and polarizations with different means, for which this is not so. *)
Theorem C98_diverged_partial : forall arg fuel m refer ps mean, principal arg -> (forall x y t, In (x, y, t) ps -> radd x y <> rc0) ->
  mean_of (map (fun '(x, _, _) => rabs x) ps) = mean -> mean_of (map (fun '(_, y, _) => rabs y) ps) = mean ->
  (snd (apply_channel arg (S fuel) m refer (map (fun '(x, y, t) => Some (diagonal_rotation x y t)) ps)) = true <->
   exists x y t, In (x, y, t) ps /\ (far (rabs x) mean \/ far (rabs y) mean)).
Proof.
  intros arg fuel m refer ps mean P N MA MB. rewrite run_channel by assumption. rewrite MA, MB. split.
  - intros (x & y & t & I & H). exists x, y, t. tauto.
  - intros (x & y & t & I & H). exists x, y, t. split; [assumption|]. assert (M : 0 < mean); [|tauto].
    apply Rnot_le_lt. intros L. assert (LL : 0 < INR (length ps)) by (apply lt_0_INR; destruct ps; [easy|cbn; lia]).
    assert (Z : forall (f : rc * rc * R -> R), mean_of (map f ps) = mean -> fold_right Rplus 0 (map f ps) <= 0).
    { intros f E. unfold mean_of in E. rewrite map_length in E. assert (E2 : fold_right Rplus 0 (map f ps) = mean * INR (length ps)) by (rewrite <- E; field; lra). rewrite E2. nra. }
    apply (N x y t I). assert (X0 : rabs x = 0).
    { apply (sum_zero (fun '(x, _, _) => rabs x) ps) in I; [assumption|intros [[u v] w]; apply rabs_nonneg|now apply Z]. }
    assert (Y0 : rabs y = 0).
    { apply (sum_zero (fun '(_, y, _) => rabs y) ps) in I; [assumption|intros [[u v] w]; apply rabs_nonneg|now apply Z]. }
    apply rabs_0 in X0, Y0. rewrite X0, Y0. apply rc_eq; cbn; ring.
Qed.
Lemma rabs_real a : 0 <= a -> rabs (RC a 0) = a.
Proof. intros H. unfold rabs, rnorm. cbn. replace (a * a + 0 * 0) with (a * a) by ring. now apply sqrt_square. Qed.
Example C98_diverged_example : let ps := [(RC 1 0, RC 1 0, 1); (RC 13 0, RC 13 0, 2)] in
  (forall x y t, In (x, y, t) ps -> radd x y <> rc0) /\ mean_of (map (fun '(x, _, _) => rabs x) ps) = 7 /\ mean_of (map (fun '(_, y, _) => rabs y) ps) = 7 /\ far (rabs (RC 1 0)) 7.
Proof.
  cbn [map]. repeat split.
  - intros x y t [E|[E|[]]]; injection E as <- <- <-; intros E; inversion E; lra.
  - rewrite !rabs_real by lra. unfold mean_of. cbn. field.
  - rewrite !rabs_real by lra. unfold mean_of. cbn. field.
  - rewrite !rabs_real by lra. left. lra.
Qed.
Print Assumptions C98_diverged_partial.

(** C98, divergence that is not there: an antenna that has the amplitudes 1 and 6 is found to diverge, though all antennas are the same, as the second amplitude is compared with the mean of the first one (RotationAndDiagonalConstraint.cc:312-316).  The amplitudes are not far from the mean of both either. *)
Theorem C98_diverged_refuted : exists ps mx my both,
  (forall x y t, In (x, y, t) ps -> radd x y <> rc0) /\
  mean_of (map (fun '(x, _, _) => rabs x) ps) = mx /\ mean_of (map (fun '(_, y, _) => rabs y) ps) = my /\ mean_of (map (fun '(x, _, _) => rabs x) ps ++ map (fun '(_, y, _) => rabs y) ps) = both /\
  (forall x y t, In (x, y, t) ps -> ~ far (rabs x) mx /\ ~ far (rabs y) my /\ ~ far (rabs x) both /\ ~ far (rabs y) both) /\
  forall arg fuel m refer, principal arg -> snd (apply_channel arg (S fuel) m refer (map (fun '(x, y, t) => Some (diagonal_rotation x y t)) ps)) = true.
Proof.
  exists [(RC 1 0, RC 6 0, 0)], 1, 6, (7 / 2).
  assert (N : forall x y t, In (x, y, t) [(RC 1 0, RC 6 0, 0)] -> radd x y <> rc0).
  { intros x y t [E|[]]. injection E as <- <- <-. intros E. inversion E. lra. }
  assert (MX : mean_of (map (fun '(x, _, _) => rabs x) [(RC 1 0, RC 6 0, 0)]) = 1) by (cbn [map]; rewrite !rabs_real by lra; unfold mean_of; cbn; field).
  assert (MY : mean_of (map (fun '(_, y, _) => rabs y) [(RC 1 0, RC 6 0, 0)]) = 6) by (cbn [map]; rewrite !rabs_real by lra; unfold mean_of; cbn; field).
  split; [assumption|]. split; [assumption|]. split; [assumption|]. split; [cbn [map app]; rewrite !rabs_real by lra; unfold mean_of; cbn; field|]. split.
  - intros x y t [E|[]]. injection E as <- <- <-. rewrite !rabs_real by lra. unfold far. lra.
  - intros arg fuel m refer P. apply run_channel; [assumption|assumption|]. rewrite MX, MY. exists (RC 1 0), (RC 6 0), 0. split; [now left|]. right. rewrite rabs_real by lra. unfold far. lra.
Qed.
Print Assumptions C98_diverged_refuted.

(** C98, divergence that is not found: of two antennas the second amplitudes are 1 and 24, and the first one of these is more than a factor of five from the mean of 12.5, and from the mean of all amplitudes; it is not found, as both are compared with the mean of the first amplitudes, 5. *)
Theorem C98_undetected_refuted : exists ps my both,
  (forall x y t, In (x, y, t) ps -> radd x y <> rc0) /\
  mean_of (map (fun '(_, y, _) => rabs y) ps) = my /\ mean_of (map (fun '(x, _, _) => rabs x) ps ++ map (fun '(_, y, _) => rabs y) ps) = both /\
  (exists x y t, In (x, y, t) ps /\ far (rabs y) my /\ far (rabs y) both) /\
  forall arg fuel m refer, principal arg -> snd (apply_channel arg (S fuel) m refer (map (fun '(x, y, t) => Some (diagonal_rotation x y t)) ps)) = false.
Proof.
  set (ps := [(RC 5 0, RC 1 0, 0); (RC 5 0, RC 24 0, 0)]). exists ps, (25 / 2), (35 / 4).
  assert (N : forall x y t, In (x, y, t) ps -> radd x y <> rc0).
  { intros x y t [E|[E|[]]]; injection E as <- <- <-; intros E; inversion E; lra. }
  assert (MX : mean_of (map (fun '(x, _, _) => rabs x) ps) = 5) by (cbn [ps map]; rewrite !rabs_real by lra; unfold mean_of; cbn; field).
  assert (MY : mean_of (map (fun '(_, y, _) => rabs y) ps) = 25 / 2) by (cbn [ps map]; rewrite !rabs_real by lra; unfold mean_of; cbn; field).
  split; [assumption|]. split; [assumption|]. split; [cbn [ps map app]; rewrite !rabs_real by lra; unfold mean_of; cbn; field|]. split.
  - exists (RC 5 0), (RC 1 0), 0. split; [now left|]. rewrite rabs_real by lra. unfold far. lra.
  - intros arg fuel m refer P. apply not_true_iff_false. rewrite run_channel by assumption. rewrite MX, MY. intros (x & y & t & [E|[E|[]]] & H); injection E as <- <- <-.
    all: rewrite !rabs_real in H by lra; unfold far in H; lra.
Qed.
Print Assumptions C98_undetected_refuted.

(** C98, divergence with invalid data: one antenna has valid data and the amplitude one, and five have none; divergence is found, as the sum is divided by the number of all antennas (RotationAndDiagonalConstraint.cc:277-278). *)
Theorem C98_invalid_refuted : exists l, l = Some (diagonal_rotation rc1 rc1 0) :: repeat None 5 /\
  forall arg fuel m refer, principal arg -> snd (apply_channel arg (S fuel) m refer l) = true.
Proof.
  eexists. split; [reflexivity|]. intros arg fuel m refer P. assert (N : radd rc1 rc1 <> rc0) by (intros E; inversion E; lra).
  assert (R1 : rabs rc1 = 1) by (apply rabs_real; lra).
  destruct (fit_both_dr arg P rc1 rc1 0 N) as (a & s & F & S & _). assert (S1 : rabs (rscale s rc1) = 1) by (rewrite <- R1; unfold rabs; rewrite rnorm_scale, S; f_equal; ring).
  unfold apply_channel. cbn [repeat constrain_antennas].
  match goal with |- context [means arg ?l] => assert (M : means arg l = (1 / 6, 1 / 6)) end.
  { unfold means. cbn [fold_left length]. rewrite F. cbn [fst snd]. rewrite S1. replace (INR 6) with 6 by (cbn; ring). f_equal; field. }
  rewrite M. pose proof (antenna_at arg fuel m refer (1 / 6, 1 / 6) None (diagonal_rotation rc1 rc1 0)) as A. rewrite F in A. destruct A as (a' & o & d & A1 & _ & _ & _ & A5). rewrite A1.
  cbn [snd orb]. apply A5. left. cbn [fst]. rewrite S1. unfold far. lra.
Qed.
Print Assumptions C98_invalid_refuted.

(** C98, the amplitude is not limited: a diagonal that is more than a factor of five from the mean stays as it is, though the comments say that its amplitude is adjusted to be within the range (RotationAndDiagonalConstraint.cc:22-39 and 310: what should be done out of the range is done within it, where it has no effect). *)
Theorem C98_limit_refuted : exists v mean, 0 < mean /\ far (rabs v) mean /\ forall fuel, far (rabs (fst (limit fuel v mean 5))) mean.
Proof.
  exists (RC 6 0), 1. rewrite rabs_real by lra. split; [lra|]. split; [unfold far; lra|]. intros fuel. unfold limit.
  destruct (rltb 0 1); [|cbn [fst]; rewrite rabs_real by lra; unfold far; lra]. rewrite rabs_real by lra. replace (rltb 5 (6 / 1)) with true by (symmetry; apply rltb_true; lra).
  rewrite orb_true_r. cbn [fst]. rewrite rabs_real by lra. unfold far. lra.
Qed.
Print Assumptions C98_limit_refuted.

(** C98, storage: each table that is created gets one value for each of its polarizations, at the position of the antenna, the sub-solution, the channel block and the polarization; and a diagonal of the type that is asked for can be read back from the tables. *)
Theorem C98_stored : forall arg n_sub n_ch m x y a s c, principal arg -> m <> Rotation -> of_mode m x y ->
  let st := store_diagonal arg n_sub n_ch m (x, y) a s c in
  length (tables m) = length st /\
  Forall (fun v => map fst v = map (position n_sub n_ch (n_pol m) a s c) (seq 0 (n_pol m))) st /\
  read_back (combine (tables m) (map (map snd) st)) 0 = x /\ read_back (combine (tables m) (map (map snd) st)) 1 = y.
Proof.
  intros arg n_sub n_ch m x y a s c P N M st. destruct (P x) as [PX _], (P y) as [PY _].
  assert (L : length (tables m) = length st) by now destruct m.
  assert (Q : Forall (fun v => map fst v = map (position n_sub n_ch (n_pol m) a s c) (seq 0 (n_pol m))) st).
  { unfold st, position. destruct m; cbn; repeat constructor; cbn; f_equal; try lia; f_equal; lia. }
  split; [assumption|]. split; [assumption|]. clear L Q. subst st.
  assert (Am : forall z, is_amplitude z -> RC (rabs z * cos 0) (rabs z * sin 0) = z).
  { intros [zr zi] [I0 R0]. cbn in *. subst zi. rewrite rabs_real by assumption. rewrite cos_0, sin_0. apply rc_eq; cbn; ring. }
  destruct m; unfold read_back; cbn; cbn in M; unfold is_phase in M.
  - split; symmetry; assumption.
  - destruct M. split; apply Am; assumption.
  - destruct M as [X Y]. rewrite X in PX. rewrite Y in PY. split; symmetry; assumption.
  - subst y. split; symmetry; assumption.
  - destruct M as [<- M]. split; apply Am; assumption.
  - destruct M as [<- M]. rewrite M in PX. split; symmetry; assumption.
  - congruence.
Qed.
Example C98_stored_example : of_mode DiagonalPhase (RC 0 1) (RC (-1) 0) /\ length (tables DiagonalPhase) = 1%nat.
Proof. split; [|reflexivity]. split; unfold is_phase, rabs, rnorm; cbn; [replace (0 * 0 + 1 * 1) with 1 by ring|replace (-1 * -1 + 0 * 0) with 1 by ring]; apply sqrt_1. Qed.
Print Assumptions C98_stored.

(** * Weights *)

(** C98, weights: the weights of the diagonal are those of the antenna and the channel block, for each sub-solution and polarization. *)
Theorem C98_weights : forall n_ant n_sub n_ch n_pol w a s c p, (a < n_ant)%nat -> (s < n_sub)%nat -> (c < n_ch)%nat -> (p < n_pol)%nat ->
  length (diagonal_weights n_ant n_sub n_ch n_pol w) = (n_ant * n_sub * n_ch * n_pol)%nat /\
  nth (position n_sub n_ch n_pol a s c p) (diagonal_weights n_ant n_sub n_ch n_pol w) 0 = nth (a * n_ch + c) w 0.
Proof.
  intros n_ant n_sub n_ch n_pol w a s c p A S C P.
  change (diagonal_weights n_ant n_sub n_ch n_pol w) with (in_order n_ant n_sub n_ch n_pol (fun a _ ch (_ : nat) => nth (a * n_ch + ch) w 0)).
  split; [rewrite in_order_length; lia|]. unfold position. rewrite in_order_nth by assumption. reflexivity.
Qed.
Example C98_weights_example : nth (position 2 3 2 1 1 2 1) (diagonal_weights 2 2 3 2 [1; 2; 3; 4; 5; 6]) 0 = 6.
Proof. reflexivity. Qed.
Print Assumptions C98_weights.

(** C98, weights of the rotation: with one solution per direction and one direction the weights of the rotation are those of the antenna and the channel block.  Missing: more sub-solutions, for which this is not so. *)
Theorem C98_rotation_weights_partial : forall n_ch w a c, (c < n_ch)%nat -> nth (position 1 n_ch 1 a 0 c 0) (rotation_weights 1 w) 0 = nth (a * n_ch + c) w 0.
Proof. intros n_ch w a c H. unfold rotation_weights, position. cbn. rewrite app_nil_r. f_equal. lia. Qed.
Example C98_rotation_weights_example : nth (position 1 3 1 1 0 2 0) (rotation_weights 1 [1; 2; 3; 4; 5; 6]) 0 = 6.
Proof. reflexivity. Qed.
Print Assumptions C98_rotation_weights_partial.

(** C98, weights of the rotation: with two sub-solutions the weights of the first antenna get those of the second one, as they are copied in the order of the sub-solution, while the values are in the order of the antenna (RotationConstraint.cc:29-31, RotationAndDiagonalConstraint.cc:183-186). *)
Theorem C98_weights_refuted : exists n_ant n_sub n_ch w a s c, (a < n_ant)%nat /\ (s < n_sub)%nat /\ (c < n_ch)%nat /\ length w = (n_ant * n_ch)%nat /\
  nth (position n_sub n_ch 1 a s c 0) (rotation_weights n_sub w) 0 <> nth (a * n_ch + c) w 0.
Proof. exists 2%nat, 2%nat, 1%nat, [3; 4], 0%nat, 1%nat, 0%nat. repeat split; try lia. cbn. lra. Qed.
Print Assumptions C98_weights_refuted.

(** C98, weights of the sub-solutions: with one polarization the weights of the diagonal with Faraday rotation are those of the sub-solution, the antenna and the channel block.  Missing: two polarizations, for which this is not so. *)
Theorem C98_sub_weights_partial : forall n_ant n_ch ws a s c, (a < n_ant)%nat -> (s < length ws)%nat -> (c < n_ch)%nat ->
  length (sub_weights n_ant n_ch ws) = (n_ant * length ws * n_ch)%nat /\
  nth (position (length ws) n_ch 1 a s c 0) (sub_weights n_ant n_ch ws) 0 = nth (a * n_ch + c) (nth s ws []) 0.
Proof.
  intros n_ant n_ch ws a s c A S C. unfold sub_weights.
  assert (L1 : forall a, Forall (fun w => length (map (fun ch => nth (a * n_ch + ch) w 0) (seq 0 n_ch)) = n_ch) ws) by (intros; apply Forall_forall; intros; now rewrite map_length, seq_length).
  assert (L2 : Forall (fun a => length (flat_map (fun w => map (fun ch => nth (a * n_ch + ch) w 0) (seq 0 n_ch)) ws) = (length ws * n_ch)%nat) (seq 0 n_ant)).
  { apply Forall_forall. intros b _. now rewrite (length_flat_blocks _ n_ch). }
  split; [rewrite (length_flat_blocks _ (length ws * n_ch)) by assumption; rewrite seq_length; lia|].
  replace (position (length ws) n_ch 1 a s c 0) with (a * (length ws * n_ch) + (s * n_ch + c))%nat by (unfold position; ring).
  rewrite (nth_flat_blocks _ (length ws * n_ch) 0%nat) by (try assumption; try rewrite seq_length; try assumption; nia).
  rewrite seq_nth by assumption. rewrite (nth_flat_blocks _ n_ch []) by (try apply L1; assumption).
  rewrite (nth_map_seq _ _ _ _ C). reflexivity.
Qed.
Example C98_sub_weights_example : nth (position 2 2 1 1 1 0 0) (sub_weights 2 2 [[1; 2; 3; 4]; [5; 6; 7; 8]]) 0 = 7.
Proof. reflexivity. Qed.
Print Assumptions C98_sub_weights_partial.

(** C98, weights of the sub-solutions: with two polarizations there are too few weights, and some of them are those of other channel blocks, as a weight is added once and not for each polarization (FaradayConstraint.cc:96-100, as opposed to 75-80). *)
Theorem C98_sub_weights_refuted : exists n_ant n_ch n_pol ws a s c p, (a < n_ant)%nat /\ (s < length ws)%nat /\ (c < n_ch)%nat /\ (p < n_pol)%nat /\
  (length (sub_weights n_ant n_ch ws) < n_ant * length ws * n_ch * n_pol)%nat /\
  nth (position (length ws) n_ch n_pol a s c p) (sub_weights n_ant n_ch ws) 0 <> nth (a * n_ch + c) (nth s ws []) 0.
Proof. exists 1%nat, 2%nat, 2%nat, [[3; 4]], 0%nat, 0%nat, 0%nat, 1%nat. repeat split; try (cbn; lia). cbn. lra. Qed.
Print Assumptions C98_sub_weights_refuted.

(** loops that set weights *)
Definition marks (F : (nat -> R) -> nat -> R) (P : nat -> bool) : Prop := forall w k, F w k = if P k then -1 else w k.
Lemma marks_loop {A} (F : A -> (nat -> R) -> nat -> R) (P : A -> nat -> bool) l : (forall x, In x l -> marks (F x) (P x)) ->
  marks (fun w => fold_left (fun w x => F x w) l w) (fun k => existsb (fun x => P x k) l).
Proof.
  induction l as [|x l IH]; intros H w k; cbn [fold_left existsb]; [reflexivity|].
  rewrite (IH (fun y I => H y (or_intror I)) (F x w) k). rewrite (H x (or_introl eq_refl) w k). destruct (P x k), (existsb (fun x => P x k) l); reflexivity.
Qed.
Lemma marks_seq F G P Q : marks F P -> marks G Q -> marks (fun w => G (F w)) (fun k => (P k || Q k)%bool).
Proof. intros HF HG w k. rewrite HG, HF. destruct (P k), (Q k); reflexivity. Qed.
Lemma marks_set i : marks (fun w => set_at w i (-1)) (fun k => (k =? i)%nat). Proof. intros w k. reflexivity. Qed.
Lemma marks_if (b : bool) F P : marks F P -> marks (fun w => if b then F w else w) (fun k => (b && P k)%bool).
Proof. intros H w k. destruct b; [apply H|reflexivity]. Qed.
Lemma apply_marks n_ant n_sub n_ch pols invalid diverged : marks (apply_weights n_ant n_sub n_ch pols invalid diverged)
  (fun k => existsb (fun s => existsb (fun c =>
     existsb (fun a => invalid s c a && existsb (fun p => k =? ((a * n_sub + s) * n_ch + c) * pols + p)%nat (seq 0 pols))%bool (seq 0 n_ant) ||
     (diverged s c && existsb (fun a => existsb (fun p => k =? (a * n_ch + c) * pols + p)%nat (seq 0 pols)) (seq 0 n_ant)))%bool (seq 0 n_ch)) (seq 0 n_sub)).
Proof.
  unfold apply_weights. apply (marks_loop (fun sub w => fold_left _ (seq 0 n_ch) w)). intros s _. cbn beta.
  refine (marks_loop (fun ch w => let w := flag_invalid n_ant n_sub n_ch pols (invalid s ch) w s ch in if diverged s ch then set_channel_weights n_ant n_ch pols w ch else w) _ _ _). intros c _. cbn zeta.
  refine (marks_seq (fun w => flag_invalid n_ant n_sub n_ch pols (invalid s c) w s c) (fun w => if diverged s c then set_channel_weights n_ant n_ch pols w c else w) _ _ _ _).
  - unfold flag_invalid. refine (marks_loop (fun a w => if invalid s c a then fold_left (fun w p => set_at w _ (-1)) (seq 0 pols) w else w) _ _ _). intros a _.
    refine (marks_if _ (fun w => fold_left _ _ w) _ _). refine (marks_loop (fun p w => set_at w _ (-1)) _ _ _). intros p _. apply marks_set.
  - refine (marks_if _ (fun w => set_channel_weights n_ant n_ch pols w c) _ _). unfold set_channel_weights. refine (marks_loop (fun a w => fold_left _ (seq 0 pols) w) _ _ _). intros a _.
    refine (marks_loop (fun p w => set_at w _ (-1)) _ _ _). intros p _. apply marks_set.
Qed.
Lemma radix n x y x' y' : (y < n)%nat -> (y' < n)%nat -> (x * n + y = x' * n + y')%nat -> x = x' /\ y = y'.
Proof. intros. assert (x = x') by nia. subst. lia. Qed.

(** C98, flags: a weight becomes -1 if and only if the antenna has no valid data for the channel block and the sub-solution, or there is divergence for these; if there is one sub-solution, or no divergence.  Missing: divergence with more sub-solutions, for which this is not so. *)
Theorem C98_flags_partial : forall n_ant n_sub n_ch pols invalid diverged w a s c p, (n_sub = 1%nat \/ forall s c, diverged s c = false) ->
  (a < n_ant)%nat -> (s < n_sub)%nat -> (c < n_ch)%nat -> (p < pols)%nat ->
  apply_weights n_ant n_sub n_ch pols invalid diverged w (position n_sub n_ch pols a s c p) =
  if (invalid s c a || diverged s c)%bool then -1 else w (position n_sub n_ch pols a s c p).
Proof.
  intros n_ant n_sub n_ch pols invalid diverged w a s c p H A S C P. rewrite (apply_marks n_ant n_sub n_ch pols invalid diverged w).
  match goal with |- (if ?x then _ else _) = (if ?y then _ else _) => assert (Q : x = y); [|now rewrite Q] end. apply eq_true_iff_eq.
  rewrite existsb_exists, orb_true_iff. unfold position. split.
  - intros (s' & S' & X). apply in_seq in S'. apply existsb_exists in X. destruct X as (c' & C' & X). apply in_seq in C'. apply orb_true_iff in X. destruct X as [X|X].
    + apply existsb_exists in X. destruct X as (a' & A' & X). apply in_seq in A'. apply andb_true_iff in X. destruct X as [I X]. apply existsb_exists in X. destruct X as (p' & P' & X). apply in_seq in P'.
      apply Nat.eqb_eq in X. apply radix in X; [|lia|lia]. destruct X as [X _]. apply radix in X; [|lia|lia]. destruct X as [X ->]. apply radix in X; [|lia|lia]. destruct X as [-> ->]. now left.
    + apply andb_true_iff in X. destruct X as [D X]. destruct H as [->|H]; [|rewrite H in D; discriminate]. assert (s' = 0%nat) as -> by lia. assert (s = 0%nat) as -> by lia. right.
      apply existsb_exists in X. destruct X as (a' & A' & X). apply existsb_exists in X. destruct X as (p' & P' & X). apply in_seq in P'.
      apply Nat.eqb_eq in X. apply radix in X; [|lia|lia]. destruct X as [X _]. apply radix in X; [|lia|lia]. destruct X as [_ ->]. assumption.
  - intros X. exists s. split; [apply in_seq; lia|]. apply existsb_exists. exists c. split; [apply in_seq; lia|]. apply orb_true_iff. destruct X as [X|X].
    + left. apply existsb_exists. exists a. split; [apply in_seq; lia|]. rewrite X. cbn [andb]. apply existsb_exists. exists p. split; [apply in_seq; lia|]. apply Nat.eqb_refl.
    + right. rewrite X. cbn [andb]. destruct H as [->|H]; [|rewrite H in X; discriminate]. apply existsb_exists. exists a. split; [apply in_seq; lia|]. apply existsb_exists. exists p. split; [apply in_seq; lia|].
      apply Nat.eqb_eq. nia.
Qed.
Example C98_flags_example : apply_weights 2 1 2 2 (fun _ _ _ => false) (fun _ c => (c =? 1)%nat) (fun _ => 3) (position 1 2 2 1 0 1 1) = -1 /\
  apply_weights 2 1 2 2 (fun _ _ _ => false) (fun _ c => (c =? 1)%nat) (fun _ => 3) (position 1 2 2 1 0 0 1) = 3.
Proof. split; reflexivity. Qed.
Print Assumptions C98_flags_partial.

(** C98, flags: if there is divergence for the second of two sub-solutions only, the second antenna of three is not flagged for it, and it is flagged for the first sub-solution, as the position does not depend on the sub-solution (RotationAndDiagonalConstraint.cc:239). *)
Theorem C98_flags_refuted : exists n_ant diverged w a, (a < n_ant)%nat /\ diverged 1%nat 0%nat = true /\ diverged 0%nat 0%nat = false /\
  apply_weights n_ant 2 1 1 (fun _ _ _ => false) diverged w (position 2 1 1 a 1 0 0) = w (position 2 1 1 a 1 0 0) /\ 0 <= w (position 2 1 1 a 1 0 0) /\
  apply_weights n_ant 2 1 1 (fun _ _ _ => false) diverged w (position 2 1 1 a 0 0 0) = -1.
Proof. exists 3%nat, (fun s _ => (s =? 1)%nat), (fun _ => 3), 1%nat. repeat split; try lia; try reflexivity. lra. Qed.
Print Assumptions C98_flags_refuted.

(** * Faraday rotation *)

(** C98, samples of Faraday rotation: there is a sample for each channel block, in the order of increasing square of the wavelength; for a rotation that is a rotation measure times the square of the wavelength the sample is twice that, up to whole turns, with the weight of the channel block.  A channel block without valid data gets a zero weight. *)
Theorem C98_faraday_samples : forall arg c n freq data weight phi z, principal arg -> 0 < c -> (forall i, 0 < freq i) -> (forall i j, (i < j)%nat -> freq i < freq j) ->
  let s := samples arg c n freq data weight in
  let at_ i := nth i s (0, 0, 0) in
  length s = n /\
  (forall i j, (i < j < n)%nat -> fst (fst (at_ i)) < fst (fst (at_ j))) /\
  forall ch, (ch < n)%nat ->
    (data ch = None -> snd (at_ (n - 1 - ch)%nat) = 0) /\
    (z ch <> rc0 -> data ch = Some (diagonal_rotation (z ch) (z ch) (phi * ((c / freq ch) * (c / freq ch)))) ->
     snd (at_ (n - 1 - ch)%nat) = weight ch /\ exists k, snd (fst (at_ (n - 1 - ch)%nat)) = 2 * phi * fst (fst (at_ (n - 1 - ch)%nat)) + IZR k * (2 * PI)).
Proof.
  intros arg c n freq data weight phi z P C F I s at_. assert (L : length s = n) by (unfold s, samples; now rewrite map_length, seq_length).
  assert (E : forall i, (i < n)%nat -> at_ i = let ch := (n - i - 1)%nat in let x := c / freq ch * (c / freq ch) in match data ch with Some j => (x, fit_rotation arg j * 2, weight ch) | None => (x, 0, 0) end).
  { intros i H. unfold at_, s, samples. now rewrite (nth_map_seq _ _ _ _ H). }
  assert (X : forall i, (i < n)%nat -> fst (fst (at_ i)) = c / freq (n - i - 1)%nat * (c / freq (n - i - 1)%nat)).
  { intros i H. rewrite E by assumption. cbn zeta. now destruct (data (n - i - 1)%nat). }
  split; [assumption|]. split.
  - intros i j H. rewrite !X by lia. pose proof (I (n - j - 1)%nat (n - i - 1)%nat ltac:(lia)) as Q. pose proof (F (n - j - 1)%nat) as Q1. pose proof (F (n - i - 1)%nat) as Q2.
    assert (W : c / freq (n - i - 1)%nat < c / freq (n - j - 1)%nat) by (apply Rmult_lt_compat_l; [assumption|]; apply Rinv_lt_contravar; [nra|assumption]).
    assert (W0 : 0 < c / freq (n - i - 1)%nat) by (apply Rmult_lt_0_compat; [assumption|now apply Rinv_0_lt_compat]). nra.
  - intros ch H. rewrite (X (n - 1 - ch)%nat) by lia. rewrite (E (n - 1 - ch)%nat) by lia. replace (n - (n - 1 - ch) - 1)%nat with ch by lia. cbn zeta. split.
    + intros ->. reflexivity.
    + intros Z ->. cbn [fst snd]. split; [reflexivity|].
      destruct (fit_dr arg P (z ch) (z ch) (phi * (c / freq ch * (c / freq ch)))) as (k & K); [|exists k; rewrite K; ring].
      intros Q. apply Z. inversion Q as [[Q1 Q2]]. apply rc_eq; cbn; lra.
Qed.
Example C98_faraday_samples_example : principal parg /\ (forall i : nat, 0 < INR i + 1) /\ forall i j : nat, (i < j)%nat -> INR i + 1 < INR j + 1.
Proof. split; [apply parg_principal|]. split; intros; [pose proof (pos_INR i); lra|]. apply lt_INR in H. lra. Qed.
Print Assumptions C98_faraday_samples.

(** C98, Faraday rotation: if the fit finds the slope, the result is the rotation measure.  If no diagonal is solved for, each solution becomes a rotation by the rotation measure times the square of the wavelength, also for channel blocks that have no valid data; else a solution that is such a rotation times a number, of the type that is asked for, is not changed. *)
Theorem C98_faraday : forall arg fit_slope c n freq m data weight phi, fit_slope (samples arg c n freq data weight) = 2 * phi ->
  let r := perform_fit arg fit_slope c n freq m data weight in
  fst r = phi /\ forall ch, (ch < n)%nat -> let t := phi * ((c / freq ch) * (c / freq ch)) in
  (m = Rotation -> snd r ch = Some (diagonal_rotation rc1 rc1 t)) /\
  (forall z, of_mode m z z -> data ch = Some (diagonal_rotation z z t) -> snd r ch = Some (diagonal_rotation z z t)).
Proof.
  intros arg fit_slope c n freq m data weight phi H r. assert (S : fst r = phi) by (unfold r, perform_fit; cbn [fst]; rewrite H; field). split; [assumption|].
  intros ch L t. assert (E : snd r ch = faraday_channel m t (data ch)).
  { unfold r, perform_fit. cbn [snd]. destruct (Nat.ltb_spec ch n) as [_|]; [|lia]. f_equal. rewrite H. clear H r S. unfold samples. rewrite nth_map_seq by lia.
    replace (n - (n - ch - 1) - 1)%nat with ch by lia. cbn zeta. assert (X : forall o : option jones, fst (fst (match o with Some j => (c / freq ch * (c / freq ch), fit_rotation arg j * 2, weight ch) | None => (c / freq ch * (c / freq ch), 0, 0) end)) = c / freq ch * (c / freq ch)) by now intros [?|]. rewrite X. unfold t. replace (/ 2 * (2 * phi)) with phi by field. ring. }
  rewrite E. clear E. unfold faraday_channel. split.
  - intros ->. destruct (data ch); cbn; f_equal; unfold diagonal_rotation; f_equal; apply rc_eq; cbn; ring.
  - intros z M ->. pose proof (sin2_cos2 t) as Q. unfold Rsqr in Q. cbn [j0 j1 j2 j3 diagonal_rotation].
    assert (Z1 : rsub (rscale (cos t) (rmul z (RC (cos t) 0))) (rscale (sin t) (rmul z (RC (- sin t) 0))) = z).
    { apply rc_eq; cbn; [transitivity (re z * (sin t * sin t + cos t * cos t))|transitivity (im z * (sin t * sin t + cos t * cos t))]; try ring; rewrite Q; ring. }
    assert (Z2 : radd (rscale (sin t) (rmul z (RC (sin t) 0))) (rscale (cos t) (rmul z (RC (cos t) 0))) = z).
    { apply rc_eq; cbn; [transitivity (re z * (sin t * sin t + cos t * cos t))|transitivity (im z * (sin t * sin t + cos t * cos t))]; try ring; rewrite Q; ring. }
    rewrite Z1, Z2.
    assert (D : constrain_diagonal m (z, z) = (z, z)).
    { assert (Am : forall z, is_amplitude z -> RC (rabs z) 0 = z) by (intros [zr zi] [I0 R0]; cbn in *; subst zi; now rewrite rabs_real).
      assert (Hf : rscale (/ 2) (radd z z) = z) by (apply rc_eq; cbn; field).
      assert (Ph : rabs z = 1 -> rscale (/ rabs z) z = z) by (intros ->; apply rc_eq; cbn; field).
      destruct m; cbn in *; rewrite ?Hf; try reflexivity; unfold is_phase in *; try (rewrite Am by tauto); try (rewrite Ph by tauto); try reflexivity. destruct M as [-> _]. reflexivity. }
    rewrite D. f_equal. unfold diagonal_rotation. f_equal; apply rc_eq; cbn; ring.
Qed.
Example C98_faraday_example : let data := fun _ : nat => Some (diagonal_rotation (RC 2 0) (RC 2 0) (3 * ((1 / 1) * (1 / 1)))) in
  of_mode ScalarAmplitude (RC 2 0) (RC 2 0) /\ (fun _ : list (R * R * R) => 6) (samples parg 1 1 (fun _ => 1) data (fun _ => 1)) = 2 * 3.
Proof. split; [repeat split; cbn; lra|lra]. Qed.
Print Assumptions C98_faraday.

(** C98, Faraday rotation with a diagonal: with faradaydiagonalmode=diagonal a solution that is a diagonal matrix times the rotation that is found, and one that is the rotation times a diagonal matrix, are both changed: the diagonal is found with the rotation at the right and is put back with the rotation at the left (FaradayConstraint.cc:171-183), unlike with rotation+diagonal. *)
Theorem C98_faraday_refuted : exists x y t, x <> rc0 /\ y <> rc0 /\
  faraday_channel Diagonal t (Some (diagonal_rotation x y t)) <> Some (diagonal_rotation x y t) /\
  faraday_channel Diagonal t (Some (rotation_diagonal t x y)) <> Some (rotation_diagonal t x y).
Proof.
  exists rc1, (RC 3 0), (PI / 2). split; [intros E; inversion E; lra|]. split; [intros E; inversion E; lra|]. split; intros E; apply (f_equal (fun o => match o with Some j => re (j1 j) | None => 0 end)) in E; cbn in E; rewrite sin_PI2, cos_PI2 in E; lra.
Qed.
Print Assumptions C98_faraday_refuted.
