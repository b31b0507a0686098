(** Properties of the visibilities of model components. *)
From Coq Require Import Reals List Arith Lia Lra Permutation.
From Verif Require Import EulerModel SimulateModel SimulateSpec SimulateProofs.
Import ListNotations.
Open Scope R_scope.

(** C87: the coordinates of a source are those of its direction in the frame of the reference, also on the other side of the sky *)
Theorem C87_lmn ref d : lmn ref d = to_frame ref (sky d) /\ dot (lmn ref d) (lmn ref d) = 1 /\ lmn ref ref = (0, 0, 1).
Proof.
  split; [apply lmn_frame|]. rewrite !lmn_frame, frame_norm, frame_sky. split; auto. unfold dot, sky. pose proof (one_of (ra d)). pose proof (one_of (dec d)).
  replace (cos (dec d) * cos (ra d) * (cos (dec d) * cos (ra d)) + cos (dec d) * sin (ra d) * (cos (dec d) * sin (ra d)))
    with (cos (dec d) * cos (dec d) * (cos (ra d) * cos (ra d) + sin (ra d) * sin (ra d))) by ring. rewrite H, H0. ring.
Qed.

(** C87: on a baseline between two stations every channel and correlation gets the sum of the visibilities of all components: their coherency,
    with the phase of the baseline, the size and the smearing that was asked for (see the refuted claim for smearing in time only) *)
Theorem C87_visibility m cs buffer bl p q ch k : fits m buffer -> nth_error (m_baselines m) bl = Some (p, q) -> p <> q ->
  (ch < length (m_freq m))%nat -> (k < ncorr m)%nat -> Forall (fun c => smearing_used m \/ exists s g, c = Gaussian s g) cs ->
  value (simulate m cs buffer) bl ch k = cplus (value buffer bl ch k)
    (csum (map (fun c => visibility (m_ref m) (m_ncp m) (m_time m) (m_freq_smear m) (m_stokes_i m) c (nth ch (m_freq m) 0) (nth ch (m_width m) 0)
      (minus (nth q (m_uvw m) (0, 0, 0)) (nth p (m_uvw m) (0, 0, 0))) k) cs)).
Proof.
  intros F E N Hc Hk S. destruct (simulate_value m bl p q ch k E Hc Hk cs buffer F) as [_ V]. rewrite V.
  replace (p =? q)%nat with false by (symmetry; now apply Nat.eqb_neq). do 2 f_equal. apply map_ext_in. intros c I. rewrite Forall_forall in S.
  apply contribution_visibility. now apply S.
Qed.
(** C87: autocorrelations stay as they are *)
Theorem C87_auto m cs buffer bl p ch k : fits m buffer -> nth_error (m_baselines m) bl = Some (p, p) -> (ch < length (m_freq m))%nat -> (k < ncorr m)%nat ->
  value (simulate m cs buffer) bl ch k = value buffer bl ch k.
Proof. intros F E Hc Hk. destruct (simulate_value m bl p p ch k E Hc Hk cs buffer F) as [_ V]. now rewrite V, Nat.eqb_refl. Qed.

(** C87: the order of the components does not matter, and they can be simulated in parts that are added *)
Theorem C87_order m cs cs' buffer bl p q ch k : fits m buffer -> nth_error (m_baselines m) bl = Some (p, q) -> (ch < length (m_freq m))%nat -> (k < ncorr m)%nat ->
  Permutation cs cs' -> value (simulate m cs buffer) bl ch k = value (simulate m cs' buffer) bl ch k.
Proof.
  intros F E Hc Hk P. destruct (simulate_value m bl p q ch k E Hc Hk cs buffer F) as [_ V]. destruct (simulate_value m bl p q ch k E Hc Hk cs' buffer F) as [_ V'].
  rewrite V, V'. destruct (p =? q)%nat; auto. f_equal. apply csum_perm. now apply Permutation_map.
Qed.
Theorem C87_parts m cs cs' buffer empty bl p q ch k : fits m buffer -> fits m empty -> (forall b c j, value empty b c j = czero) ->
  nth_error (m_baselines m) bl = Some (p, q) -> (ch < length (m_freq m))%nat -> (k < ncorr m)%nat ->
  value (simulate m (cs ++ cs') buffer) bl ch k = cplus (value (simulate m cs buffer) bl ch k) (value (simulate m cs' empty) bl ch k).
Proof.
  intros F F0 Z E Hc Hk. destruct (simulate_value m bl p q ch k E Hc Hk (cs ++ cs') buffer F) as [_ V]. destruct (simulate_value m bl p q ch k E Hc Hk cs buffer F) as [_ V1].
  destruct (simulate_value m bl p q ch k E Hc Hk cs' empty F0) as [_ V2]. rewrite V, V1, V2, Z. destruct (p =? q)%nat. { now rewrite cplus_zero. }
  rewrite map_app, csum_app, cplus_assoc. f_equal. rewrite cplus_comm. symmetry. apply cplus_zero.
Qed.

(** The correlation of a baseline the other way round *)
Definition swapped (m : simulator) (k : nat) : nat := if m_stokes_i m then k else nth k [0; 2; 1; 3]%nat k.
Lemma product_swap a b c c' : c' = cconj c -> product_of b a c' = cconj (product_of a b c).
Proof. intros ->. apply cx_eq; unfold product_of, cconj; cbn [cr ci]; ring. Qed.
Lemma time_swap m s f p q : time_term m s f q p = time_term m s f p q.
Proof. unfold time_term. destruct (m_time m); auto. rewrite <- sinc_even. f_equal. ring. Qed.
Lemma freq_swap m s f p q : freq_term m s f q p = freq_term m s f p q.
Proof. unfold freq_term. destruct (m_freq_smear m); auto. rewrite <- sinc_even. f_equal. ring. Qed.
Lemma amplitude_swap m d g f p q : amplitude m d g f q p = amplitude m d g f p q.
Proof.
  unfold amplitude. destruct (shape_uvw m d g p) as [[u v] w]. destruct (shape_uvw m d g q) as [[u' v'] w']. cbv zeta. f_equal. ring.
Qed.
Lemma contribution_swap m c f d p q k : (k < ncorr m)%nat -> nth k (contribution m c f d q p) czero = cconj (nth (swapped m k) (contribution m c f d p q) czero).
Proof.
  intros Hk. unfold contribution.
  assert (G : forall x e e' s, e = e' ->
    nth k (map (fun r => let r := product_of (shift m x f q) (shift m x f p) r in MkC (e * cr r) (e * ci r)) (spectrum (m_stokes_i m) (stokes_at s f))) czero =
    cconj (nth (swapped m k) (map (fun r => let r := product_of (shift m x f p) (shift m x f q) r in MkC (e' * cr r) (e' * ci r)) (spectrum (m_stokes_i m) (stokes_at s f))) czero)).
  { intros x e e' s ->. rewrite !nth_map_zero by (apply cx_eq; cbn; ring). cbv zeta.
    rewrite (product_swap (shift m x f p) (shift m x f q) (nth (swapped m k) (spectrum (m_stokes_i m) (stokes_at s f)) czero)).
    - apply cx_eq; cbn [cr ci cconj]; ring.
    - unfold ncorr, swapped, spectrum in *. destruct (m_stokes_i m).
      + destruct k; [|lia]. apply cx_eq; cbn; ring.
      + destruct k as [|[|[|[|k]]]]; try lia; apply cx_eq; cbn; ring. }
  destruct c as [s|s g]; apply G.
  - unfold point_term. now rewrite time_swap, freq_swap.
  - now rewrite time_swap, freq_swap, amplitude_swap.
Qed.
(** C87: a baseline with its stations the other way round gets the conjugate, with XY and YX exchanged *)
Theorem C87_reverse m cs buffer bl bl' p q ch k : fits m buffer -> nth_error (m_baselines m) bl = Some (p, q) -> nth_error (m_baselines m) bl' = Some (q, p) ->
  (ch < length (m_freq m))%nat -> (k < ncorr m)%nat ->
  value buffer bl' ch k = cconj (value buffer bl ch (swapped m k)) ->
  value (simulate m cs buffer) bl' ch k = cconj (value (simulate m cs buffer) bl ch (swapped m k)).
Proof.
  intros F E E' Hc Hk B. assert (Hs : (swapped m k < ncorr m)%nat).
  { unfold swapped, ncorr in *. destruct (m_stokes_i m); auto. destruct k as [|[|[|[|k]]]]; cbn; lia. }
  destruct (simulate_value m bl p q ch (swapped m k) E Hc Hs cs buffer F) as [_ V]. destruct (simulate_value m bl' q p ch k E' Hc Hk cs buffer F) as [_ V'].
  rewrite V, V', (Nat.eqb_sym q p), B. destruct (p =? q)%nat; auto.
  assert (Cp : forall a b, cconj (cplus a b) = cplus (cconj a) (cconj b)) by (intros; apply cx_eq; cbn; ring). rewrite Cp, csum_conj, map_map. do 2 f_equal. apply map_ext.
  intros c. now apply contribution_swap.
Qed.

Lemma sinc_zero : sinc 0 = 1.
Proof. unfold sinc. rewrite Rabs_R0. destruct (Rlt_dec 0 (/ 1000000)); auto. exfalso. apply n. lra. Qed.
(** C87: a point source at the phase centre has its coherencies on all baselines and in all channels *)
Theorem C87_centre ref ncp ti fr i s f d b k : p_dir s = ref -> visibility ref ncp ti fr i (Point s) f d b k = nth k (coherencies i (stokes_at s f)) czero.
Proof.
  intros E. unfold visibility, phase, rate. cbn [source_of size_factor]. rewrite E, frame_sky. unfold minus. replace (0 - 0, 0 - 0, 1 - 1) with (0, 0, 0) by (repeat apply (f_equal2 pair); ring).
  assert (D : forall x, dot (0, 0, 0) x = 0) by (intros [[x y] z]; unfold dot; ring). rewrite !D. replace (2 * PI * f / light * 0) with 0 by ring. replace (2 * PI * d / light * 0) with 0 by ring.
  replace (0 / 2) with 0 by field. rewrite sinc_zero. apply cx_eq; unfold cscale, ctimes, cis; cbn [cr ci]; rewrite cos_0, sin_0; destruct ti, fr; ring.
Qed.

(** C87: the size of a Gaussian only lowers the amplitude; a Gaussian without a size is a point; the axes can be exchanged, and turning by half a
    turn changes nothing *)
Theorem C87_gaussian ref s g b f : 0 < size_factor ref (Gaussian s g) b f <= 1 /\
  (g_major g = 0 -> g_minor g = 0 -> size_factor ref (Gaussian s g) b f = 1) /\
  size_factor ref (Gaussian s (MkShape (g_angle g + PI) (g_absolute g) (g_major g) (g_minor g))) b f = size_factor ref (Gaussian s g) b f /\
  size_factor ref (Gaussian s (MkShape (g_angle g + PI / 2) (g_absolute g) (g_minor g) (g_major g))) b f = size_factor ref (Gaussian s g) b f.
Proof.
  unfold size_factor. cbn [g_absolute g_angle g_major g_minor]. destruct (if g_absolute g then _ else _) as [[u v] w]. unfold gaussian. cbv zeta. repeat split.
  - apply exp_pos.
  - rewrite <- exp_0. match goal with |- exp ?x <= _ => assert (L : x <= 0) end.
    { match goal with |- - (2 * ?a ^ 2 * (?b ^ 2 + ?c ^ 2)) <= 0 => pose proof (pow2_ge_0 a); pose proof (pow2_ge_0 b); pose proof (pow2_ge_0 c); pose proof (Rmult_le_pos (a ^ 2) (b ^ 2 + c ^ 2)) end. lra. }
    destruct L as [L|L]; [left; now apply exp_increasing|right; now rewrite L].
  - intros -> ->. unfold sigma_of. rewrite <- exp_0. f_equal. unfold Rdiv. ring.
  - rewrite neg_sin, neg_cos. f_equal. ring.
  - replace (g_angle g + PI / 2) with (PI / 2 + g_angle g) by ring. replace (cos (PI / 2 + g_angle g)) with (- sin (g_angle g)) by (rewrite cos_plus, cos_PI2, sin_PI2; ring).
    replace (sin (PI / 2 + g_angle g)) with (cos (g_angle g)) by (rewrite sin_plus, cos_PI2, sin_PI2; ring). f_equal. ring.
Qed.
(** C87: a Gaussian without a size adds what a point source adds *)
Theorem C87_no_size m s g buffer : smearing_used m -> g_major g = 0 -> g_minor g = 0 -> simulate m [Gaussian s g] buffer = simulate m [Point s] buffer.
Proof.
  intros S A B. cbn. unfold visit. apply map_ext. intros [[p q] old]. cbn [fst snd]. unfold visit_baseline. destruct (p =? q)%nat; auto. apply map_ext. intros [k cell].
  f_equal. f_equal. unfold contribution. apply map_ext. intros c. cbv zeta. rewrite amplitude_gaussian.
  destruct (C87_gaussian (m_ref m) s g (minus (nth q (m_uvw m) (0, 0, 0)) (nth p (m_uvw m) (0, 0, 0))) (nth k (m_freq m) 0)) as (_ & O & _). rewrite O by auto.
  assert (P : point_term m (lmn (m_ref m) (p_dir s)) (nth k (m_freq m) 0) (nth k (m_width m) 0) p q = 1 * time_term m (lmn (m_ref m) (p_dir s)) (nth k (m_freq m) 0) p q * freq_term m (lmn (m_ref m) (p_dir s)) (nth k (m_width m) 0) p q).
  { unfold point_term, smeared, smearing_used, time_term, freq_term in *. destruct (m_time m), (m_freq_smear m), (m_stokes_i m); cbn [orb]; try ring; exfalso; destruct (S eq_refl); discriminate. }
  now rewrite P.
Qed.

(** * Spectra *)
Lemma horner_polynomial x terms : horner x terms = polynomial terms x.
Proof.
  unfold horner. rewrite <- fold_left_rev_right, rev_involutive. induction terms as [|t l IH]; cbn; auto. rewrite IH. ring.
Qed.
(** C87: the spectrum: a power law with a polynomial in the logarithm of the frequency as exponent, or a polynomial; and the polarization by Faraday
    rotation.  At the reference frequency the intensity is that of the model. *)
Theorem C87_spectrum s f : 0 < f -> 0 < p_ref s ->
  (p_terms s = [] -> s_I (stokes_at s f) = s_I (p_stokes s)) /\
  (p_terms s <> [] -> p_log s = true -> s_I (stokes_at s f) = s_I (p_stokes s) * Rpower (f / p_ref s) (polynomial (p_terms s) (ln (f / p_ref s) / ln 10))) /\
  (p_terms s <> [] -> p_log s = false -> s_I (stokes_at s f) = s_I (p_stokes s) + polynomial (0 :: p_terms s) (f / p_ref s - 1)) /\
  (f = p_ref s -> s_I (stokes_at s f) = s_I (p_stokes s)) /\
  s_V (stokes_at s f) = s_V (p_stokes s) /\
  (p_rm s = None -> s_Q (stokes_at s f) = s_Q (p_stokes s) /\ s_U (stokes_at s f) = s_U (p_stokes s)) /\
  (forall fraction angle rm, p_rm s = Some (fraction, angle, rm) ->
     MkC (s_Q (stokes_at s f)) (s_U (stokes_at s f)) = cscale (fraction * s_I (stokes_at s f)) (cis (2 * (angle + rm * (light / f) ^ 2)))).
Proof.
  intros Hf Hr. assert (I : s_I (stokes_at s f) = intensity s f) by (unfold stokes_at; destruct (p_rm s) as [[[? ?] ?]|]; reflexivity).
  assert (B : log10 f - log10 (p_ref s) = ln (f / p_ref s) / ln 10).
  { unfold log10, Rdiv. rewrite ln_mult, ln_Rinv; auto using Rinv_0_lt_compat. ring. }
  assert (T : ln 10 <> 0) by (apply Rgt_not_eq; rewrite <- ln_1; apply ln_increasing; lra).
  assert (X : f = p_ref s -> f / p_ref s = 1) by (intros ->; field; lra).
  rewrite I. repeat split.
  - intros E. unfold intensity. now rewrite E.
  - intros N L. unfold intensity. destruct (p_terms s) as [|t l] eqn:E; [tauto|]. rewrite L. cbv zeta. rewrite B, horner_polynomial. f_equal. unfold Rpower. f_equal. field. auto.
  - intros N L. unfold intensity. destruct (p_terms s) as [|t l] eqn:E; [tauto|]. rewrite L. cbv zeta. rewrite horner_polynomial. cbn [polynomial]. ring.
  - intros E. unfold intensity. destruct (p_terms s) as [|t l]; auto. rewrite X by auto. destruct (p_log s); cbv zeta.
    + rewrite E. replace (log10 (p_ref s) - log10 (p_ref s)) with 0 by ring. rewrite Rmult_0_l. unfold Rpower. rewrite Rmult_0_l, exp_0. ring.
    + ring.
  - unfold stokes_at. destruct (p_rm s) as [[[? ?] ?]|]; reflexivity.
  - unfold stokes_at. rewrite H. reflexivity.
  - unfold stokes_at. rewrite H. reflexivity.
  - intros fraction angle rm E. unfold stokes_at. rewrite E. cbn. replace (light / f * (light / f * 1)) with (light / f * (light / f)) by ring. rewrite <- Rmult_assoc. apply cx_eq; cbn; ring.
Qed.

(** * Smearing *)
(** C87: the sinc function of the code differs from the exact one by less than a millionth of a millionth *)
Theorem C87_sinc x : sinc 0 = 1 /\ (x <> 0 -> Rabs (sinc x - sin x / x) < / 1000000000000).
Proof.
  split; [apply sinc_zero|]. assert (P : forall y, 0 < y -> y < / 1000000 -> Rabs (1 - sin y / y) < / 1000000000000).
  { intros y Hy Hs. destruct (sin_close y) as [A B]; [lra|]. assert (Q : 1 - y ^ 2 / 6 <= sin y / y < 1).
    { split.
      - apply Rmult_le_reg_r with y; auto. unfold Rdiv at 2. rewrite Rmult_assoc, Rinv_l by lra. lra.
      - apply Rmult_lt_reg_r with y; auto. unfold Rdiv. rewrite Rmult_assoc, Rinv_l by lra. lra. }
    assert (y * y < / 1000000 * / 1000000) by (apply Rmult_le_0_lt_compat; lra). replace (y ^ 2) with (y * y) in Q by ring. rewrite Rabs_right; lra. }
  intros N. unfold sinc. destruct (Rlt_dec (Rabs x) (/ 1000000)) as [L|L].
  - destruct (Rlt_dec 0 x) as [G|G]. { rewrite Rabs_right in L by lra. now apply P. }
    replace (sin x / x) with (sin (- x) / (- x)) by (rewrite sin_neg; field; auto). rewrite Rabs_left in L by lra. apply P; lra.
  - rewrite Rminus_diag_eq by reflexivity. rewrite Rabs_R0. lra.
Qed.
(** C87: the smearing in time uses the change of the phase by the rotation of the Earth, for the pole as it is seen at the declination of the phase
    centre; [h] is the hour angle and [w] the angle of rotation in an interval; the sign does not matter *)
Theorem C87_rotation ref d xyz delta h w f :
  derivable_pt_lim (fun t => phase ref d (uvw_at xyz delta (h + w * t)) f) 0 (- rate ref d (w * cos delta, w * sin delta) (uvw_at xyz delta h) f) /\
  forall x, sinc (- x) = sinc x.
Proof.
  split; [|apply sinc_even]. unfold phase, rate. destruct (minus (to_frame ref (sky d)) (0, 0, 1)) as [[l m] n]. destruct xyz as [[x y] z]. unfold uvw_at, cross, dot. cbn [fst snd].
  set (k := 2 * PI * f / light). set (A := k * (l * x + m * (y * sin delta) - n * (y * cos delta))). set (B := k * (l * y - m * (x * sin delta) + n * (x * cos delta))).
  set (Cc := k * (m * z * cos delta + n * z * sin delta)).
  assert (D : derivable_pt_lim (fun t => A * sin (h + w * t) + B * cos (h + w * t) + Cc) 0 (A * (cos (h + w * 0) * w) + B * (- sin (h + w * 0) * w) + 0)).
  { assert (L : derivable_pt_lim (fun t => h + w * t) 0 w).
    { match goal with |- derivable_pt_lim ?g _ _ => assert (L : derivable_pt_lim g 0 (0 + w * 1)); [|now replace (0 + w * 1) with w in L by ring] end.
      apply (derivable_pt_lim_plus (fun _ => h) (fun t => w * t)); [apply derivable_pt_lim_const|].
      apply (derivable_pt_lim_scal (fun t => t)). apply derivable_pt_lim_id. }
    apply (derivable_pt_lim_plus (fun t => A * sin (h + w * t) + B * cos (h + w * t)) (fun _ => Cc)); [|apply derivable_pt_lim_const].
    apply (derivable_pt_lim_plus (fun t => A * sin (h + w * t)) (fun t => B * cos (h + w * t))).
    - apply (derivable_pt_lim_scal (fun t => sin (h + w * t))). apply (derivable_pt_lim_comp (fun t => h + w * t) sin); auto. apply derivable_pt_lim_sin.
    - apply (derivable_pt_lim_scal (fun t => cos (h + w * t))). apply (derivable_pt_lim_comp (fun t => h + w * t) cos); auto. apply derivable_pt_lim_cos. }
  match goal with |- derivable_pt_lim _ _ ?v => assert (E : v = A * (cos (h + w * 0) * w) + B * (- sin (h + w * 0) * w) + 0) end.
  { replace (h + w * 0) with h by ring. subst A B. pose proof (one_of delta) as O. set (sd := sin delta) in *. set (cd := cos delta) in *. 
    match goal with |- ?a = ?b => assert (Z : a - b = 0); [|lra] end. ring_simplify. replace (sd ^ 2) with (1 - cd * cd) by lra. ring. }
  rewrite E. intros e He. destruct (D e He) as [del Hd]. exists del. intros t Ht Hl. specialize (Hd t Ht Hl).
  match goal with |- Rabs (?a - ?b) < e => match type of Hd with Rabs (?c - ?d) < e => replace a with c; [exact Hd|] end end.
  f_equal. subst A B Cc. ring.
Qed.

(** C87: with all correlations and smearing in time but not in frequency, a point source is not smeared: the terms are computed but only used when
    there is smearing in frequency too.  (A Gaussian source, or the same source with Stokes I alone, is smeared.)  Here a baseline of one kilometre sees
    the phase of a source change by a full turn in an interval of about fourteen seconds, so nothing should remain of it. *)
Theorem C87_time_smearing_refuted : exists m s buffer, fits m buffer /\ m_baselines m = [(0, 1)]%nat /\ m_time m = true /\ m_freq_smear m = false /\
  visibility (m_ref m) (m_ncp m) (m_time m) (m_freq_smear m) (m_stokes_i m) (Point s) (nth 0 (m_freq m) 0) (nth 0 (m_width m) 0) (minus (nth 1 (m_uvw m) (0, 0, 0)) (nth 0 (m_uvw m) (0, 0, 0))) 0 = czero /\
  value buffer 0 0 0 = czero /\ value (simulate m [Point s] buffer) 0 0 0 <> czero.
Proof.
  exists (MkSim (MkDir 0 0) [(0, 1)%nat] [light] [1] (/ 1000, 0) [(0, 0, 0); (0, 0, 1000)] true false false).
  exists (MkSource (MkDir (PI / 2) 0) (MkStokes 1 0 0 0) 0 [] true None), [[[czero; czero; czero; czero]]].
  split; [|split; [reflexivity|split; [reflexivity|split; [reflexivity|split; [|split; [reflexivity|]]]]]].
  - split; auto. intros b [<-|[]]. split; auto. intros c [<-|[]]. reflexivity.
  - cbn [m_ref m_ncp m_time m_freq_smear m_stokes_i m_freq m_width m_uvw nth]. unfold visibility. cbn [source_of p_dir size_factor].
    assert (Rt : rate (MkDir 0 0) (MkDir (PI / 2) 0) (/ 1000, 0) (minus (0, 0, 1000) (0, 0, 0)) light / 2 = - PI).
    { unfold rate, to_frame, minus, dot, cross, sky, east, north; cbn [ra dec fst snd]. rewrite cos_PI2, sin_PI2, cos_0, sin_0. field. pose proof light_pos. lra. }
    rewrite Rt, sinc_even. assert (S : sinc PI = 0). { unfold sinc. destruct (Rlt_dec (Rabs PI) (/ 1000000)) as [L|L]. { exfalso. pose proof PI2_1. rewrite Rabs_right in L; lra. } rewrite sin_PI. unfold Rdiv. ring. }
    rewrite S. apply cx_eq; unfold cscale, czero; cbn [cr ci]; ring.
  - match goal with |- value (simulate ?m [?c] ?b) _ _ _ <> _ => pose proof (visit_value m c b 0 0 1 0 0) as V end.
    cbn [simulate fold_left]. rewrite V; [|split; auto; intros b [<-|[]]; split; auto; intros c [<-|[]]; reflexivity|reflexivity|cbn; lia|cbn; lia]. cbn [Nat.eqb].
    cbn [m_freq m_width nth]. intros E. unfold contribution in E. rewrite nth_map_zero in E by (apply cx_eq; cbn; ring). cbv zeta in E. rewrite product_cis in E.
    match type of E with context [cis ?x] => set (a := x) in E end. unfold point_term, smeared in E. cbn in E. unfold cplus, ctimes, cis in E. cbn [cr ci] in E. injection E as E1 E2.
    pose proof (one_of a). assert (cos a = 0) by lra. assert (sin a = 0) by lra. rewrite H0, H1 in H. lra.
Qed.

(** * Examples *)
(** Two stations, both directions of the baseline and an autocorrelation, with smearing *)
Definition example_simulator : simulator :=
  MkSim (MkDir 1 1) [(0, 0); (0, 1); (1, 0)]%nat [100; 200] [1; 1] (/ 1000, / 2000) [(0, 0, 0); (30, 40, 5)] true true false.
Definition example_buffer : list (list (list cx)) := repeat (repeat (repeat czero 4) 2) 3.
Definition example_source : source := MkSource (MkDir 1 1) (MkStokes 2 1 0 3) 100 [-1] true None.
Example example_fits : fits example_simulator example_buffer /\ smearing_used example_simulator /\ (forall b c j, value example_buffer b c j = czero).
Proof.
  split; [|split].
  - split; auto. intros b [<-|[<-|[<-|[]]]]; (split; [reflexivity|]); intros c [<-|[<-|[]]]; reflexivity.
  - intros _. left. reflexivity.
  - intros [|[|[|b]]] [|[|c]] [|[|[|[|j]]]]; try reflexivity; unfold value; cbn; destruct b || destruct c || destruct j; reflexivity.
Qed.
(** A spectral index of -1: at twice the reference frequency half the intensity is left *)
Example example_value : value (simulate example_simulator [Point example_source; Gaussian example_source (MkShape 1 true 0 0)] example_buffer) 1 1 0 = MkC 4 0.
Proof.
  destruct example_fits as (F & S & Z).
  rewrite (C87_visibility example_simulator _ example_buffer 1 0 1 1 0); auto; try (cbn; lia).
  assert (P : forall c, c = Point example_source \/ c = Gaussian example_source (MkShape 1 true 0 0) -> forall i b,
    visibility (MkDir 1 1) (/ 1000, / 2000) true true i c 200 1 b 0 = visibility (MkDir 1 1) (/ 1000, / 2000) true true i (Point example_source) 200 1 b 0).
  { intros c [->| ->] i b; auto. unfold visibility. cbn [source_of]. f_equal. f_equal. f_equal.
    destruct (C87_gaussian (MkDir 1 1) example_source (MkShape 1 true 0 0) b 200) as (_ & O & _). apply O; reflexivity. }
  cbn [map example_simulator m_ref m_ncp m_time m_freq_smear m_stokes_i m_freq m_width m_uvw nth].
  rewrite (P (Gaussian example_source (MkShape 1 true 0 0))) by auto. rewrite !C87_centre by reflexivity.
  assert (I : s_I (stokes_at example_source 200) = 1).
  { destruct (C87_spectrum example_source 200) as (_ & H & _); [lra|cbn; lra|]. rewrite H; [|discriminate|reflexivity]. cbn [example_source p_stokes s_I p_terms p_ref polynomial].
    replace (200 / 100) with 2 by field. replace (-1 + ln 2 / ln 10 * 0) with (- (1)) by ring. rewrite Rpower_Ropp, Rpower_1 by lra. field. }
  assert (Q : s_Q (stokes_at example_source 200) = 1) by reflexivity.
  rewrite !csum_cons. change (csum []) with czero. unfold coherencies, czero. cbn [nth]. rewrite I, Q. rewrite Z. apply cx_eq; unfold cplus; cbn [cr ci czero]; ring.
Qed.
Print Assumptions C87_lmn.
Print Assumptions C87_visibility.
Print Assumptions C87_auto.
Print Assumptions C87_order.
Print Assumptions C87_parts.
Print Assumptions C87_reverse.
Print Assumptions C87_centre.
Print Assumptions C87_gaussian.
Print Assumptions C87_no_size.
Print Assumptions C87_spectrum.
Print Assumptions C87_sinc.
Print Assumptions C87_rotation.
Print Assumptions C87_time_smearing_refuted.
