(** Lemmas on the visibilities of model components. *)
From Coq Require Import Reals List Arith Lia Lra Permutation.
From Verif Require Import EulerModel SimulateModel SimulateSpec.
Import ListNotations.
Open Scope R_scope.

Lemma one_of a : sin a * sin a = 1 - cos a * cos a.
Proof. pose proof (sin2_cos2 a) as H. unfold Rsqr in H. lra. Qed.
Ltac vecs := repeat match goal with p : vec |- _ => destruct p as [[? ?] ?] end.
Lemma cx_eq a b : cr a = cr b -> ci a = ci b -> a = b.
Proof. destruct a, b; cbn; congruence. Qed.
Lemma light_pos : 0 < light. Proof. unfold light. lra. Qed.

(** * Directions *)
Lemma lmn_frame ref d : lmn ref d = to_frame ref (sky d).
Proof.
  unfold lmn, to_frame, dot, sky, east, north. rewrite sin_minus, cos_minus. repeat apply (f_equal2 pair); ring.
Qed.
Ltac trig := repeat match goal with |- context [sin ?a * sin ?a] => rewrite (one_of a) end.
Lemma frame_norm ref x : dot (to_frame ref x) (to_frame ref x) = dot x x.
Proof.
  vecs. unfold to_frame, dot, east, north, sky. destruct ref as [a d]; cbn [ra dec].
  pose proof (one_of a). pose proof (one_of d). set (sa := sin a) in *. set (ca := cos a) in *. set (sd := sin d) in *. set (cd := cos d) in *.
  ring_simplify. replace (sa ^ 2) with (1 - ca * ca) by lra. replace (sd ^ 2) with (1 - cd * cd) by lra. ring_simplify.
  repeat match goal with |- context [sa ^ 4] => replace (sa ^ 4) with ((1 - ca * ca) * (1 - ca * ca)) by (rewrite <- H; ring) end. ring.
Qed.
Lemma frame_adjoint ref x b : dot (to_frame ref x) b = dot x (of_frame ref b).
Proof. vecs. unfold to_frame, of_frame, dot, east, north, sky. ring. Qed.
Ltac orth a d :=
  let sa := fresh "sa" in let ca := fresh "ca" in let sd := fresh "sd" in let cd := fresh "cd" in
  pose proof (one_of a) as Ha; pose proof (one_of d) as Hd; set (sa := sin a) in *; set (ca := cos a) in *; set (sd := sin d) in *; set (cd := cos d) in *;
  ring_simplify; replace (sa ^ 2) with (1 - ca * ca) by lra; replace (sd ^ 2) with (1 - cd * cd) by lra; ring.
Lemma of_to_frame ref x : of_frame ref (to_frame ref x) = x.
Proof. vecs. destruct ref as [a d]. unfold to_frame, of_frame, dot, east, north, sky; cbn [ra dec]. repeat apply (f_equal2 pair); orth a d. Qed.
Lemma to_of_frame ref b : to_frame ref (of_frame ref b) = b.
Proof. vecs. destruct ref as [a d]. unfold to_frame, of_frame, dot, east, north, sky; cbn [ra dec]. repeat apply (f_equal2 pair); orth a d. Qed.
Lemma euler_frames d ref b : apply (product (transpose (euler d)) (euler ref)) b = to_frame d (of_frame ref b).
Proof. vecs. unfold to_frame, of_frame, dot, east, north, sky, apply, product, transpose, euler, matrix, at_; cbn. repeat apply (f_equal2 pair); ring. Qed.
Lemma dot_comm a b : dot a b = dot b a. Proof. vecs. unfold dot. ring. Qed.
Lemma dot_minus a b c : dot a (minus b c) = dot a b - dot a c. Proof. vecs. unfold dot, minus. ring. Qed.
Lemma of_frame_minus ref a b : of_frame ref (minus a b) = minus (of_frame ref a) (of_frame ref b).
Proof. vecs. unfold of_frame, minus, east, north, sky. repeat apply (f_equal2 pair); ring. Qed.
Lemma to_frame_minus ref a b : to_frame ref (minus a b) = minus (to_frame ref a) (to_frame ref b).
Proof. vecs. unfold to_frame, minus, dot, east, north, sky. repeat apply (f_equal2 pair); ring. Qed.
Lemma frame_sky ref : to_frame ref (sky ref) = (0, 0, 1).
Proof.
  destruct ref as [a d]. unfold to_frame, dot, east, north, sky; cbn [ra dec]. repeat apply (f_equal2 pair); [ring|orth a d|orth a d].
Qed.

(** * One component, one baseline *)
Lemma phase_minus ref d uq up f : station_phase uq (lmn ref d) * f - station_phase up (lmn ref d) * f = phase ref d (minus uq up) f.
Proof.
  rewrite lmn_frame. unfold phase. destruct (to_frame ref (sky d)) as [[l m] n]. vecs. unfold station_phase, cinv, dot, minus. field. pose proof light_pos. lra.
Qed.
Lemma rotation_minus ref d ncp uq up f : (earth_rotation ncp uq (lmn ref d) - earth_rotation ncp up (lmn ref d)) * f = rate ref d ncp (minus uq up) f.
Proof.
  rewrite lmn_frame. unfold rate. destruct (to_frame ref (sky d)) as [[l m] n]. destruct ncp as [n1 n2]. vecs. unfold earth_rotation, cinv, dot, minus, cross; cbn [fst snd].
  field. pose proof light_pos. lra.
Qed.
Lemma product_cis m s f p q k : product_of (shift m s f p) (shift m s f q) k = ctimes k (cis (station_phase (nth q (m_uvw m) (0, 0, 0)) s * f - station_phase (nth p (m_uvw m) (0, 0, 0)) s * f)).
Proof. apply cx_eq; unfold product_of, shift, ctimes, cis; cbn [cr ci]; rewrite cos_minus, sin_minus; ring. Qed.
Lemma spectrum_coherencies i s : spectrum i s = coherencies i s.
Proof. unfold spectrum, coherencies. destruct i; auto. repeat (apply f_equal2; [apply cx_eq; cbn; ring|]). reflexivity. Qed.
Lemma fwhm_sigma x : x * fwhm2sigma = sigma_of x.
Proof. unfold fwhm2sigma, sigma_of, Rdiv. ring. Qed.
Lemma amplitude_gaussian m s g f p q :
  amplitude m (p_dir s) g f p q = size_factor (m_ref m) (Gaussian s g) (minus (nth q (m_uvw m) (0, 0, 0)) (nth p (m_uvw m) (0, 0, 0))) f.
Proof.
  unfold amplitude, size_factor, shape_uvw. cbv zeta.
  assert (E1 : cos (PI / 2 + g_angle g + PI) = sin (g_angle g)) by (rewrite neg_cos, cos_plus, cos_PI2, sin_PI2; ring).
  assert (E2 : sin (PI / 2 + g_angle g + PI) = - cos (g_angle g)) by (rewrite neg_sin, sin_plus, cos_PI2, sin_PI2; ring).
  rewrite E1, E2. destruct (g_absolute g).
  - rewrite !euler_frames, of_frame_minus, to_frame_minus. destruct (to_frame (p_dir s) (of_frame (m_ref m) (nth q (m_uvw m) (0, 0, 0)))) as [[uq vq] wq].
    destruct (to_frame (p_dir s) (of_frame (m_ref m) (nth p (m_uvw m) (0, 0, 0)))) as [[up vp] wp]. cbn [minus]. unfold gaussian. rewrite !fwhm_sigma. f_equal. field. pose proof light_pos. lra.
  - destruct (nth q (m_uvw m) (0, 0, 0)) as [[uq vq] wq]. destruct (nth p (m_uvw m) (0, 0, 0)) as [[up vp] wp]. cbn [minus]. unfold gaussian. rewrite !fwhm_sigma. f_equal. field. pose proof light_pos. lra.
Qed.
(** Time smearing is only used for point sources together with frequency smearing, or with Stokes I alone *)
Definition smearing_used (m : simulator) : Prop := m_time m = true -> m_freq_smear m = true \/ m_stokes_i m = true.
Notation bl_uvw m p q := (minus (nth q (m_uvw m) (0, 0, 0)) (nth p (m_uvw m) (0, 0, 0))).
Lemma time_rate m d f p q : time_term m (lmn (m_ref m) d) f p q = if m_time m then sinc (rate (m_ref m) d (m_ncp m) (bl_uvw m p q) f / 2) else 1.
Proof. unfold time_term. rewrite <- rotation_minus. destruct (m_time m); auto. f_equal. field. Qed.
Lemma freq_phase m d w p q : freq_term m (lmn (m_ref m) d) w p q = if m_freq_smear m then sinc (phase (m_ref m) d (bl_uvw m p q) w / 2) else 1.
Proof. unfold freq_term. rewrite <- phase_minus. destruct (m_freq_smear m); auto. f_equal. field. Qed.
Lemma contribution_length m c f d p q : length (contribution m c f d p q) = if m_stokes_i m then 1%nat else 4%nat.
Proof. unfold contribution. destruct c; rewrite map_length; unfold spectrum; now destruct (m_stokes_i m). Qed.
Lemma nth_map_zero (g : cx -> cx) l k : g czero = czero -> nth k (map g l) czero = g (nth k l czero).
Proof. intros H. rewrite <- H at 1. apply map_nth. Qed.
Lemma contribution_visibility m c f d p q k : smearing_used m \/ (exists s g, c = Gaussian s g) ->
  nth k (contribution m c f d p q) czero = visibility (m_ref m) (m_ncp m) (m_time m) (m_freq_smear m) (m_stokes_i m) c f d (bl_uvw m p q) k.
Proof.
  intros S. assert (G : forall x e s, nth k (map (fun r => let r := product_of (shift m (lmn (m_ref m) x) f p) (shift m (lmn (m_ref m) x) f q) r in MkC (e * cr r) (e * ci r)) (spectrum (m_stokes_i m) (stokes_at s f))) czero =
    cscale e (ctimes (nth k (coherencies (m_stokes_i m) (stokes_at s f)) czero) (cis (phase (m_ref m) x (bl_uvw m p q) f)))).
  { intros x e s. rewrite nth_map_zero; [|apply cx_eq; cbn; ring]. cbv zeta. rewrite product_cis, phase_minus, spectrum_coherencies. reflexivity. }
  unfold contribution, visibility. destruct c as [s|s g]; cbn [source_of]; rewrite G; f_equal.
  - unfold point_term, smeared. rewrite time_rate, freq_phase. cbn [size_factor]. destruct S as [S|(s' & g & E)]; [|discriminate]. unfold smearing_used in S.
    destruct (m_time m), (m_freq_smear m), (m_stokes_i m); cbn [orb]; try ring; exfalso; destruct (S eq_refl); discriminate.
  - rewrite time_rate, freq_phase, amplitude_gaussian. reflexivity.
Qed.

(** * Buffers *)
Lemma nth_combine {A B} (l : list A) (l' : list B) k a b : length l = length l' -> nth k (combine l l') (a, b) = (nth k l a, nth k l' b).
Proof. apply combine_nth. Qed.
Lemma map_combine_nth {A B C} (g : A * B -> C) (l : list A) (l' : list B) k a b c : length l = length l' -> (k < length l)%nat ->
  nth k (map g (combine l l')) c = g (nth k l a, nth k l' b).
Proof.
  intros L K. rewrite (nth_indep _ c (g (a, b))) by (rewrite map_length, combine_length; lia). rewrite map_nth. f_equal. now apply combine_nth.
Qed.
Definition ncorr (m : simulator) : nat := if m_stokes_i m then 1 else 4.
Notation fits m buffer := (shaped (length (m_baselines m)) (length (m_freq m)) (ncorr m) buffer).
Lemma visit_shape m c buffer : fits m buffer -> fits m (visit m buffer c).
Proof.
  intros [L H]. unfold visit. split. { rewrite map_length, combine_length. lia. }
  intros b I. apply in_map_iff in I as ([[p q] old] & <- & I). cbn [fst snd]. apply in_combine_r in I. destruct (H old I) as [Lo Ho].
  unfold visit_baseline. destruct (p =? q)%nat; auto. split. { rewrite map_length, combine_length, seq_length. lia. }
  intros cell J. apply in_map_iff in J as ([k o] & <- & J). apply in_combine_r in J. rewrite map_length, combine_length, contribution_length, (Ho o J). unfold ncorr. destruct (m_stokes_i m); reflexivity.
Qed.
Lemma visit_value m c buffer bl p q ch k : fits m buffer -> nth_error (m_baselines m) bl = Some (p, q) -> (ch < length (m_freq m))%nat -> (k < ncorr m)%nat ->
  value (visit m buffer c) bl ch k = if (p =? q)%nat then value buffer bl ch k
    else cplus (value buffer bl ch k) (nth k (contribution m c (nth ch (m_freq m) 0) (nth ch (m_width m) 0) p q) czero).
Proof.
  intros [L H] E Hc Hk. assert (Lb : (bl < length (m_baselines m))%nat) by (apply nth_error_Some; congruence).
  pose proof (nth_error_nth _ _ (0%nat, 0%nat) E) as En.
  assert (Ib : In (nth bl buffer []) buffer) by (apply nth_In; lia). destruct (H _ Ib) as [Lo Ho].
  assert (Ic : In (nth ch (nth bl buffer []) []) (nth bl buffer [])) by (apply nth_In; lia). pose proof (Ho _ Ic) as Lc.
  unfold value, visit. rewrite (map_combine_nth _ _ _ _ (0%nat, 0%nat) [] []) by lia. cbn [fst snd]. rewrite En. unfold visit_baseline. destruct (p =? q)%nat; auto.
  rewrite (map_combine_nth _ _ _ _ 0%nat [] []) by (rewrite seq_length; lia). rewrite seq_nth by lia. cbn [Nat.add].
  rewrite (map_combine_nth _ _ _ _ czero czero czero); [reflexivity| |rewrite Lc; auto]. rewrite contribution_length, Lc. reflexivity.
Qed.
Lemma cplus_assoc a b c : cplus a (cplus b c) = cplus (cplus a b) c. Proof. apply cx_eq; cbn; ring. Qed.
Lemma cplus_zero a : cplus a czero = a. Proof. apply cx_eq; cbn; ring. Qed.
Lemma cplus_comm a b : cplus a b = cplus b a. Proof. apply cx_eq; cbn; ring. Qed.
Lemma csum_cons a l : csum (a :: l) = cplus a (csum l). Proof. reflexivity. Qed.
Lemma simulate_value m bl p q ch k : nth_error (m_baselines m) bl = Some (p, q) -> (ch < length (m_freq m))%nat -> (k < ncorr m)%nat ->
  forall cs buffer, fits m buffer -> fits m (simulate m cs buffer) /\
  value (simulate m cs buffer) bl ch k = if (p =? q)%nat then value buffer bl ch k
    else cplus (value buffer bl ch k) (csum (map (fun c => nth k (contribution m c (nth ch (m_freq m) 0) (nth ch (m_width m) 0) p q) czero) cs)).
Proof.
  intros E Hc Hk. induction cs as [|c cs IH]; intros buffer F.
  - split; auto. cbn. destruct (p =? q)%nat; auto. symmetry. apply cplus_zero.
  - pose proof (visit_shape m c buffer F) as F'. destruct (IH _ F') as [F'' V]. change (simulate m (c :: cs) buffer) with (simulate m cs (visit m buffer c)).
    split; auto. rewrite V, (visit_value m c buffer bl p q) by auto. destruct (p =? q)%nat; auto. rewrite map_cons, csum_cons. symmetry. apply cplus_assoc.
Qed.
Lemma csum_perm l l' : Permutation l l' -> csum l = csum l'.
Proof.
  intros P. induction P; rewrite ?csum_cons; auto; try congruence. rewrite !cplus_assoc. f_equal. apply cplus_comm.
Qed.
Lemma csum_app l l' : csum (l ++ l') = cplus (csum l) (csum l').
Proof. induction l; cbn [app]. { change (csum []) with czero. rewrite cplus_comm. now rewrite cplus_zero. } now rewrite !csum_cons, IHl, cplus_assoc. Qed.
Lemma csum_conj l : cconj (csum l) = csum (map cconj l).
Proof. induction l; cbn [map]. { apply cx_eq; cbn; ring. } rewrite !csum_cons, <- IHl. apply cx_eq; cbn; ring. Qed.

(** * The sinc function *)
Lemma sinc_even x : sinc (- x) = sinc x.
Proof.
  unfold sinc. rewrite Rabs_Ropp. destruct (Rlt_dec _ _); auto. rewrite sin_neg. field. intros E. subst x. rewrite Rabs_R0 in n. apply n. lra.
Qed.
Lemma sin_close x : 0 < x <= 1 -> x - x ^ 3 / 6 <= sin x < x.
Proof.
  intros H. split; [|apply sin_lt_x; lra]. pose proof PI2_1. destruct (pre_sin_bound x 0) as [S _]; try lra.
  unfold sin_approx in S. cbn [sum_f_R0 Nat.mul Nat.add] in S. unfold sin_term in S. cbn in S. lra.
Qed.
