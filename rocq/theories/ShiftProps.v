(** Properties of the change of the phase centre. *)
From Coq Require Import Reals List Arith Lia Lra.
From Verif Require Import EulerModel SimulateModel SimulateSpec SimulateProofs SimulateProps ShiftModel ShiftSpec.
Import ListNotations.
Open Scope R_scope.

Lemma rotate_frames old new b : rotate (rotation old new) b = to_frame new (of_frame old b).
Proof. rewrite <- euler_frames. destruct b as [[u v] w]. unfold rotate, rotation, apply, at_. cbn [Nat.add Nat.mul]. repeat apply (f_equal2 pair); ring. Qed.
Lemma rotate_back old new b : of_frame new (rotate (rotation old new) b) = of_frame old b.
Proof. rewrite rotate_frames. apply of_to_frame. Qed.
Lemma rotate_same d b : rotate (rotation d d) b = b.
Proof. rewrite rotate_frames. apply to_of_frame. Qed.
Lemma rotate_twice a b c x : rotate (rotation b c) (rotate (rotation a b) x) = rotate (rotation a c) x.
Proof. now rewrite (rotate_frames b c), rotate_back, <- rotate_frames. Qed.
Lemma of_frame_norm d b : dot (of_frame d b) (of_frame d b) = dot b b.
Proof. rewrite <- (frame_norm d), to_of_frame. reflexivity. Qed.

(** C88: the new UVW coordinates are those of the same baselines for the new centre; lengths stay the same; the way to the new centre does not matter *)
Theorem C88_uvw old new uvw : same_baselines old new uvw (rotate_uvw old new uvw) /\
  (forall b, In b uvw -> dot (rotate (rotation old new) b) (rotate (rotation old new) b) = dot b b) /\
  (forall via, rotate_uvw via new (rotate_uvw old via uvw) = rotate_uvw old new uvw) /\
  rotate_uvw old old uvw = uvw.
Proof.
  unfold same_baselines, rotate_uvw. repeat split.
  - rewrite map_map. apply map_ext. intros b. apply rotate_back.
  - intros b _. rewrite <- (of_frame_norm new), rotate_back. apply of_frame_norm.
  - intros via. rewrite map_map. apply map_ext. intros b. apply rotate_twice.
  - rewrite <- map_id. apply map_ext. intros b. apply rotate_same.
Qed.

Definition third (b : vec) : R := let '(_, w) := b in w.
Lemma third_sky d b : third b = dot (of_frame d b) (sky d).
Proof. rewrite dot_comm, <- frame_adjoint, frame_sky. destruct b as [[u v] w]. cbn. ring. Qed.
Lemma metres_third old new b : metres old new b = third b - third (rotate (rotation old new) b).
Proof.
  rewrite (third_sky old), (third_sky new (rotate _ _)), rotate_back. destruct b as [[u v] w].
  unfold metres, phase_vector, of_frame, dot, sky, east, north, euler, at_; cbn. ring.
Qed.
Lemma cmul_ctimes a b : cmul a b = ctimes a b. Proof. reflexivity. Qed.
Lemma ctimes_cis a x y : ctimes (ctimes a (cis x)) (cis y) = ctimes a (cis (x + y)).
Proof. apply cx_eq; unfold ctimes, cis; cbn [cr ci]; rewrite cos_plus, sin_plus; ring. Qed.
Lemma ctimes_cis0 a : ctimes a (cis 0) = a.
Proof. apply cx_eq; unfold ctimes, cis; cbn [cr ci]; rewrite cos_0, sin_0; ring. Qed.

(** The data of all baselines, with channels as in the frequencies *)
Definition sized (freqs : list R) (buffer : list (list (list cx)) * list vec) : Prop :=
  length (fst buffer) = length (snd buffer) /\ forall b, In b (fst buffer) -> length b = length freqs.
(** C88: every number of a baseline and channel has its phase changed by the difference of the old and new w, in wavelengths; its amplitude stays *)
Theorem C88_data old new freqs buffer bl ch k : sized freqs buffer -> (bl < length (snd buffer))%nat -> (ch < length freqs)%nat ->
  let buffer' := shift_buffer old new freqs buffer in
  let b := nth bl (snd buffer) (0, 0, 0) in
  let b' := nth bl (snd buffer') (0, 0, 0) in
  value (fst buffer') bl ch k = ctimes (value (fst buffer) bl ch k) (phase_change (nth ch freqs 0) b b') /\ snd buffer' = rotate_uvw old new (snd buffer) /\
  cr (value (fst buffer') bl ch k) * cr (value (fst buffer') bl ch k) + ci (value (fst buffer') bl ch k) * ci (value (fst buffer') bl ch k) =
  cr (value (fst buffer) bl ch k) * cr (value (fst buffer) bl ch k) + ci (value (fst buffer) bl ch k) * ci (value (fst buffer) bl ch k).
Proof.
  destruct buffer as [data uvw]. intros [L H] Hb Hc. cbn [fst snd] in *. cbv zeta. unfold shift_buffer. cbn [fst snd].
  assert (R0 : nth bl (map (rotate (rotation old new)) uvw) (0, 0, 0) = rotate (rotation old new) (nth bl uvw (0, 0, 0))).
  { rewrite (nth_indep _ (0, 0, 0) (rotate (rotation old new) (0, 0, 0))) by now rewrite map_length. apply map_nth. }
  assert (V : value (map (fun x => shift_baseline old new freqs (fst x) (snd x)) (combine uvw data)) bl ch k =
    ctimes (value data bl ch k) (phase_change (nth ch freqs 0) (nth bl uvw (0, 0, 0)) (rotate (rotation old new) (nth bl uvw (0, 0, 0))))).
  { unfold value. rewrite (map_combine_nth _ _ _ _ (0, 0, 0) [] []) by lia. cbn [fst snd]. unfold shift_baseline.
    assert (Lb : length (nth bl data []) = length freqs) by (apply H, nth_In; lia).
    rewrite (map_combine_nth _ _ _ _ 0 [] []) by (unfold freq_c; rewrite map_length; lia). cbv zeta.
    assert (Fc : nth ch (freq_c freqs) 0 = 2 * PI * nth ch freqs 0 / light).
    { unfold freq_c. set (g := fun f => 2 * PI * f / light). rewrite (nth_indep _ 0 (g 0)) by now rewrite map_length. apply (map_nth g). }
    rewrite nth_map_zero by (apply cx_eq; cbn; ring). rewrite cmul_ctimes. f_equal. rewrite Fc, metres_third.
    assert (G : forall x y f, phase_change f x y = cis (2 * PI * (f / light) * (third x - third y))) by (intros [x ?] [y ?] f; reflexivity).
    rewrite G. unfold cis. do 2 f_equal; field; pose proof light_pos; lra. }
  rewrite V, R0. split; auto. split; auto.
  destruct (nth bl uvw (0, 0, 0)) as [x y] eqn:E. destruct (rotate (rotation old new) (x, y)) as [x' y'] eqn:E'. cbn [phase_change]. unfold ctimes, cis. cbn [cr ci].
  set (a := 2 * PI * (nth ch freqs 0 / light) * (y - y')). pose proof (one_of a) as O. set (sa := sin a) in *. set (ca := cos a) in *.
  ring_simplify. replace (sa ^ 2) with (1 - ca * ca) by lra. ring.
Qed.

(** * Sequences of steps *)
Lemma shift_sized old new freqs buffer : sized freqs buffer -> sized freqs (shift_buffer old new freqs buffer).
Proof.
  destruct buffer as [data uvw]. intros [L H]. unfold shift_buffer, sized. cbn [fst snd] in *. split. { rewrite !map_length, combine_length. lia. }
  intros b I. apply in_map_iff in I as ([u d] & <- & I). apply in_combine_r in I. unfold shift_baseline, freq_c. cbn [fst snd]. rewrite map_length, combine_length, map_length, (H _ I). lia.
Qed.
Lemma nth_ext' {A} (l l' : list A) d : length l = length l' -> (forall i, (i < length l)%nat -> nth i l d = nth i l' d) -> l = l'.
Proof. intros. now apply nth_ext with d d. Qed.
Lemma shift_twice a b c freqs buffer : sized freqs buffer -> shift_buffer b c freqs (shift_buffer a b freqs buffer) = shift_buffer a c freqs buffer.
Proof.
  intros S. destruct buffer as [data uvw]. pose proof S as [L H]. cbn [fst snd] in L, H. unfold shift_buffer.
  assert (Q : forall x d, length d = length freqs -> shift_baseline b c freqs (rotate (rotation a b) x) (shift_baseline a b freqs x d) = shift_baseline a c freqs x d).
  { intros x d Ld. unfold shift_baseline. assert (Lf : length (freq_c freqs) = length freqs) by apply map_length. revert d Ld. rewrite <- Lf. generalize (freq_c freqs). clear.
    induction l as [|fc l IH]; intros [|cell d] Ld; try discriminate; auto. injection Ld as Ld. cbn [combine map]. f_equal; [|now apply IH].
    rewrite map_map. apply map_ext. intros z. rewrite !cmul_ctimes. change (MkC (cos ?p) (sin ?p)) with (cis p). rewrite !metres_third, rotate_twice.
    change (ctimes (ctimes z (cis ((third x - third (rotate (rotation a b) x)) * fc))) (cis ((third (rotate (rotation a b) x) - third (rotate (rotation a c) x)) * fc)) = ctimes z (cis ((third x - third (rotate (rotation a c) x)) * fc))).
    rewrite ctimes_cis. do 2 f_equal. ring. }
  f_equal.
  - revert data L H S. induction uvw as [|x uvw IH]; intros [|d data] L H S; try discriminate; auto. cbn [combine map fst snd]. injection L as L. f_equal.
    + apply Q. apply H. now left.
    + apply IH; auto. { intros; apply H; now right. } split; auto. cbn. intros; apply H; now right.
  - rewrite map_map. apply map_ext. intros x. apply rotate_twice.
Qed.
Lemma shift_same d freqs buffer : sized freqs buffer -> shift_buffer d d freqs buffer = buffer.
Proof.
  destruct buffer as [data uvw]. intros [L H]. cbn [fst snd] in L, H. unfold shift_buffer. f_equal.
  - assert (Q : forall x dd, length dd = length freqs -> shift_baseline d d freqs x dd = dd).
    { intros x dd Ld. unfold shift_baseline. assert (Lf : length (freq_c freqs) = length freqs) by apply map_length. revert dd Ld. rewrite <- Lf. generalize (freq_c freqs).
      induction l as [|fc l IH]; intros [|cell dd] Ld; try discriminate; auto. injection Ld as Ld. cbn [combine map]. f_equal; [|now apply IH].
      rewrite <- map_id. apply map_ext. intros z. rewrite metres_third, rotate_same. replace ((third x - third x) * fc) with 0 by ring. rewrite cmul_ctimes. apply (ctimes_cis0 z). }
    revert data L H. induction uvw as [|x uvw IH]; intros [|dd data] L H; try discriminate; auto. cbn [combine map fst snd]. injection L as L. f_equal.
    + apply Q. apply H. now left. + apply IH; auto. intros; apply H; now right.
  - rewrite <- map_id. apply map_ext. intros x. apply rotate_same.
Qed.
(** C88: a sequence of steps does what a single one from the first to the last centre does *)
Theorem C88_steps original freqs steps : forall current buffer, sized freqs buffer ->
  shift_all original current freqs steps buffer =
  (last (map (new_centre original) steps) current, shift_buffer current (last (map (new_centre original) steps) current) freqs buffer).
Proof.
  induction steps as [|g steps IH]; intros current buffer S; cbn [shift_all map].
  - cbn. now rewrite shift_same.
  - cbv zeta. rewrite IH by now apply shift_sized. rewrite shift_twice by auto.
    assert (E : forall (l : list direction) x y, last (x :: l) y = last l x) by (induction l as [|z l IHl]; intros x y; auto; cbn [last] in *; destruct l; auto; now rewrite <- (IHl x y)).
    now rewrite E.
Qed.
(** C88: a step without a centre after any others brings back the original data and coordinates *)
Theorem C88_back original freqs steps buffer : sized freqs buffer -> shift_all original original freqs (steps ++ [None]) buffer = (original, buffer).
Proof.
  intros S. rewrite C88_steps by auto. rewrite map_app. cbn [map new_centre]. rewrite last_last. now rewrite shift_same.
Qed.

(** * With the simulation *)
Lemma phase_of_sky ref d b f : phase ref d b f = 2 * PI * f / light * (dot (sky d) (of_frame ref b) - third b).
Proof.
  unfold phase. f_equal. rewrite <- frame_adjoint. destruct (to_frame ref (sky d)) as [[l m] n]. destruct b as [[u v] w]. unfold minus, dot, third. ring.
Qed.
(** C88: shifting the visibilities of components to another centre gives what is simulated with that centre and the new coordinates, if there is no smearing
    and angles are absolute *)
Theorem C88_simulated old new i cs ncp bls freqs widths stations data bl p q ch k uvws :
  let m := MkSim old bls freqs widths ncp stations false false i in
  let m' := MkSim new bls freqs widths ncp (rotate_uvw old new stations) false false i in
  fits m data -> (forall b c j, value data b c j = czero) -> Forall absolute cs ->
  length uvws = length bls -> (forall j a b, nth_error bls j = Some (a, b) -> nth j uvws (0, 0, 0) = minus (nth b stations (0, 0, 0)) (nth a stations (0, 0, 0))) ->
  nth_error bls bl = Some (p, q) -> (p < length stations)%nat -> (q < length stations)%nat -> (ch < length freqs)%nat -> (k < ncorr m)%nat ->
  value (fst (shift_buffer old new freqs (simulate m cs data, uvws))) bl ch k = value (simulate m' cs data) bl ch k.
Proof.
  intros m m' F Z A Lu U E Hp Hq Hc Hk. destruct (simulate_value m bl p q ch k E Hc Hk cs data F) as [[Ls Hs] V]. destruct (simulate_value m' bl p q ch k E Hc Hk cs data F) as [_ V'].
  assert (Lb : (bl < length bls)%nat) by (apply nth_error_Some; congruence).
  assert (S : sized freqs (simulate m cs data, uvws)). { split; cbn [fst snd]. { rewrite Ls. auto. } intros b I. apply (Hs b I). }
  destruct (C88_data old new freqs (simulate m cs data, uvws) bl ch k S) as [D _]; auto. { cbn [snd]. lia. }
  cbv zeta in D. rewrite D. change (fst (simulate m cs data, uvws)) with (simulate m cs data). rewrite V, V', Z. clear D V V'. destruct (p =? q)%nat. { apply cx_eq; cbn; ring. }
  cbn [fst snd shift_buffer]. rewrite (cplus_comm czero), cplus_zero, (cplus_comm czero), cplus_zero.
  assert (Rn : forall j, (j < length uvws)%nat -> nth j (map (rotate (rotation old new)) uvws) (0, 0, 0) = rotate (rotation old new) (nth j uvws (0, 0, 0))).
  { intros j Hj. rewrite (nth_indep _ (0, 0, 0) (rotate (rotation old new) (0, 0, 0))) by now rewrite map_length. apply map_nth. }
  assert (Rs : forall j, (j < length stations)%nat -> nth j (rotate_uvw old new stations) (0, 0, 0) = rotate (rotation old new) (nth j stations (0, 0, 0))).
  { intros j Hj. unfold rotate_uvw. rewrite (nth_indep _ (0, 0, 0) (rotate (rotation old new) (0, 0, 0))) by now rewrite map_length. apply map_nth. }
  rewrite Rn by lia. rewrite (U bl p q E). set (b := minus (nth q stations (0, 0, 0)) (nth p stations (0, 0, 0))). set (b' := rotate (rotation old new) b).
  assert (Eb : minus (nth q (rotate_uvw old new stations) (0, 0, 0)) (nth p (rotate_uvw old new stations) (0, 0, 0)) = b').
  { rewrite !Rs by auto. subst b b'. now rewrite !rotate_frames, of_frame_minus, to_frame_minus. }
  assert (Su : smearing_used m) by (intros X; discriminate X). assert (Su' : smearing_used m') by (intros X; discriminate X).
  assert (G : forall x y f, phase_change f x y = cis (2 * PI * (f / light) * (third x - third y))) by (intros [x ?] [y ?] f; reflexivity). rewrite G.
  assert (C : forall c, absolute c -> ctimes (nth k (contribution m c (nth ch freqs 0) (nth ch widths 0) p q) czero) (cis (2 * PI * (nth ch freqs 0 / light) * (third b - third b'))) =
    nth k (contribution m' c (nth ch freqs 0) (nth ch widths 0) p q) czero).
  { intros c Ac. rewrite !contribution_visibility by auto. cbn [m m' m_ref m_ncp m_time m_freq_smear m_stokes_i m_uvw]. rewrite Eb. fold b. unfold visibility.
    assert (Sz : size_factor old c b (nth ch freqs 0) = size_factor new c b' (nth ch freqs 0)).
    { destruct c as [s|s g]; auto. cbn [absolute] in Ac. unfold size_factor. rewrite Ac. subst b'. now rewrite rotate_back. }
    rewrite Sz. set (e := size_factor new c b' _ * 1 * 1). set (kk := nth k (coherencies i _) czero).
    assert (Sc : forall x y z, ctimes (cscale x y) z = cscale x (ctimes y z)) by (intros; apply cx_eq; unfold ctimes, cscale; cbn [cr ci]; ring).
    rewrite Sc, ctimes_cis. f_equal. f_equal. f_equal. rewrite !phase_of_sky. subst b'. rewrite rotate_back. field. pose proof light_pos. lra. }
  cbn [m m' m_freq m_width]. clear -C A. induction A as [|c cs Ac A IH]; cbn [map]. { apply cx_eq; cbn; ring. }
  rewrite !csum_cons, <- IH, <- (C c Ac). apply cx_eq; unfold ctimes, cplus; cbn [cr ci]; ring.
Qed.

(** * Examples *)
(** A quarter of a turn along the equator: what was w is minus u *)
Example rotate_example : rotate_uvw (MkDir 0 0) (MkDir (PI / 2) 0) [(1, 2, 3)] = [(-3, 2, 1)] /\ sized [100; 200] (example_buffer, [(0, 0, 0); (30, 40, 5); (-30, -40, -5)]).
Proof.
  split.
  - unfold rotate_uvw. cbn [map]. rewrite rotate_frames. unfold to_frame, of_frame, dot, sky, east, north. cbn [ra dec]. rewrite cos_PI2, sin_PI2, cos_0, sin_0.
    f_equal. repeat apply (f_equal2 pair); ring.
  - split; auto. cbn. intros b [<-|[<-|[<-|[]]]]; reflexivity.
Qed.
(** The hypotheses of the theorem on simulated data hold for two stations, a point source and a Gaussian *)
Example simulated_example : let cs := [Point example_source; Gaussian example_source (MkShape 1 true (/ 100) (/ 200))] in
  let m o s := MkSim o [(0, 0); (0, 1); (1, 0)]%nat [100; 200] [1; 1] (0, 0) s false false false in
  let stations := [(0, 0, 0); (30, 40, 5)] in
  value (fst (shift_buffer (MkDir 1 1) (MkDir 2 0) [100; 200] (simulate (m (MkDir 1 1) stations) cs example_buffer, [(0, 0, 0); (30, 40, 5); (-30, -40, -5)]))) 1 1 2 =
  value (simulate (m (MkDir 2 0) (rotate_uvw (MkDir 1 1) (MkDir 2 0) stations)) cs example_buffer) 1 1 2.
Proof.
  cbv zeta. destruct example_fits as (F & _ & Z). apply C88_simulated with (p := 0%nat) (q := 1%nat); auto; try (cbn; lia).
  - repeat constructor.
  - intros [|[|[|j]]] a b E; try (destruct j; discriminate); injection E as <- <-; cbn; repeat apply (f_equal2 pair); ring.
Qed.
Print Assumptions C88_uvw.
Print Assumptions C88_data.
Print Assumptions C88_steps.
Print Assumptions C88_back.
Print Assumptions C88_simulated.
