(** C99: demixing: the mixing of the directions, the projection, the equations of the gains and the subtraction. *)
From Coq Require Import Reals List Arith Bool Lia Lra Ring.
From Verif Require Import RealCplx DemixModel DemixSpec DemixProofs.
Import ListNotations.
Open Scope R_scope.

(** If the data are a mixture of sources, the averages toward the directions are the mixing matrix times the sources *)
Theorem C99_mixing : forall n_dir n_in n_avg n_out slots source ch_out d,
  (ch_out < n_out)%nat -> ((n_out - 1) * n_avg <= n_in)%nat -> (d < n_dir)%nat ->
  Forall unit_phasors slots -> Forall (is_mixture n_dir source) slots ->
  snd (average n_dir n_in n_avg slots d ch_out) = false ->
  fst (fst (average n_dir n_in n_avg slots d ch_out)) = total n_dir (fun c => rmul (matrix (factors n_dir n_in n_avg n_out slots ch_out) d c) (source c)).
Proof.
  intros n_dir n_in n_avg n_out slots source ch d C B D U M N.
  assert (N0 : snd (average n_dir n_in n_avg slots 0 ch) = false) by (revert N; unfold average; destruct (Req_EM_T _ 0); auto).
  rewrite (average_mean n_dir n_in n_avg n_out slots ch) by auto. cbn [fst].
  rewrite (mean_ext slots _ _ _ (fun s ch => total n_dir (fun c => rmul (source c) (rmul (shift n_dir s d ch) (rconj (shift n_dir s c ch)))))).
  - rewrite mean_total. apply total_ext. intros c L. rewrite mean_mul. unfold matrix. rewrite factors_mean by auto. ring.
  - intros s k I _. rewrite (proj1 (Forall_forall _ _) M s I k). rewrite <- total_mul_r. apply total_ext. intros c _. ring.
Qed.
Print Assumptions C99_mixing.

(** The mixing matrix is Hermitian and has ones on its diagonal *)
Theorem C99_matrix : forall n_dir n_in n_avg n_out slots ch_out a b,
  (ch_out < n_out)%nat -> ((n_out - 1) * n_avg <= n_in)%nat -> (a < n_dir)%nat -> (b < n_dir)%nat ->
  matrix (factors n_dir n_in n_avg n_out slots ch_out) a a = rc1 /\
  matrix (factors n_dir n_in n_avg n_out slots ch_out) a b = rconj (matrix (factors n_dir n_in n_avg n_out slots ch_out) b a).
Proof.
  intros n_dir n_in n_avg n_out slots ch a b C B A D. unfold matrix. split; [now apply factors_diagonal|].
  assert (H : forall x y, (x < y < n_dir)%nat -> factors n_dir n_in n_avg n_out slots ch y x = rconj (factors n_dir n_in n_avg n_out slots ch x y)).
  { intros x y L. destruct (factors_pair n_dir n_in n_avg n_out slots ch C B x y L) as [-> ->]. rewrite mean_conj. apply mean_ext. intros s k _ _. rewrite rconj_mul, rconj_conj. ring. }
  destruct (Nat.lt_trichotomy a b) as [L|[L|L]].
  - apply H. lia.
  - subst b. rewrite factors_diagonal by auto. apply rc_eq; cbn; ring.
  - rewrite (H b a) by lia. now rewrite rconj_conj.
Qed.
Print Assumptions C99_matrix.

(** Where everything is flagged no source is mixed into another one, so nothing is subtracted *)
Theorem C99_flagged : forall n_dir n_in n_avg n_out slots ch_out a b,
  (ch_out < n_out)%nat -> ((n_out - 1) * n_avg <= n_in)%nat -> (a < n_dir)%nat -> (b < n_dir)%nat -> a <> b ->
  (forall s ch, In s slots -> s_flag s ch = true) ->
  matrix (factors n_dir n_in n_avg n_out slots ch_out) a b = rc0 /\ snd (average n_dir n_in n_avg slots a ch_out) = true.
Proof.
  intros n_dir n_in n_avg n_out slots ch a b C B A D N F.
  assert (W : forall s k, In s slots -> weight_of s k = 0) by (intros s k I; unfold weight_of; rewrite (F s k I); cbn; ring).
  assert (M : forall w g, mean slots (averaged_channels n_in n_avg ch) w g = rc0).
  { intros w g. unfold mean. rewrite (lsum_ext _ (fun _ => rc0)); [rewrite lsum_0; apply rc_eq; cbn; ring|]. intros k _. rewrite (lsum_ext _ (fun _ => rc0)); [apply lsum_0|].
    intros s I. rewrite W by exact I. apply rc_eq; cbn; ring. }
  split.
  - unfold matrix. destruct (Nat.lt_ge_cases a b) as [L|L].
    + rewrite (proj2 (factors_pair n_dir n_in n_avg n_out slots ch C B a b (conj L D))). apply M.
    + rewrite (proj1 (factors_pair n_dir n_in n_avg n_out slots ch C B b a ltac:(lia))). apply M.
  - unfold average. destruct (Req_EM_T _ 0) as [E|E]; [reflexivity|]. elim E.
    apply wsum_zero. intros c _. apply wsum_zero. intros s I. now apply W.
Qed.
Print Assumptions C99_flagged.

(** After the projection the averages are a mixture of the directions with a model only; with ignoretarget if nothing comes from the target *)
Theorem C99_deproject : forall invert n_dir n_model ignore_target buf data source k,
  (n_model <= n_dir)%nat -> (ignore_target = true -> (n_model < n_dir)%nat /\ source (n_dir - 1)%nat = rc0) -> (1 < n_dir)%nat ->
  let n_dep := n_deproject n_dir n_model ignore_target in
  inverts n_dep (invert n_dep) -> (exists x, is_inverse n_dep x (gram n_dir n_model (matrix buf))) ->
  (forall r, (r < n_dir)%nat -> data r = total n_dir (fun c => rmul (matrix buf r c) (source c))) -> (k < n_dir)%nat ->
  let '(buf', data') := deproject invert n_dir n_model ignore_target buf data in
  data' k = total n_model (fun c => rmul (matrix buf' k c) (source c)).
Proof.
  intros invert n_dir n_model ign buf data source k LM IG ND n_dep V X D K.
  assert (S0 : total n_dir (fun c => rmul (matrix buf k c) (source c)) = total n_dir (fun c => rmul (matrix buf k c) (source c))) by reflexivity.
  assert (SPL : forall g : nat -> rc, total n_dir (fun c => rmul (g c) (source c)) = radd (total n_model (fun c => rmul (g c) (source c))) (total n_dep (fun c => rmul (g (n_model + c)%nat) (source (n_model + c)%nat)))).
  { intros g. destruct ign.
    - destruct (IG eq_refl) as [L Z]. replace n_dir with ((n_model + n_dep) + 1)%nat at 1 by (unfold n_dep, n_deproject; lia). rewrite !total_split. cbn [total].
      replace (n_model + n_dep + 0)%nat with (n_dir - 1)%nat by (unfold n_dep, n_deproject; lia). rewrite Z. ring.
    - replace n_dir with (n_model + n_dep)%nat at 1 by (unfold n_dep, n_deproject; lia). apply total_split. }
  unfold deproject. fold n_dep. destruct (((n_dir <=? 1) || (n_dep =? 0))%nat) eqn:E.
  - assert (Z : n_dep = 0%nat) by (apply orb_true_iff in E; destruct E as [E|E]; [apply Nat.leb_le in E; lia|now apply Nat.eqb_eq]).
    rewrite D, SPL, Z by exact K. cbn [total]. ring.
  - cbn [matrix]. set (p := projection invert n_dir n_model n_dep buf). rewrite lsum_seq.
    rewrite (total_ext n_dir _ (fun j => total n_dir (fun c => rmul (p k j) (rmul (matrix buf j c) (source c))))).
    + rewrite total_swap. rewrite (total_ext n_dir _ (fun c => rmul (total n_dir (fun j => rmul (p k j) (matrix buf j c))) (source c))).
      * rewrite SPL. rewrite (total_zero n_dep).
        -- transitivity (total n_model (fun c => rmul (total n_dir (fun j => rmul (p k j) (matrix buf j c))) (source c))); [ring|]. apply total_ext. intros c _. unfold matrix at 2. now rewrite lsum_seq.
        -- intros c C. unfold p. rewrite projection_kills; [ring|exact K|exact C|]. set (m := fun i j => lsum _ _). specialize (V m). destruct (invert n_dep m) as [x|].
           ++ apply (is_inverse_ext _ _ m); [|exact V]. intros i j. unfold m, gram. apply lsum_seq.
           ++ exfalso. destruct X as [x X]. apply (V x). apply (is_inverse_ext _ _ (gram n_dir n_model (matrix buf))); [|exact X]. intros i j. unfold m, gram. now rewrite lsum_seq.
      * intros c _. rewrite <- total_mul_r. apply total_ext. intros j _. ring.
    + intros j J. rewrite D by exact J. rewrite total_mul_l. ring.
Qed.
Print Assumptions C99_deproject.

(** If there is no inverse, nothing is projected away *)
Theorem C99_singular : forall invert n_dir n_model ignore_target buf data k c,
  let n_dep := n_deproject n_dir n_model ignore_target in
  inverts n_dep (invert n_dep) -> (forall x, ~ is_inverse n_dep x (gram n_dir n_model (matrix buf))) -> (k < n_dir)%nat -> (c < n_model)%nat ->
  let '(buf', data') := deproject invert n_dir n_model ignore_target buf data in data' k = data k /\ matrix buf' k c = matrix buf k c.
Proof.
  intros invert n_dir n_model ign buf data k c n_dep V X K C. unfold deproject. fold n_dep. destruct (((n_dir <=? 1) || (n_dep =? 0))%nat); [split; reflexivity|].
  assert (P : forall j, projection invert n_dir n_model n_dep buf k j = delta k j).
  { intros j. apply projection_none. intros u v. set (m := fun i j => lsum _ _). specialize (V m). destruct (invert n_dep m) as [x|]; [|reflexivity].
    exfalso. apply (X x). apply (is_inverse_ext _ _ m); [|exact V]. intros i l. unfold m, gram. apply lsum_seq. }
  split.
  - rewrite lsum_seq, (total_ext n_dir _ (fun j => rmul (delta k j) (data j))) by (intros; rewrite P; ring). now apply total_delta.
  - unfold matrix at 1. rewrite lsum_seq, (total_ext n_dir _ (fun j => rmul (delta k j) (matrix buf j c))) by (intros; now rewrite P). now apply (total_delta n_dir k (fun j => matrix buf j c)).
Qed.
Print Assumptions C99_singular.

(** The terms of the equations, and the gains that are applied *)
Definition conj2 (q : mat2) : mat2 := Mat2 (rconj (m00 q)) (rconj (m01 q)) (rconj (m10 q)) (rconj (m11 q)).
Lemma model_terms_product p q v cr : (cr < 4)%nat -> fst (model_terms p (conj2 q) v cr) = element (mul2 p (mul2 v (adjoint2 q))) cr.
Proof.
  intros C. destruct p as [p0 p1 p2 p3], q as [q0 q1 q2 q3], v as [v0 v1 v2 v3]. unfold conj2, model_terms, mul2, adjoint2. cbn [m00 m01 m10 m11].
  generalize (rconj q0) (rconj q1) (rconj q2) (rconj q3). intros.
  do 4 (destruct cr as [|cr]; [cbn [fst element m00 m01 m10 m11]; ring|]). lia.
Qed.
Lemma measured_product n_st p q u model dr : measured n_st p q u model dr = mul2 (jones_of u (dr * n_st * 8 + p * 8)) (mul2 (model dr) (adjoint2 (jones_of u (dr * n_st * 8 + q * 8)))).
Proof.
  unfold measured, jones_of. replace (dr * n_st * 8 + p * 8)%nat with ((dr * n_st + p) * 8)%nat by ring. replace (dr * n_st * 8 + q * 8)%nat with ((dr * n_st + q) * 8)%nat by ring. reflexivity.
Qed.
Lemma jones_measured n_st p q u model dr cr : (cr < 4)%nat -> fst (terms_of n_st p q u model cr dr) = element (measured n_st p q u model dr) cr.
Proof. intros C. rewrite measured_product. unfold terms_of. now rewrite <- model_terms_product. Qed.
(** The model visibility of a baseline is multiplied by the gains of the two stations; autocorrelations are left as they are *)
Theorem C99_apply : forall n_st p q u model dr,
  apply_gains p q (fun i => u (dr * n_st * 8 + i)%nat) (model dr) = if (p =? q)%nat then model dr else measured n_st p q u model dr.
Proof.
  intros n_st p q u model dr. unfold apply_gains. destruct (p =? q)%nat; [reflexivity|]. rewrite measured_product.
  assert (J : forall x, jones_of (fun i => u (dr * n_st * 8 + i)%nat) x = jones_of u (dr * n_st * 8 + x)) by (intros x; unfold jones_of; now rewrite !Nat.add_assoc).
  change (jones_conj (fun i => u (dr * n_st * 8 + i)%nat) (q * 8)) with (conj2 (jones_of (fun i => u (dr * n_st * 8 + i)%nat) (q * 8))). rewrite !J.
  generalize (model dr) (jones_of u (dr * n_st * 8 + p * 8)) (jones_of u (dr * n_st * 8 + q * 8)). intros [v0 v1 v2 v3] [p0 p1 p2 p3] [q0 q1 q2 q3].
  unfold conj2, mul2, adjoint2. cbn [m00 m01 m10 m11]. generalize (rconj q0) (rconj q1) (rconj q2) (rconj q3). intros. f_equal; ring.
Qed.
Print Assumptions C99_apply.

(** What is subtracted is the model with the gains, weighted by its part in the target direction; autocorrelations are left as they are *)
Theorem C99_subtract : forall n_dir n_sub n_st p q u model f00 f01 f10 f11 data cr,
  (cr < 4)%nat -> (p = q -> subtract_sources n_dir n_sub n_st p q u model f00 f01 f10 f11 data = data) /\
  (p <> q -> element (subtract_sources n_dir n_sub n_st p q u model f00 f01 f10 f11 data) cr =
   rsub (element data cr) (expected n_sub n_st p q u model (matrix (nth cr [f00; f01; f10; f11] f00) (n_dir - 1)%nat) cr)).
Proof.
  intros n_dir n_sub n_st p q u model f00 f01 f10 f11 data cr C. unfold subtract_sources. split.
  - intros ->. induction n_sub as [|n IH]; [reflexivity|]. rewrite seq_S, fold_left_app, IH. cbn [fold_left]. unfold subtract_one. now rewrite Nat.eqb_refl.
  - intros N. apply Nat.eqb_neq in N. unfold expected. induction n_sub as [|n IH]; [cbn [seq fold_left total]; ring|].
    rewrite seq_S, fold_left_app. cbn [fold_left total]. rewrite C99_apply, N, Nat.add_0_l. set (d := fold_left _ _ _) in *.
    transitivity (rsub (element d cr) (rmul (matrix (nth cr [f00; f01; f10; f11] f00) (n_dir - 1)%nat n) (element (measured n_st p q u model n) cr))).
    + unfold subtract_one. rewrite N. do 4 (destruct cr as [|cr]; [reflexivity|]). lia.
    + rewrite IH. ring.
Qed.
Print Assumptions C99_subtract.

(** So if the data are a mixture of the directions and the gains of the sources to subtract are right, the other directions remain *)
Theorem C99_residual : forall n_dir n_sub n_st p q u model f00 f01 f10 f11 data source cr,
  (cr < 4)%nat -> (n_sub <= n_dir)%nat -> p <> q ->
  let m := matrix (nth cr [f00; f01; f10; f11] f00) (n_dir - 1)%nat in
  element data cr = total n_dir (fun c => rmul (m c) (source c)) ->
  (forall c, (c < n_sub)%nat -> source c = element (measured n_st p q u model c) cr) ->
  element (subtract_sources n_dir n_sub n_st p q u model f00 f01 f10 f11 data) cr = total (n_dir - n_sub) (fun c => rmul (m (n_sub + c)%nat) (source (n_sub + c)%nat)).
Proof.
  intros n_dir n_sub n_st p q u model f00 f01 f10 f11 data source cr C L N m D G. rewrite (proj2 (C99_subtract _ _ _ _ _ _ _ _ _ _ _ _ _ C) N). fold m. rewrite D.
  replace n_dir with (n_sub + (n_dir - n_sub))%nat at 1 by lia. rewrite total_split. unfold expected.
  rewrite (total_ext n_sub (fun dr => rmul (m dr) (element _ cr)) (fun c => rmul (m c) (source c))) by (intros; now rewrite G). ring.
Qed.
Print Assumptions C99_residual.

(** * The equations of the gains *)
Lemma cell_inj n a b c d : (b < n)%nat -> (d < n)%nat -> (a * n + b = c * n + d)%nat -> a = c /\ b = d.
Proof. intros B D E. destruct (Nat.lt_trichotomy a c) as [L|[L|L]]; [exfalso; nia| |exfalso; nia]. subst. lia. Qed.
(** The visibility as a function of the values of the two gains *)
Definition vis (gp gq : nat -> R) (v : mat2) (cr : nat) : rc := element (mul2 (jones_of gp 0) (mul2 v (adjoint2 (jones_of gq 0)))) cr.
Definition terms (gp gq : nat -> R) (v : mat2) (cr : nat) := model_terms (jones_of gp 0) (jones_conj gq 0) v cr.
Lemma measured_vis n_st p q u model dr cr : element (measured n_st p q u model dr) cr = vis (fun j => u ((dr * n_st + p) * 8 + j)%nat) (fun j => u ((dr * n_st + q) * 8 + j)%nat) (model dr) cr.
Proof. unfold measured, vis, jones_of. rewrite !Nat.add_0_r, !Nat.add_0_l. reflexivity. Qed.
Lemma terms_vis n_st p q u model dr cr : terms_of n_st p q u model cr dr = terms (fun j => u ((dr * n_st + p) * 8 + j)%nat) (fun j => u ((dr * n_st + q) * 8 + j)%nat) (model dr) cr.
Proof.
  unfold terms_of, terms. replace (dr * n_st * 8 + p * 8)%nat with ((dr * n_st + p) * 8)%nat by ring. replace (dr * n_st * 8 + q * 8)%nat with ((dr * n_st + q) * 8)%nat by ring.
  unfold jones_of, jones_conj. rewrite !Nat.add_0_r, !Nat.add_0_l. reflexivity.
Qed.
Lemma vis_ext gp gq gp' gq' v cr : (forall j, (j < 8)%nat -> gp j = gp' j) -> (forall j, (j < 8)%nat -> gq j = gq' j) -> vis gp gq v cr = vis gp' gq' v cr.
Proof. intros P Q. unfold vis, jones_of. cbn [Nat.add]. now rewrite !P, !Q by lia. Qed.
Lemma vis_p gp gq v cr mix j h : (cr < 4)%nat -> (j < 4)%nat ->
  rmul mix (vis (plus_at gp (cr / 2 * 4 + j) h) gq v cr) =
  radd (rmul mix (vis gp gq v cr)) (RC (h * nth j (fst (partials mix (snd (terms gp gq v cr)))) 0) (h * nth j (snd (partials mix (snd (terms gp gq v cr)))) 0)).
Proof.
  intros C J. unfold vis, terms. destruct v as [[a0 b0] [a1 b1] [a2 b2] [a3 b3]]. destruct mix as [x y]. unfold plus_at, jones_of, jones_conj. cbn [Nat.add].
  set (P0 := gp 0%nat) in *. set (P1 := gp 1%nat) in *. set (P2 := gp 2%nat) in *. set (P3 := gp 3%nat) in *. set (P4 := gp 4%nat) in *. set (P5 := gp 5%nat) in *. set (P6 := gp 6%nat) in *. set (P7 := gp 7%nat) in *.
  set (Q0 := gq 0%nat) in *. set (Q1 := gq 1%nat) in *. set (Q2 := gq 2%nat) in *. set (Q3 := gq 3%nat) in *. set (Q4 := gq 4%nat) in *. set (Q5 := gq 5%nat) in *. set (Q6 := gq 6%nat) in *. set (Q7 := gq 7%nat) in *.
  clearbody P0 P1 P2 P3 P4 P5 P6 P7 Q0 Q1 Q2 Q3 Q4 Q5 Q6 Q7.
  do 4 (destruct cr as [|cr]; [do 4 (destruct j as [|j]; [cbn -[Rplus Rmult Ropp Rminus]; apply rc_eq; cbn -[Rplus Rmult Ropp Rminus]; ring|]); lia|]). lia.
Qed.
Lemma vis_q gp gq v cr mix j h : (cr < 4)%nat -> (j < 4)%nat ->
  rmul mix (vis gp (plus_at gq (cr mod 2 * 4 + j) h) v cr) =
  radd (rmul mix (vis gp gq v cr)) (RC (h * nth (4 + j) (fst (partials mix (snd (terms gp gq v cr)))) 0) (h * nth (4 + j) (snd (partials mix (snd (terms gp gq v cr)))) 0)).
Proof.
  intros C J. unfold vis, terms. destruct v as [[a0 b0] [a1 b1] [a2 b2] [a3 b3]]. destruct mix as [x y]. unfold plus_at, jones_of, jones_conj. cbn [Nat.add].
  set (P0 := gp 0%nat) in *. set (P1 := gp 1%nat) in *. set (P2 := gp 2%nat) in *. set (P3 := gp 3%nat) in *. set (P4 := gp 4%nat) in *. set (P5 := gp 5%nat) in *. set (P6 := gp 6%nat) in *. set (P7 := gp 7%nat) in *.
  set (Q0 := gq 0%nat) in *. set (Q1 := gq 1%nat) in *. set (Q2 := gq 2%nat) in *. set (Q3 := gq 3%nat) in *. set (Q4 := gq 4%nat) in *. set (Q5 := gq 5%nat) in *. set (Q6 := gq 6%nat) in *. set (Q7 := gq 7%nat) in *.
  clearbody P0 P1 P2 P3 P4 P5 P6 P7 Q0 Q1 Q2 Q3 Q4 Q5 Q6 Q7.
  do 4 (destruct cr as [|cr]; [do 4 (destruct j as [|j]; [cbn -[Rplus Rmult Ropp Rminus]; apply rc_eq; cbn -[Rplus Rmult Ropp Rminus]; ring|]); lia|]). lia.
Qed.
Lemma total_change n (f g : nat -> rc) d0 x : (d0 < n)%nat -> (forall d, (d < n)%nat -> d <> d0 -> g d = f d) -> g d0 = radd (f d0) x -> total n g = radd (total n f) x.
Proof.
  intros L O E. induction n as [|n IH]; [lia|]. cbn [total]. destruct (Nat.eq_dec d0 n) as [->|N].
  - rewrite E, (total_ext n g f) by (intros; apply O; lia). ring.
  - rewrite IH, (O n) by (try lia; intros; apply O; lia). ring.
Qed.
Lemma flat_blocks {A} (f : nat -> list A) d (def : A) : (forall x, length (f x) = 8%nat) -> forall n s, (d < n)%nat -> forall j, (j < 8)%nat -> nth (8 * d + j) (flat_map f (seq s n)) def = nth j (f (s + d)%nat) def.
Proof.
  intros L. induction d as [|d IH]; intros n s D j J; (destruct n as [|n]; [lia|]); cbn [seq flat_map].
  - rewrite app_nth1 by (rewrite L; lia). now rewrite Nat.add_0_r.
  - rewrite app_nth2 by (rewrite L; lia). rewrite L. replace (8 * S d + j - 8)%nat with (8 * d + j)%nat by lia. rewrite (IH n (S s)) by lia. f_equal. f_equal. lia.
Qed.
Lemma flat_length {A} (f : nat -> list A) : (forall x, length (f x) = 8%nat) -> forall n s, length (flat_map f (seq s n)) = (8 * n)%nat.
Proof. intros L. induction n as [|n IH]; intros s; [reflexivity|]. cbn [seq flat_map]. rewrite app_length, L, IH. lia. Qed.
Lemma partials_length mix t : length (fst (partials mix t)) = 8%nat /\ length (snd (partials mix t)) = 8%nat.
Proof. destruct t as [[[a b] c] e]. split; reflexivity. Qed.

(** The residuals are the data minus what is expected, and the derivatives are exact: if one of the unknowns of an equation changes, what is expected changes as the derivatives say; nothing else matters to the equation *)
Theorem C99_equation : forall n_dir n_st p q u model data mix cr tg,
  (p < n_st)%nat -> (q < n_st)%nat -> p <> q -> (cr < 4)%nat ->
  let '(index, d_re, d_im, residual) := equation n_dir n_st p q u model data mix cr tg in
  let value u := expected n_dir n_st p q u model (mix tg) cr in
  residual = rsub (data tg) (value u) /\ length index = (8 * n_dir)%nat /\ length d_re = (8 * n_dir)%nat /\ length d_im = (8 * n_dir)%nat /\ NoDup index /\
  (forall k h, (k < 8 * n_dir)%nat -> value (plus_at u (nth k index 0%nat) h) = radd (value u) (RC (h * nth k d_re 0) (h * nth k d_im 0))) /\
  (forall i h, ~ In i index -> value (plus_at u i h) = value u).
Proof.
  intros n_dir n_st p q u model data mix cr tg P Q N C. unfold equation. cbv zeta. set (t dr := terms_of n_st p q u model cr dr).
  assert (LI : forall dr, length (index_of n_st p q cr dr) = 8%nat) by reflexivity.
  assert (CR : (cr / 2 < 2 /\ cr mod 2 < 2)%nat) by (split; [apply Nat.div_lt_upper_bound; lia|apply Nat.mod_upper_bound; lia]).
  (* an element of the index *)
  assert (IX : forall dr j, (j < 4)%nat -> nth j (index_of n_st p q cr dr) 0%nat = ((dr * n_st + p) * 8 + (cr / 2 * 4 + j))%nat /\ nth (4 + j) (index_of n_st p q cr dr) 0%nat = ((dr * n_st + q) * 8 + (cr mod 2 * 4 + j))%nat).
  { intros dr j J. unfold index_of. set (x := (cr / 2)%nat). set (y := (cr mod 2)%nat). do 4 (destruct j as [|j]; [cbn [nth Nat.add]; split; ring|]). lia. }
  assert (SPLIT : forall k, (k < 8 * n_dir)%nat -> exists dr j b, (dr < n_dir)%nat /\ (j < 4)%nat /\ k = (8 * dr + (if b : bool then 4 + j else j))%nat).
  { intros k K. exists (k / 8)%nat. pose proof (Nat.mod_upper_bound k 8 ltac:(lia)) as M. pose proof (Nat.div_mod k 8 ltac:(lia)) as D. destruct (Nat.lt_ge_cases (k mod 8) 4) as [L|L].
    - exists (k mod 8)%nat, false. repeat split; lia.
    - exists (k mod 8 - 4)%nat, true. repeat split; lia. }
  assert (NI : forall k, (k < 8 * n_dir)%nat -> exists dr j, (dr < n_dir)%nat /\ (j < 4)%nat /\
     ((k = 8 * dr + j /\ nth k (flat_map (index_of n_st p q cr) (seq 0 n_dir)) 0 = (dr * n_st + p) * 8 + (cr / 2 * 4 + j)) \/
      (k = 8 * dr + (4 + j) /\ nth k (flat_map (index_of n_st p q cr) (seq 0 n_dir)) 0 = (dr * n_st + q) * 8 + (cr mod 2 * 4 + j)))%nat).
  { intros k K. destruct (SPLIT k K) as (dr & j & b & D & J & E). exists dr, j. split; [exact D|]. split; [exact J|]. destruct b; [right|left]; (split; [exact E|]); rewrite E;
      rewrite (flat_blocks _ dr 0%nat LI n_dir 0 D) by lia; apply (IX dr j J). }
  assert (CELL : forall dr dr' st st' a b, (st < n_st)%nat -> (st' < n_st)%nat -> (a < 8)%nat -> (b < 8)%nat -> ((dr * n_st + st) * 8 + a = (dr' * n_st + st') * 8 + b)%nat -> dr = dr' /\ st = st' /\ a = b).
  { intros dr dr' st st' a b S1 S2 A B E. assert (G : (dr * n_st + st = dr' * n_st + st')%nat /\ a = b) by lia. destruct G as [G ->]. destruct (cell_inj n_st dr st dr' st' S1 S2 G). auto. }
  assert (PA : forall dr st dr' st' a j h, (st < n_st)%nat -> (st' < n_st)%nat -> (a < 8)%nat -> (j < 8)%nat ->
     plus_at u ((dr' * n_st + st') * 8 + a) h ((dr * n_st + st) * 8 + j)%nat = if ((dr =? dr') && (st =? st'))%nat then plus_at (fun j => u ((dr * n_st + st) * 8 + j)%nat) a h j else u ((dr * n_st + st) * 8 + j)%nat).
  { intros dr st dr' st' a j h S1 S2 A J. unfold plus_at. destruct (Nat.eqb_spec ((dr * n_st + st) * 8 + j) ((dr' * n_st + st') * 8 + a)) as [E|E].
    - apply CELL in E; auto. destruct E as (-> & -> & ->). now rewrite !Nat.eqb_refl.
    - destruct (Nat.eqb_spec dr dr') as [->|]; cbn [andb]; [|reflexivity]. destruct (Nat.eqb_spec st st') as [->|]; [|reflexivity]. destruct (Nat.eqb_spec j a) as [->|]; [lia|reflexivity]. }
  repeat split.
  - f_equal. rewrite lsum_seq. unfold expected. apply total_ext. intros dr _. f_equal. now apply jones_measured.
  - now apply flat_length.
  - apply flat_length. intros. apply partials_length.
  - apply flat_length. intros. apply partials_length.
  - apply (proj2 (NoDup_nth _ 0%nat)). rewrite (flat_length _ LI). intros i j I J E.
    destruct (NI i I) as (d1 & j1 & D1 & J1 & [[E1 F1]|[E1 F1]]), (NI j J) as (d2 & j2 & D2 & J2 & [[E2 F2]|[E2 F2]]); rewrite F1, F2 in E; apply CELL in E; try lia.
  - intros k h K. destruct (NI k K) as (d0 & j & D & J & [[E F]|[E F]]); rewrite F; unfold expected; apply (total_change _ _ _ d0); try exact D.
    + intros d _ Nd. f_equal. rewrite !measured_vis. apply vis_ext; intros x X; rewrite PA by lia; (replace (d =? d0)%nat with false by (symmetry; now apply Nat.eqb_neq)); reflexivity.
    + rewrite !measured_vis. rewrite (vis_ext _ _ (plus_at (fun j => u ((d0 * n_st + p) * 8 + j)%nat) (cr / 2 * 4 + j) h) (fun j => u ((d0 * n_st + q) * 8 + j)%nat)).
      * rewrite vis_p by auto. f_equal. rewrite E, (flat_blocks _ d0 0 (fun x => proj1 (partials_length _ _)) n_dir 0 D) by lia. rewrite (flat_blocks _ d0 0 (fun x => proj2 (partials_length _ _)) n_dir 0 D) by lia.
        unfold t. now rewrite terms_vis.
      * intros x X. rewrite PA by lia. now rewrite !Nat.eqb_refl.
      * intros x X. rewrite PA by lia. replace (q =? p)%nat with false by (symmetry; apply Nat.eqb_neq; lia). now rewrite andb_false_r.
    + intros d _ Nd. f_equal. rewrite !measured_vis. apply vis_ext; intros x X; rewrite PA by lia; (replace (d =? d0)%nat with false by (symmetry; now apply Nat.eqb_neq)); reflexivity.
    + rewrite !measured_vis. rewrite (vis_ext _ _ (fun j => u ((d0 * n_st + p) * 8 + j)%nat) (plus_at (fun j => u ((d0 * n_st + q) * 8 + j)%nat) (cr mod 2 * 4 + j) h)).
      * rewrite vis_q by auto. f_equal. rewrite E, (flat_blocks _ d0 0 (fun x => proj1 (partials_length _ _)) n_dir 0 D) by lia. rewrite (flat_blocks _ d0 0 (fun x => proj2 (partials_length _ _)) n_dir 0 D) by lia.
        unfold t. now rewrite terms_vis.
      * intros x X. rewrite PA by lia. replace (p =? q)%nat with false by (symmetry; apply Nat.eqb_neq; lia). now rewrite andb_false_r.
      * intros x X. rewrite PA by lia. now rewrite !Nat.eqb_refl.
  - intros i h I. unfold expected. apply total_ext. intros dr D. f_equal. rewrite !measured_vis.
    assert (NP : forall j, (j < 4)%nat -> ((dr * n_st + p) * 8 + (cr / 2 * 4 + j))%nat <> i /\ ((dr * n_st + q) * 8 + (cr mod 2 * 4 + j))%nat <> i).
    { intros j J. destruct (IX dr j J) as [A B]. rewrite <- A, <- B. split; intros E; apply I; rewrite <- E; apply in_flat_map; exists dr; (split; [apply in_seq; lia|]); apply nth_In; rewrite LI; lia. }
    unfold vis, jones_of, plus_at. cbn [Nat.add].
    pose proof (NP 0%nat ltac:(lia)) as [A0 B0]. pose proof (NP 1%nat ltac:(lia)) as [A1 B1]. pose proof (NP 2%nat ltac:(lia)) as [A2 B2]. pose proof (NP 3%nat ltac:(lia)) as [A3 B3].
    do 4 (destruct cr as [|cr]; [cbn [Nat.div Nat.modulo fst snd Nat.divmod Nat.mul Nat.add Nat.sub] in A0, A1, A2, A3, B0, B1, B2, B3; cbn [element mul2 adjoint2 m00 m01 m10 m11];
      repeat match goal with H : ?x <> i |- _ => apply Nat.eqb_neq in H; rewrite ?H end; reflexivity|]). lia.
Qed.
Print Assumptions C99_equation.

(** * Examples *)
(** Two directions and two time slots; the source turns a quarter between them *)
Definition ex_slot (ph : rc) (fl : bool) (w : R) (d : rc) : slot := Slot (fun _ _ => ph) (fun _ => fl) (fun _ => w) (fun _ => d).
Definition ex_slots : list slot := [ex_slot rc1 false 1 (RC 5 0); ex_slot (RC 0 1) false 1 (RC 3 (-2)); ex_slot (RC 0 1) true 7 (RC 3 (-2))].
Definition ex_source (d : nat) : rc := if (d =? 0)%nat then RC 2 0 else RC 3 0.
Lemma ex_average d : (d < 2)%nat -> average 2 1 1 ex_slots d 0 = (if (d =? 0)%nat then RC (7 / 2) (3 / 2) else RC 4 (-1), 2, false).
Proof.
  intros D. unfold average, averaged_channels, ex_slots. cbn [Nat.mul Nat.min Nat.sub seq]. unfold wsum, weight_of, ex_slot. cbn [fold_left s_flag s_weight negb].
  replace (0 + (0 + 1 * 1 + 1 * 1 + 0 * 7)) with 2 by ring. destruct (Req_EM_T 2 0) as [E|E]; [exfalso; lra|]. f_equal. f_equal.
  destruct d as [|[|d]]; [| |lia]; unfold lsum, shifted; cbn -[Rinv Rmult]; apply rc_eq; cbn; field.
Qed.
Example C99_mixing_example : Forall unit_phasors ex_slots /\ Forall (is_mixture 2 ex_source) ex_slots /\ snd (average 2 1 1 ex_slots 1 0) = false /\
  matrix (factors 2 1 1 1 ex_slots 0) 1 0 = RC (1 / 2) (- 1 / 2) /\ fst (fst (average 2 1 1 ex_slots 1 0)) = RC 4 (-1).
Proof.
  assert (U : Forall unit_phasors ex_slots) by (repeat constructor; intros d ch; apply rc_eq; cbn; ring).
  split; [exact U|]. split; [repeat constructor; intros ch; apply rc_eq; cbn; ring|]. rewrite !(ex_average 1) by lia. split; [reflexivity|]. split; [|reflexivity].
  unfold matrix. rewrite (proj1 (factors_pair 2 1 1 1 ex_slots 0 ltac:(lia) ltac:(cbn; lia) 0 1 ltac:(lia))). rewrite ex_average by lia. unfold mean, averaged_channels, ex_slots, shift, weight_of, lsum. cbn -[Rinv Rmult].
  apply rc_eq; cbn; field.
Qed.
Example C99_flagged_example : matrix (factors 2 1 1 1 [ex_slot rc1 true 7 (RC 5 0)] 0) 1 0 = rc0.
Proof.
  apply C99_flagged; try lia; cbn; try lia. intros s ch [<-|[]]. reflexivity.
Qed.
(** An inversion for a single direction *)
Definition ex_invert (_ : nat) (m : nat -> nat -> rc) : option (nat -> nat -> rc) :=
  if Req_EM_T (rnorm (m 0%nat 0%nat)) 0 then None else Some (fun _ _ => rinv (m 0%nat 0%nat)).
Lemma ex_inverts : inverts 1 (ex_invert 1).
Proof.
  intros m. unfold ex_invert. destruct (Req_EM_T _ 0) as [E|E].
  - intros x X. specialize (X 0%nat 0%nat ltac:(lia) ltac:(lia)). cbn [total] in X. rewrite (rnorm_0 _ E) in X. unfold delta in X. cbn [Nat.eqb] in X. apply (f_equal re) in X. cbn in X. lra.
  - intros i j I J. replace i with 0%nat by lia. replace j with 0%nat by lia. cbn [total]. unfold delta. cbn [Nat.eqb]. rewrite <- (rinv_spec (m 0%nat 0%nat)); [ring|].
    intros Z. apply E. rewrite Z. unfold rnorm, rc0. cbn. ring.
Qed.
Definition ex_buf (a b : nat) : rc := if (a =? b)%nat then rc1 else RC (1 / 2) 0.
Example C99_deproject_example : let '(buf', data') := deproject ex_invert 2 1 false ex_buf (fun r => if (r =? 0)%nat then RC (7 / 2) 0 else RC 4 0) in
  data' 0%nat = total 1 (fun c => rmul (matrix buf' 0 c) (ex_source c)).
Proof.
  apply (C99_deproject ex_invert 2 1 false ex_buf _ ex_source 0); try lia; try discriminate.
  - exact ex_inverts.
  - exists (fun _ _ => RC (4 / 5) 0). intros i j I J. change (n_deproject 2 1 false) with 1%nat in *. replace i with 0%nat by lia. replace j with 0%nat by lia.
    unfold gram, matrix, ex_buf, delta. cbn -[Rinv Rmult Rdiv]. apply rc_eq; cbn; field.
  - intros r R. destruct r as [|[|r]]; [| |lia]; unfold matrix, ex_buf, ex_source; cbn -[Rinv Rmult Rdiv]; apply rc_eq; cbn; field.
Qed.
Example C99_singular_example : forall x, ~ is_inverse 1 x (gram 2 1 (matrix (fun _ _ => rc0))).
Proof.
  intros x X. specialize (X 0%nat 0%nat ltac:(lia) ltac:(lia)). unfold gram, matrix, delta in X. cbn [total Nat.eqb] in X. apply (f_equal re) in X. cbn in X. lra.
Qed.
Definition ex_gain (i : nat) : R := if (i =? 0)%nat then 2 else if (i =? 8)%nat then 3 else 0.
Definition ex_model (_ : nat) : mat2 := Mat2 (RC 5 1) rc0 rc0 (RC 5 1).
Example C99_equation_example : let '(index, d_re, d_im, residual) := equation 1 2 0 1 ex_gain ex_model (fun _ => RC 31 6) (fun _ _ => rc1) 0 0 in
  index = [0; 1; 2; 3; 8; 9; 10; 11]%nat /\ nth 0 d_re 0 = 15 /\ nth 5 d_re 0 = 2 /\ residual = RC 1 0.
Proof.
  cbn -[Rinv Rmult Rplus]. unfold ex_gain. cbn -[Rinv Rmult Rplus]. split; [reflexivity|]. split; [ring|]. split; [ring|]. unfold terms_of, lsum, jones_of, jones_conj, ex_gain, ex_model. cbn -[Rinv Rmult Rplus]. apply rc_eq; cbn; ring.
Qed.
Example C99_residual_example : element (subtract_sources 2 1 2 0 1 ex_gain ex_model ex_buf ex_buf ex_buf ex_buf (Mat2 (RC 20 3) rc0 rc0 rc0)) 0 = RC 5 0.
Proof.
  rewrite (C99_residual 2 1 2 0 1 ex_gain ex_model ex_buf ex_buf ex_buf ex_buf _ (fun c => if (c =? 0)%nat then RC 30 6 else RC 5 0) 0); try lia.
  - cbn -[Rinv Rmult Rplus]. unfold matrix, ex_buf. cbn -[Rinv Rmult Rplus]. apply rc_eq; cbn; ring.
  - unfold matrix, ex_buf. cbn -[Rinv Rmult Rplus Rdiv]. apply rc_eq; cbn; field.
  - intros c C. replace c with 0%nat by lia. unfold measured, ex_gain, ex_model. cbn -[Rinv Rmult Rplus]. apply rc_eq; cbn; ring.
Qed.
