(** Complex numbers with real parts, as a stand-in for std::complex where absolute values are needed. *)
From Coq Require Import Reals List Lra Ring Psatz.
Import ListNotations.
Open Scope R_scope.

(** std::complex *)
Record rc := RC { re : R; im : R }.
(** std::complex: zero *)
Definition rc0 : rc := RC 0 0.
(** std::complex: one *)
Definition rc1 : rc := RC 1 0.
(** std::complex: sum *)
Definition radd (a b : rc) : rc := RC (re a + re b) (im a + im b).
(** std::complex: difference *)
Definition rsub (a b : rc) : rc := RC (re a - re b) (im a - im b).
(** std::complex: negative *)
Definition ropp (a : rc) : rc := RC (- re a) (- im a).
(** std::complex: product *)
Definition rmul (a b : rc) : rc := RC (re a * re b - im a * im b) (re a * im b + im a * re b).
(** std::conj *)
Definition rconj (a : rc) : rc := RC (re a) (- im a).
(** std::norm: the square of the absolute value *)
Definition rnorm (a : rc) : R := re a * re a + im a * im a.
(** std::abs *)
Definition rabs (a : rc) : R := sqrt (rnorm a).
(** std::complex: product with a number *)
Definition rscale (x : R) (a : rc) : rc := RC (x * re a) (x * im a).
(** std::complex: the inverse of a number that is not zero *)
Definition rinv (a : rc) : rc := rscale (/ rnorm a) (rconj a).

Lemma rc_eq a b : re a = re b -> im a = im b -> a = b.
Proof. destruct a, b; cbn; congruence. Qed.
Lemma rc_ring : ring_theory rc0 rc1 radd rmul rsub ropp eq.
Proof. split; intros; apply rc_eq; cbn; ring. Qed.
Add Ring rc_ring_inst : rc_ring.
Lemma rconj_add a b : rconj (radd a b) = radd (rconj a) (rconj b). Proof. apply rc_eq; cbn; ring. Qed.
Lemma rconj_mul a b : rconj (rmul a b) = rmul (rconj a) (rconj b). Proof. apply rc_eq; cbn; ring. Qed.
Lemma rconj_conj a : rconj (rconj a) = a. Proof. apply rc_eq; cbn; ring. Qed.
Lemma rconj_0 : rconj rc0 = rc0. Proof. apply rc_eq; cbn; ring. Qed.
Lemma rnorm_conj a : rnorm (rconj a) = rnorm a. Proof. unfold rnorm; cbn; ring. Qed.
Lemma rnorm_mul a b : rnorm (rmul a b) = rnorm a * rnorm b. Proof. unfold rnorm; cbn; ring. Qed.
Lemma rnorm_spec a : rmul (rconj a) a = RC (rnorm a) 0. Proof. apply rc_eq; unfold rnorm; cbn; ring. Qed.
Lemma rnorm_scale x a : rnorm (rscale x a) = x * x * rnorm a. Proof. unfold rnorm; cbn; ring. Qed.
Lemma rnorm_nonneg a : 0 <= rnorm a. Proof. unfold rnorm. nra. Qed.
Lemma rnorm_0 a : rnorm a = 0 -> a = rc0.
Proof. intros H. unfold rnorm in H. apply rc_eq; cbn; nra. Qed.
Lemma rabs_nonneg a : 0 <= rabs a. Proof. apply sqrt_pos. Qed.
Lemma rabs_square a : rabs a * rabs a = rnorm a. Proof. apply sqrt_sqrt, rnorm_nonneg. Qed.
Lemma rabs_0 a : rabs a = 0 <-> a = rc0.
Proof.
  split.
  - intros H. apply rnorm_0. rewrite <- rabs_square, H. ring.
  - intros ->. unfold rabs, rnorm, rc0. cbn. replace (0 * 0 + 0 * 0) with 0 by ring. apply sqrt_0.
Qed.
Lemma rabs_pos a : a <> rc0 -> 0 < rabs a.
Proof. intros H. destruct (rabs_nonneg a) as [P|P]; auto. elim H. now apply rabs_0. Qed.
Lemma rabs_mul a b : rabs (rmul a b) = rabs a * rabs b.
Proof. unfold rabs. rewrite rnorm_mul. apply sqrt_mult; apply rnorm_nonneg. Qed.
Lemma rinv_spec a : a <> rc0 -> rmul a (rinv a) = rc1.
Proof.
  intros H. assert (N : rnorm a <> 0) by (intros E; now apply H, rnorm_0). unfold rinv. apply rc_eq; cbn; unfold rnorm in *; field; exact N.
Qed.
Lemma re_le_abs a : re a <= rabs a.
Proof.
  destruct (Rle_dec 0 (re a)) as [H|H]; [|pose proof (rabs_nonneg a); lra].
  rewrite <- (sqrt_square (re a)) by auto. apply sqrt_le_1_alt. unfold rnorm. nra.
Qed.
