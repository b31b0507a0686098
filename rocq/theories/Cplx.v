(** Exact complex numbers and 2x2 matrices, as stand-ins for std::complex and aocommon::MC2x2. *)
From Coq Require Import QArith Qcanon List Ring.
From Verif Require Import QcUtil.
Import ListNotations.
Open Scope Qc_scope.

(** std::complex with exact parts *)
Record cplx := C { re : Qc; im : Qc }.
(** std::complex: zero *)
Definition c0 : cplx := C 0 0.
(** std::complex: one *)
Definition c1 : cplx := C 1 0.
(** std::complex: sum *)
Definition cadd (a b : cplx) : cplx := C (re a + re b) (im a + im b).
(** std::complex: difference *)
Definition csub (a b : cplx) : cplx := C (re a - re b) (im a - im b).
(** std::complex: negative *)
Definition copp (a : cplx) : cplx := C (- re a) (- im a).
(** std::complex: product *)
Definition cmul (a b : cplx) : cplx := C (re a * re b - im a * im b) (re a * im b + im a * re b).
(** std::conj *)
Definition conj (a : cplx) : cplx := C (re a) (- im a).
(** std::norm: the square of the absolute value *)
Definition cnorm (a : cplx) : Qc := re a * re a + im a * im a.
(** std::complex: product with, and quotient by, a number *)
Definition cscale (w : Qc) (a : cplx) : cplx := C (w * re a) (w * im a).

Lemma cplx_eq a b : re a = re b -> im a = im b -> a = b.
Proof. destruct a, b; cbn; congruence. Qed.
Lemma cplx_ring : ring_theory c0 c1 cadd cmul csub copp eq.
Proof. split; intros; apply cplx_eq; cbn; ring. Qed.
Add Ring cplx_ring_inst : cplx_ring.
Lemma conj_add a b : conj (cadd a b) = cadd (conj a) (conj b). Proof. apply cplx_eq; cbn; ring. Qed.
Lemma conj_sub a b : conj (csub a b) = csub (conj a) (conj b). Proof. apply cplx_eq; cbn; ring. Qed.
Lemma conj_mul a b : conj (cmul a b) = cmul (conj a) (conj b). Proof. apply cplx_eq; cbn; ring. Qed.
Lemma conj_conj a : conj (conj a) = a. Proof. apply cplx_eq; cbn; ring. Qed.
Lemma conj_0 : conj c0 = c0. Proof. apply cplx_eq; cbn; ring. Qed.
Lemma cnorm_conj a : cnorm (conj a) = cnorm a. Proof. unfold cnorm; cbn; ring. Qed.
Lemma cnorm_mul a b : cnorm (cmul a b) = cnorm a * cnorm b. Proof. unfold cnorm; cbn; ring. Qed.
Lemma cnorm_spec a : cmul a (conj a) = C (cnorm a) 0. Proof. apply cplx_eq; unfold cnorm; cbn; ring. Qed.
Lemma qc_square_nonneg (x : Qc) : 0 <= x * x.
Proof.
  destruct (Qclt_le_dec x 0) as [H|H].
  - replace (x * x) with ((- x) * (- x)) by ring. replace 0 with (0 * (- x)) by ring. apply Qcmult_le_compat_r; qclra.
  - replace 0 with (0 * x) by ring. now apply Qcmult_le_compat_r.
Qed.
Lemma cnorm_nonneg a : 0 <= cnorm a.
Proof. unfold cnorm. pose proof (qc_square_nonneg (re a)). pose proof (qc_square_nonneg (im a)). qclra. Qed.
Lemma qc_square_0 (x : Qc) : x * x = 0 -> x = 0.
Proof. intros H. apply Qcmult_integral in H as [H|H]; exact H. Qed.
Lemma cnorm_0 a : cnorm a = 0 -> a = c0.
Proof.
  intros H. unfold cnorm in H. pose proof (qc_square_nonneg (re a)). pose proof (qc_square_nonneg (im a)).
  apply cplx_eq; apply qc_square_0; apply Qcle_antisym; auto; [replace 0 with (re a * re a + im a * im a) by auto|replace 0 with (re a * re a + im a * im a) by auto]; qclra.
Qed.

(** aocommon::MC2x2: the elements [xx xy; yx yy] *)
Record mat := Mat { m0 : cplx; m1 : cplx; m2 : cplx; m3 : cplx }.
(** aocommon::MC2x2::Zero *)
Definition mzero : mat := Mat c0 c0 c0 c0.
(** aocommon::MC2x2: sum *)
Definition madd (a b : mat) : mat := Mat (cadd (m0 a) (m0 b)) (cadd (m1 a) (m1 b)) (cadd (m2 a) (m2 b)) (cadd (m3 a) (m3 b)).
(** aocommon::MC2x2: difference *)
Definition msub (a b : mat) : mat := Mat (csub (m0 a) (m0 b)) (csub (m1 a) (m1 b)) (csub (m2 a) (m2 b)) (csub (m3 a) (m3 b)).
(** aocommon::MC2x2: product *)
Definition mmul (a b : mat) : mat :=
  Mat (cadd (cmul (m0 a) (m0 b)) (cmul (m1 a) (m2 b))) (cadd (cmul (m0 a) (m1 b)) (cmul (m1 a) (m3 b)))
      (cadd (cmul (m2 a) (m0 b)) (cmul (m3 a) (m2 b))) (cadd (cmul (m2 a) (m1 b)) (cmul (m3 a) (m3 b))).
(** aocommon::MC2x2::HermTranspose *)
Definition mherm (a : mat) : mat := Mat (conj (m0 a)) (conj (m2 a)) (conj (m1 a)) (conj (m3 a)).
(** aocommon::MC2x2: the diagonal matrix of two elements (MC2x2Diag) *)
Definition mdiag (a b : cplx) : mat := Mat a c0 c0 b.
(** aocommon::MC2x2: the sum of the squares of all elements (Norm) *)
Definition mnorm (a : mat) : Qc := cnorm (m0 a) + cnorm (m1 a) + cnorm (m2 a) + cnorm (m3 a).
(** aocommon::MC2x2: the determinant *)
Definition mdet (a : mat) : cplx := csub (cmul (m0 a) (m3 a)) (cmul (m1 a) (m2 a)).
(** std::complex: the inverse of a number that is not zero *)
Definition cinv (a : cplx) : cplx := cscale (/ cnorm a) (conj a).
(** aocommon::MC2x2::Invert: the inverse, or nothing if the determinant is zero *)
Definition minvert (a : mat) : option mat :=
  if Qc_eq_dec (cnorm (mdet a)) 0 then None
  else let i := cinv (mdet a) in Some (Mat (cmul i (m3 a)) (cmul i (copp (m1 a))) (cmul i (copp (m2 a))) (cmul i (m0 a))).

Lemma mat_eq a b : m0 a = m0 b -> m1 a = m1 b -> m2 a = m2 b -> m3 a = m3 b -> a = b.
Proof. destruct a, b; cbn; congruence. Qed.
Lemma cinv_spec a : cnorm a <> 0 -> cmul a (cinv a) = c1.
Proof. intros H. unfold cinv, cscale. apply cplx_eq; cbn; unfold cnorm in *; field; exact H. Qed.
Lemma minvert_spec a b : minvert a = Some b -> mmul a b = Mat c1 c0 c0 c1 /\ mmul b a = Mat c1 c0 c0 c1.
Proof.
  unfold minvert. destruct (Qc_eq_dec (cnorm (mdet a)) 0) as [|H]; [discriminate|]. intros E. injection E as <-. pose proof (cinv_spec _ H) as I.
  set (i := cinv (mdet a)) in *. unfold mdet in I. split; apply mat_eq; cbn; rewrite <- ?I; ring.
Qed.
