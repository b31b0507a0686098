(** Least squares for one antenna: the algebra behind the iterative solvers. *)
From Coq Require Import QArith Qcanon List Bool Arith Lia.
From Verif Require Import QcUtil SolveDataModel SolveDataSpec Cplx GainModel GainSpec.
Import ListNotations.
Open Scope Qc_scope.

Lemma madd_assoc a b c : madd a (madd b c) = madd (madd a b) c. Proof. apply mat_eq; cbn; ring. Qed.
Lemma madd_comm a b : madd a b = madd b a. Proof. apply mat_eq; cbn; ring. Qed.
Lemma madd_0 a : madd mzero a = a. Proof. apply mat_eq; cbn; ring. Qed.
Lemma mmul_add_r a b c : mmul a (madd b c) = madd (mmul a b) (mmul a c). Proof. apply mat_eq; cbn; ring. Qed.
Lemma mmul_add_l a b c : mmul (madd a b) c = madd (mmul a c) (mmul b c). Proof. apply mat_eq; cbn; ring. Qed.
Lemma mmul_assoc a b c : mmul a (mmul b c) = mmul (mmul a b) c. Proof. apply mat_eq; cbn; ring. Qed.
Lemma mmul_0_r a : mmul a mzero = mzero. Proof. apply mat_eq; cbn; ring. Qed.
Lemma mmul_0_l a : mmul mzero a = mzero. Proof. apply mat_eq; cbn; ring. Qed.
Lemma mmul_1_r a : mmul a (Mat c1 c0 c0 c1) = a. Proof. apply mat_eq; cbn; ring. Qed.
Lemma mherm_mul a b : mherm (mmul a b) = mmul (mherm b) (mherm a).
Proof. apply mat_eq; cbn; rewrite ?conj_add, ?conj_mul; ring. Qed.
Lemma mherm_herm a : mherm (mherm a) = a. Proof. apply mat_eq; cbn; apply conj_conj. Qed.
Lemma mherm_sub a b : mherm (msub a b) = msub (mherm a) (mherm b). Proof. apply mat_eq; cbn; apply conj_sub. Qed.
Lemma mnorm_herm a : mnorm (mherm a) = mnorm a. Proof. unfold mnorm. cbn. rewrite !cnorm_conj. ring. Qed.
Lemma mnorm_nonneg a : 0 <= mnorm a.
Proof. unfold mnorm. pose proof (cnorm_nonneg (m0 a)). pose proof (cnorm_nonneg (m1 a)). pose proof (cnorm_nonneg (m2 a)). pose proof (cnorm_nonneg (m3 a)). qclra. Qed.
Lemma mnorm_0 a : mnorm a = 0 -> a = mzero.
Proof.
  unfold mnorm. intros H. pose proof (cnorm_nonneg (m0 a)). pose proof (cnorm_nonneg (m1 a)). pose proof (cnorm_nonneg (m2 a)). pose proof (cnorm_nonneg (m3 a)).
  apply mat_eq; cbn; apply cnorm_0; apply Qcle_antisym; auto; rewrite <- H; qclra.
Qed.
Lemma mnorm_zero : mnorm mzero = 0. Proof. reflexivity. Qed.

(** What is to be fitted: the pairs (D, C) such that D is to be X C^H *)
Definition error (l : list (mat * mat)) (x : mat) : Qc := qsum (map (fun p => mnorm (msub (fst p) (mmul x (mherm (snd p))))) l).
Definition numerator (l : list (mat * mat)) : mat := msum (map (fun p => mmul (fst p) (snd p)) l).
Definition denominator (l : list (mat * mat)) : mat := msum (map (fun p => mmul (mherm (snd p)) (snd p)) l).
Definition spread (l : list (mat * mat)) (z : mat) : Qc := qsum (map (fun p => mnorm (mmul z (mherm (snd p)))) l).

Lemma expand l y z : error l (madd y z) =
  error l y - (1 + 1) * re (mtrace (mmul (msub (numerator l) (mmul y (denominator l))) (mherm z))) + spread l z.
Proof.
  unfold error, numerator, denominator, spread. induction l as [|[d c] l IH]; cbn [map fst snd msum fold_right].
  - rewrite !qsum_nil. cbn. ring.
  - fold (msum (map (fun p => mmul (fst p) (snd p)) l)). fold (msum (map (fun p => mmul (mherm (snd p)) (snd p)) l)). rewrite !qsum_cons, IH.
    set (n := msum (map (fun p => mmul (fst p) (snd p)) l)). set (q := msum (map (fun p => mmul (mherm (snd p)) (snd p)) l)). clearbody n q. clear.
    destruct d as [[] [] [] []], c as [[] [] [] []], y as [[] [] [] []], z as [[] [] [] []], n as [[] [] [] []], q as [[] [] [] []].
    unfold mnorm, cnorm. cbn. ring.
Qed.
Lemma spread_nonneg l z : 0 <= spread l z.
Proof. unfold spread. apply qsum_nonneg. intros x I. apply in_map_iff in I as (p & <- & _). apply mnorm_nonneg. Qed.
Lemma error_nonneg l z : 0 <= error l z.
Proof. unfold error. apply qsum_nonneg. intros x I. apply in_map_iff in I as (p & <- & _). apply mnorm_nonneg. Qed.
Lemma spread_0 l z : spread l z = 0 -> mmul z (denominator l) = mzero.
Proof.
  unfold spread, denominator. induction l as [|[d c] l IH]; cbn [map fst snd msum fold_right]; [intros _; apply mmul_0_r|].
  fold (msum (map (fun p => mmul (mherm (snd p)) (snd p)) l)). rewrite qsum_cons. intros H.
  assert (H1 := mnorm_nonneg (mmul z (mherm c))). assert (H2 := spread_nonneg l z). unfold spread in H2.
  assert (E1 : mnorm (mmul z (mherm c)) = 0) by (apply Qcle_antisym; [rewrite <- H; qclra|auto]).
  assert (E2 : qsum (map (fun p => mnorm (mmul z (mherm (snd p)))) l) = 0) by (apply Qcle_antisym; [rewrite <- H; qclra|auto]).
  rewrite mmul_add_r, (IH E2), mmul_assoc, (mnorm_0 _ E1), mmul_0_l. apply madd_0.
Qed.
Lemma spread_den l z : spread l z = re (mtrace (mmul (mmul z (denominator l)) (mherm z))).
Proof.
  unfold denominator, spread. induction l as [|[d c] l IH]; cbn [map fst snd msum fold_right].
  - rewrite qsum_nil, mmul_0_r, mmul_0_l. reflexivity.
  - fold (msum (map (fun p => mmul (mherm (snd p)) (snd p)) l)). rewrite qsum_cons, IH.
    set (q := msum (map (fun p => mmul (mherm (snd p)) (snd p)) l)). clearbody q. clear.
    destruct c as [[] [] [] []], z as [[] [] [] []], q as [[] [] [] []]. unfold mnorm, cnorm. cbn. ring.
Qed.
Lemma msub_add x y : madd y (msub x y) = x. Proof. apply mat_eq; cbn; ring. Qed.
(** If the normal equation holds in the direction of x - y, then the error at x is larger by the spread *)
Lemma pythagoras l y x : re (mtrace (mmul (msub (numerator l) (mmul y (denominator l))) (mherm (msub x y)))) = 0 -> error l x = error l y + spread l (msub x y).
Proof. intros H. rewrite <- (msub_add x y) at 1. rewrite expand, H. ring. Qed.
(** If there is no spread, the error does not change *)
Lemma spread_flat l y x : spread l (msub x y) = 0 -> error l x = error l y.
Proof.
  intros H. unfold error, spread in *. induction l as [|[d c] l IH]; [reflexivity|]. cbn [map fst snd] in *. rewrite !qsum_cons in *.
  assert (H1 := mnorm_nonneg (mmul (msub x y) (mherm c))). assert (H2 := spread_nonneg l (msub x y)). unfold spread in H2.
  assert (E1 : mnorm (mmul (msub x y) (mherm c)) = 0) by (apply Qcle_antisym; [rewrite <- H; qclra|auto]).
  assert (E2 : qsum (map (fun p => mnorm (mmul (msub x y) (mherm (snd p)))) l) = 0) by (apply Qcle_antisym; [rewrite <- H; qclra|auto]).
  rewrite (IH E2). f_equal. f_equal. apply mnorm_0 in E1.
  assert (Q : mmul x (mherm c) = mmul y (mherm c)).
  { replace (mmul x (mherm c)) with (madd (mmul y (mherm c)) (mmul (msub x y) (mherm c))) by (apply mat_eq; cbn; ring). rewrite E1, madd_comm. apply madd_0. }
  now rewrite Q.
Qed.
Lemma den_diag l : denominator l = mherm (denominator l).
Proof.
  unfold denominator. induction l as [|[d c] l IH]; cbn [map snd msum fold_right]; [apply mat_eq; cbn; now rewrite ?conj_0|].
  fold (msum (map (fun p => mmul (mherm (snd p)) (snd p)) l)). set (q := msum _) in *. clearbody q.
  apply mat_eq; cbn; rewrite ?conj_add, ?conj_mul, ?conj_conj.
  1: replace (conj (m0 q)) with (m0 q) by (now rewrite IH at 1). 2: replace (conj (m2 q)) with (m1 q) by (now rewrite IH at 1).
  3: replace (conj (m1 q)) with (m2 q) by (now rewrite IH at 1). 4: replace (conj (m3 q)) with (m3 q) by (now rewrite IH at 1). all: ring.
Qed.
Lemma lt_add (a b : Qc) : 0 < b -> a < a + b.
Proof. intros. qclra. Qed.
Lemma nonneg_pos (a : Qc) : 0 <= a -> a <> 0 -> 0 < a.
Proof. intros H N. apply Qcle_lt_or_eq in H as [H|H]; auto. now elim N. Qed.

(** * Scalars *)
Lemma diag_real l : im (m0 (denominator l)) = 0 /\ im (m3 (denominator l)) = 0.
Proof.
  assert (X : forall x : Qc, x = - x -> x = 0). { intros x H. assert (x + x = 0) by (rewrite H at 1; ring). assert (E : x = / (1 + 1) * (x + x)). { field. discriminate. } rewrite E, H0. ring. }
  split; apply X; [rewrite (den_diag l) at 1|rewrite (den_diag l) at 1]; reflexivity.
Qed.
