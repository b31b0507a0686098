(** Exact rational arithmetic used in place of floating point: canonical
    rationals [Qc], comparisons as booleans, sums, and a linear arithmetic
    tactic.  Nothing here models code. *)
From Coq Require Import QArith Qcanon Lqa List Bool Arith Lia.
Import ListNotations.
Open Scope Qc_scope.

Lemma this_Q2Qc q : (this (Q2Qc q) == q)%Q.
Proof. apply Qred_correct. Qed.
Lemma this_plus x y : (this (x + y) == this x + this y)%Q.
Proof. apply Qred_correct. Qed.
Lemma this_mult x y : (this (x * y) == this x * this y)%Q.
Proof. apply Qred_correct. Qed.
Lemma this_opp x : (this (- x) == - this x)%Q.
Proof. apply Qred_correct. Qed.
Lemma this_inv x : (this (/ x) == / this x)%Q.
Proof. apply Qred_correct. Qed.
Lemma this_minus x y : (this (x - y) == this x - this y)%Q.
Proof. unfold Qcminus. rewrite this_plus, this_opp. reflexivity. Qed.
Lemma this_div x y : (this (x / y) == this x / this y)%Q.
Proof. unfold Qcdiv. rewrite this_mult, this_inv. reflexivity. Qed.
Lemma this_0 : this 0 = 0%Q. Proof. reflexivity. Qed.
Lemma this_1 : this 1 = 1%Q. Proof. reflexivity. Qed.

Ltac qc_unfold :=
  unfold Qcle, Qclt in *;
  repeat progress (rewrite ?this_div, ?this_minus, ?this_plus, ?this_mult, ?this_opp, ?this_inv, ?this_Q2Qc in * ).

Lemma qc_eq (x y : Qc) : (this x == this y)%Q -> x = y.
Proof. apply Qc_is_canon. Qed.

Lemma qc_eq_inv (x y : Qc) : x = y -> (this x == this y)%Q.
Proof. intros ->. reflexivity. Qed.

Ltac qclra :=
  repeat match goal with H : @eq Qc _ _ |- _ => apply qc_eq_inv in H end;
  try apply qc_eq;
  qc_unfold; lra.

Definition qltb (x y : Qc) : bool := if Qclt_le_dec x y then true else false.
Definition qleb (x y : Qc) : bool := if Qclt_le_dec y x then false else true.

Lemma qltb_spec x y : reflect (x < y) (qltb x y).
Proof.
  unfold qltb. destruct (Qclt_le_dec x y); constructor; auto.
  now apply Qcle_not_lt.
Qed.

Lemma qleb_spec x y : reflect (x <= y) (qleb x y).
Proof.
  unfold qleb. destruct (Qclt_le_dec y x); constructor; auto.
  now apply Qclt_not_le.
Qed.

Lemma qltb_true x y : qltb x y = true <-> x < y.
Proof. destruct (qltb_spec x y); split; auto; discriminate. Qed.
Lemma qltb_false x y : qltb x y = false <-> y <= x.
Proof. destruct (qltb_spec x y); split; auto; try discriminate; intros H.
  - exfalso; eapply Qcle_not_lt; eauto.
  - now apply Qcnot_lt_le. Qed.
Lemma qleb_true x y : qleb x y = true <-> x <= y.
Proof. destruct (qleb_spec x y); split; auto; discriminate. Qed.
Lemma qleb_false x y : qleb x y = false <-> y < x.
Proof. destruct (qleb_spec x y); split; auto; try discriminate; intros H.
  - exfalso; eapply Qclt_not_le; eauto.
  - now apply Qcnot_le_lt. Qed.

(** Natural numbers as rationals. *)
Definition qn (n : nat) : Qc := Q2Qc (inject_Z (Z.of_nat n)).

Lemma qn_0 : qn 0 = 0.
Proof. reflexivity. Qed.
Lemma qn_S n : qn (S n) = qn n + 1.
Proof.
  apply qc_eq. unfold qn. rewrite this_plus, !this_Q2Qc.
  rewrite Nat2Z.inj_succ. unfold Z.succ. rewrite inject_Z_plus. reflexivity.
Qed.
Lemma qn_plus a b : qn (a + b) = qn a + qn b.
Proof. induction a; [rewrite qn_0, Qcplus_0_l; reflexivity|].
  rewrite Nat.add_succ_l, !qn_S, IHa. ring. Qed.
Lemma qn_mult a b : qn (a * b) = qn a * qn b.
Proof. induction a; [rewrite qn_0; simpl; rewrite qn_0; ring|].
  rewrite Nat.mul_succ_l, qn_plus, qn_S, IHa. ring. Qed.
Lemma qn_nonneg n : 0 <= qn n.
Proof. induction n; [rewrite qn_0; apply Qcle_refl|rewrite qn_S]. qclra. Qed.
Lemma qn_pos n : (0 < n)%nat -> 0 < qn n.
Proof. destruct n; [lia|]. intros _. rewrite qn_S. pose proof (qn_nonneg n). qclra. Qed.
Lemma qn_le a b : (a <= b)%nat -> qn a <= qn b.
Proof. intros H. replace b with (a + (b - a))%nat by lia. rewrite qn_plus.
  pose proof (qn_nonneg (b - a)). qclra. Qed.
Lemma qn_lt a b : (a < b)%nat -> qn a < qn b.
Proof. intros H. replace b with (a + (b - a))%nat by lia. rewrite qn_plus.
  pose proof (qn_pos (b - a) ltac:(lia)). qclra. Qed.
Lemma qn_neq0 n : (0 < n)%nat -> qn n <> 0.
Proof. intros H E. apply qn_pos in H. rewrite E in H. now apply Qclt_not_eq in H. Qed.

(** Sums. *)
Definition qsum (l : list Qc) : Qc := fold_right Qcplus 0 l.

Lemma qsum_nil : qsum [] = 0. Proof. reflexivity. Qed.
Lemma qsum_cons a l : qsum (a :: l) = a + qsum l. Proof. reflexivity. Qed.
Lemma qsum_app a b : qsum (a ++ b) = qsum a + qsum b.
Proof. induction a; simpl; [ring|]. rewrite IHa. ring. Qed.
Lemma qsum_flat_map {A} (f : A -> list Qc) l : qsum (flat_map f l) = qsum (map (fun x => qsum (f x)) l).
Proof. induction l; simpl; auto. now rewrite qsum_app, IHl. Qed.
Lemma qsum_map_0 {A} (f : A -> Qc) l : (forall x, In x l -> f x = 0) -> qsum (map f l) = 0.
Proof. induction l; simpl; auto. intros H. rewrite H, IHl by auto. ring. Qed.
Lemma qsum_map_ext {A} (f g : A -> Qc) l : (forall x, In x l -> f x = g x) -> qsum (map f l) = qsum (map g l).
Proof. intros H. f_equal. now apply map_ext_in. Qed.
Lemma qsum_map_plus {A} (f g : A -> Qc) l : qsum (map (fun x => f x + g x) l) = qsum (map f l) + qsum (map g l).
Proof. induction l; simpl; [ring|]. rewrite IHl. ring. Qed.
Lemma qsum_map_mult {A} c (f : A -> Qc) l : qsum (map (fun x => c * f x) l) = c * qsum (map f l).
Proof. induction l; simpl; [ring|]. rewrite IHl. ring. Qed.
Lemma qsum_nonneg l : (forall x, In x l -> 0 <= x) -> 0 <= qsum l.
Proof.
  induction l; simpl; intros H; [apply Qcle_refl|].
  assert (0 <= a) by auto. assert (0 <= qsum l) by auto. qclra.
Qed.
Lemma qsum_swap {A B} (f : A -> B -> Qc) l m :
  qsum (map (fun x => qsum (map (f x) m)) l) = qsum (map (fun y => qsum (map (fun x => f x y) l)) m).
Proof.
  induction l; simpl.
  - symmetry. apply qsum_map_0. auto.
  - rewrite IHl, <- qsum_map_plus. reflexivity.
Qed.
Lemma qsum_fold_left l a : fold_left Qcplus l a = a + qsum l.
Proof. revert a; induction l; intros; simpl; [ring|]. rewrite IHl. ring. Qed.

Lemma qc_mult_pos (x y : Qc) : 0 < x -> 0 < y -> 0 < x * y.
Proof.
  unfold Qclt. rewrite this_mult. intros Hx Hy.
  setoid_replace (this x * this y)%Q with (this y * this x)%Q by ring.
  assert (H : (0 * this x < this y * this x)%Q) by (apply Qmult_lt_compat_r; auto).
  rewrite Qmult_0_l in H. exact H.
Qed.
Lemma qc_inv_pos (x : Qc) : 0 < x -> 0 < / x.
Proof. unfold Qclt. rewrite this_inv. apply Qinv_lt_0_compat. Qed.
