(** C46: the median routine. *)
From Coq Require Import List Arith Permutation QArith Qcanon Lia.
From Verif Require Import QcUtil MedianModel MedianSpec MedianProofs.
Import ListNotations.
Open Scope Qc_scope.

(** For an odd number of values (and for none) the result is the median whatever conforming nth_element
    the standard library has.  For an even number it is the median if a second nth_element one position
    lower leaves the element that the first one placed (libstdc++ does that; the standard does not demand it). *)
Theorem C46_median_partial : forall sel v, nth_element sel ->
  (Nat.odd (length v) = true \/
   (forall n w, (S n < length w)%nat -> nth (S n) (sel n (sel (S n) w)) 0 = nth (S n) (sel (S n) w) 0)) ->
  is_median v (fst (median sel v)).
Proof.
  intros sel v C [O|K]; [now apply median_odd|].
  destruct (Nat.odd (length v)) eqn:O; [now apply median_odd|now apply median_even].
Qed.
Print Assumptions C46_median_partial.

(** The median does not depend on the order of the values, and there is only one. *)
Theorem C46_order_independent : forall sel sel' v w, nth_element sel -> nth_element sel' ->
  Nat.odd (length v) = true -> Permutation v w -> fst (median sel v) = fst (median sel' w).
Proof.
  intros sel sel' v w C C' O P. apply (is_median_unique v); [now apply median_odd|].
  assert (W : is_median w (fst (median sel' w))) by (apply median_odd; [exact C'|now rewrite <- (Permutation_length P)]).
  destruct W as (s & Q & H). exists s. split; [now rewrite P|exact H].
Qed.
Print Assumptions C46_order_independent.

(** An nth_element that reverses what comes after the position is allowed by the standard; with it the result for four
    values is not the median. *)
Definition reversing (n : nat) (v : list Qc) : list Qc := firstn (S n) (isort v) ++ rev (skipn (S n) (isort v)).

Lemma reversing_conforms : nth_element reversing.
Proof.
  intros n v Hn. unfold reversing. pose proof (isort_perm v) as P.
  assert (L : length (isort v) = length v) by (symmetry; exact (Permutation_length P)).
  assert (L1 : length (firstn (S n) (isort v)) = S n) by (rewrite firstn_length; lia).
  assert (N : forall i, (i <= n)%nat -> nth i (firstn (S n) (isort v) ++ rev (skipn (S n) (isort v))) 0 = nth i (isort v) 0).
  { intros i Hi. rewrite app_nth1 by lia. rewrite <- (firstn_skipn (S n) (isort v)) at 2. rewrite app_nth1 by lia. reflexivity. }
  split; [|split].
  - rewrite <- Permutation_rev, firstn_skipn. exact P.
  - intros i Hi. rewrite !N by lia. apply asc_nth; [apply isort_asc|lia].
  - intros i Hi. rewrite (N n) by lia. rewrite app_nth2 by lia. rewrite L1.
    assert (I : In (nth (i - S n) (rev (skipn (S n) (isort v))) 0) (skipn (S n) (isort v))).
    { apply in_rev. apply nth_In. rewrite rev_length, skipn_length. lia. }
    apply (In_nth _ _ 0) in I as (j & Hj & <-). rewrite skipn_length in Hj.
    replace (nth j (skipn (S n) (isort v)) 0) with (nth (S n + j) (isort v) 0).
    2:{ rewrite <- (firstn_skipn (S n) (isort v)) at 1. rewrite app_nth2 by lia. f_equal. lia. }
    apply asc_nth; [apply isort_asc|lia].
Qed.

Theorem C46_even_refuted : exists sel v, nth_element sel /\ Nat.odd (length v) = false /\ ~ is_median v (fst (median sel v)).
Proof.
  exists reversing, (map (fun z => Q2Qc (inject_Z z)) [1; 2; 3; 4]%Z). split; [exact reversing_conforms|]. split; [reflexivity|].
  intros H. set (v := map _ _) in *.
  assert (M : is_median v (Q2Qc (5 # 2))).
  { exists v. split; [reflexivity|]. split.
    - subst v. cbn [map]. repeat (apply asc_cons; [intros y Hy; repeat (destruct Hy as [<-|Hy]; [discriminate|]); destruct Hy|]). apply asc_nil.
    - exists (Q2Qc (inject_Z 2)), (Q2Qc (inject_Z 3)). split; [reflexivity|]. split; [reflexivity|]. vm_compute. reflexivity. }
  pose proof (is_median_unique _ _ _ H M) as E. revert E. vm_compute. discriminate.
Qed.
Print Assumptions C46_even_refuted.

Example C46_case : fst (median (fun _ v => isort v) (map (fun z => Q2Qc (inject_Z z)) [4; 1; 9; 2]%Z)) = Q2Qc 3
  /\ fst (median (fun _ v => isort v) (map (fun z => Q2Qc (inject_Z z)) [4; 1; 9; 2; 7]%Z)) = Q2Qc 4
  /\ fst (median (fun _ v => isort v) []) = 0.
Proof. repeat split; apply Qc_is_canon; vm_compute; reflexivity. Qed.
Example C46_case_hypotheses : nth_element (fun _ v => isort v) /\
  (forall n w, (S n < length w)%nat -> nth (S n) (isort (isort w)) 0 = nth (S n) (isort w) 0).
Proof. split; [apply isort_nth_element|]. intros n w _. now rewrite (isort_id (isort w)) by apply isort_asc. Qed.
