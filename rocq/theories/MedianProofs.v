From Coq Require Import List Arith Permutation QArith Qcanon Lia.
From Verif Require Import QcUtil MedianModel MedianSpec.
Import ListNotations.
Open Scope Qc_scope.

Fixpoint ins (x : Qc) (l : list Qc) : list Qc :=
  match l with
  | [] => [x]
  | y :: r => if qleb x y then x :: l else y :: ins x r
  end.
Fixpoint isort (l : list Qc) : list Qc := match l with [] => [] | x :: r => ins x (isort r) end.

Lemma ins_perm x l : Permutation (x :: l) (ins x l).
Proof.
  induction l as [|y r IH]; cbn; [reflexivity|]. destruct (qleb x y); [reflexivity|].
  rewrite perm_swap. now rewrite IH.
Qed.
Lemma isort_perm l : Permutation l (isort l).
Proof. induction l as [|x r IH]; cbn; [constructor|]. rewrite <- ins_perm. now rewrite <- IH. Qed.

Lemma qle_total x y : x <= y \/ y <= x.
Proof. destruct (Qclt_le_dec x y) as [H|H]; [left; now apply Qclt_le_weak|now right]. Qed.

Lemma ins_asc x l : ascending l -> ascending (ins x l).
Proof.
  induction 1 as [|y r Hy Hr IH]; cbn.
  - constructor; [intros ? []|constructor].
  - destruct (qleb x y) eqn:E.
    + apply qleb_true in E. constructor; [|now constructor].
      intros z [<-|Hz]; [exact E|]. eapply Qcle_trans; [exact E|auto].
    + constructor; [|exact IH]. intros z Hz.
      eapply Permutation_in in Hz; [|apply Permutation_sym, ins_perm]. destruct Hz as [<-|Hz]; [|auto].
      destruct (qle_total x y) as [L|L]; [|exact L]. apply qleb_true in L. congruence.
Qed.
Lemma isort_asc l : ascending (isort l).
Proof. induction l; cbn; [constructor|now apply ins_asc]. Qed.

Lemma asc_app a b : ascending a -> ascending b -> (forall x y, In x a -> In y b -> x <= y) -> ascending (a ++ b).
Proof.
  induction 1 as [|x r Hx Hr IH]; cbn; intros Hb H; [exact Hb|].
  constructor; [|apply IH; auto]. intros y Hy. apply in_app_iff in Hy as [Hy|Hy]; auto.
Qed.

(** Sorted lists of the same elements are equal. *)
Lemma asc_unique a b : ascending a -> ascending b -> Permutation a b -> a = b.
Proof.
  intros Ha. revert b. induction Ha as [|x r Hx Hr IH]; intros b Hb P.
  - now apply Permutation_nil in P.
  - destruct Hb as [|y s Hy Hs].
    + apply Permutation_sym, Permutation_nil in P. discriminate.
    + assert (x = y) as ->.
      { assert (Iy : In y (x :: r)) by (eapply Permutation_in; [apply Permutation_sym, P|now left]).
        assert (Ix : In x (y :: s)) by (eapply Permutation_in; [apply P|now left]).
        destruct Iy as [E|Iy]; [exact E|]. destruct Ix as [E|Ix]; [now symmetry|].
        apply Qcle_antisym; auto. }
      f_equal. apply IH; [exact Hs|]. now apply Permutation_cons_inv in P.
Qed.

(** Position n of a list split at n holds the n-th element of the sorted list. *)
Lemma split_nth (v s : list Qc) n : (n < length v)%nat ->
  (forall i, (i < n)%nat -> nth i v 0 <= nth n v 0) ->
  (forall i, (n < i < length v)%nat -> nth n v 0 <= nth i v 0) ->
  Permutation v s -> ascending s -> nth_error s n = Some (nth n v 0).
Proof.
  intros Hn Hlo Hhi P Hs.
  destruct (nth_split v 0 Hn) as (a & b & E & La). set (x := nth n v 0) in *.
  assert (Ho : forall y, In y a -> y <= x).
  { intros y Hy. apply (In_nth _ _ 0) in Hy as (i & Hi & <-). specialize (Hlo i ltac:(lia)).
    rewrite E, app_nth1 in Hlo by lia. exact Hlo. }
  assert (Hh : forall y, In y b -> x <= y).
  { intros y Hy. apply (In_nth _ _ 0) in Hy as (i & Hi & <-).
    assert (L : length v = (n + S (length b))%nat) by (rewrite E, app_length; cbn; lia).
    specialize (Hhi (n + S i)%nat ltac:(lia)). rewrite E, app_nth2 in Hhi by lia.
    replace (n + S i - length a)%nat with (S i) in Hhi by lia. exact Hhi. }
  assert (Es : s = isort a ++ x :: isort b).
  { apply asc_unique; [exact Hs| |].
    - apply asc_app; [apply isort_asc| |].
      + constructor; [|apply isort_asc]. intros y Hy. apply Hh. eapply Permutation_in; [apply Permutation_sym, isort_perm|exact Hy].
      + intros y z Hy [<-|Hz].
        * apply Ho. eapply Permutation_in; [apply Permutation_sym, isort_perm|exact Hy].
        * apply Qcle_trans with x; [apply Ho|apply Hh]; (eapply Permutation_in; [apply Permutation_sym, isort_perm|eassumption]).
    - rewrite <- P. rewrite E. rewrite <- !isort_perm. reflexivity. }
  rewrite Es, nth_error_app2; rewrite <- (Permutation_length (isort_perm a)); [|lia].
  replace (n - length a)%nat with 0%nat by lia. reflexivity.
Qed.

Lemma selected sel n v s : nth_element sel -> (n < length v)%nat -> Permutation v s -> ascending s ->
  nth_error s n = Some (nth n (sel n v) 0).
Proof.
  intros C Hn P Hs. destruct (C n v Hn) as (Q & Lo & Hi).
  apply split_nth; [now rewrite <- (Permutation_length Q)|exact Lo| |now rewrite <- Q|exact Hs].
  intros i Hi'. apply Hi. now rewrite (Permutation_length Q).
Qed.

Lemma median_odd sel v : nth_element sel -> Nat.odd (length v) = true -> is_median v (fst (median sel v)).
Proof.
  intros C O. exists (isort v). split; [apply isort_perm|]. split; [apply isort_asc|]. cbv zeta.
  rewrite <- (Permutation_length (isort_perm v)), O.
  destruct v as [|x r]; [discriminate|]. set (v := x :: r) in *. unfold median. subst v. cbv zeta. rewrite O.
  change (length (x :: r)) with (S (length r)) at 1. cbn [fst].
  apply selected; [exact C| |apply isort_perm|apply isort_asc].
  apply Nat.div_lt; cbn; lia.
Qed.

Lemma median_even sel v : nth_element sel ->
  (forall n w, (S n < length w)%nat -> nth (S n) (sel n (sel (S n) w)) 0 = nth (S n) (sel (S n) w) 0) ->
  Nat.odd (length v) = false -> is_median v (fst (median sel v)).
Proof.
  intros C K O. exists (isort v). split; [apply isort_perm|]. split; [apply isort_asc|]. cbv zeta.
  rewrite <- (Permutation_length (isort_perm v)), O.
  destruct v as [|x r]; [reflexivity|]. remember (x :: r) as v eqn:Ev.
  assert (L : (2 <= length v)%nat) by (subst v; destruct r as [|y r]; [discriminate|cbn; lia]).
  assert (M : fst (median sel v) = (nth (length v / 2) (sel (length v / 2 - 1)%nat (sel (length v / 2)%nat v)) 0
                                    + nth (length v / 2 - 1) (sel (length v / 2 - 1)%nat (sel (length v / 2)%nat v)) 0) / (1 + 1)).
  { unfold median. rewrite Ev. cbv zeta. rewrite <- Ev, O. reflexivity. }
  rewrite M. clear M. destruct (length v) as [|m] eqn:El; [lia|]. rewrite <- El in *.
  assert (H1 : (1 <= length v / 2)%nat) by (apply Nat.div_le_lower_bound; lia).
  assert (H2 : (length v / 2 < length v)%nat) by (apply Nat.div_lt; lia).
  destruct (length v / 2)%nat as [|h] eqn:Eh; [lia|]. replace (S h - 1)%nat with h by lia.
  rewrite K by lia. destruct (C (S h) v ltac:(lia)) as (P & _).
  exists (nth h (sel h (sel (S h) v)) 0), (nth (S h) (sel (S h) v) 0).
  split; [|split].
  - apply selected; [exact C|rewrite <- (Permutation_length P); lia| |apply isort_asc].
    rewrite <- P. apply isort_perm.
  - apply selected; [exact C|lia|apply isort_perm|apply isort_asc].
  - f_equal. apply Qcplus_comm.
Qed.

(** Full sorting is an nth_element that keeps the position. *)
Lemma asc_nth l i j : ascending l -> (i <= j < length l)%nat -> nth i l 0 <= nth j l 0.
Proof.
  intros H. revert i j. induction H as [|x r Hx Hr IH]; cbn [length]; intros i j Hij; [lia|].
  destruct j as [|j]; destruct i as [|i]; cbn [nth]; try lia; [apply Qcle_refl| |apply IH; lia].
  apply Hx, nth_In. lia.
Qed.
Lemma isort_nth_element : nth_element (fun _ v => isort v).
Proof.
  intros n v Hn. pose proof (isort_perm v) as P. split; [exact P|].
  split; intros i Hi; apply asc_nth; try apply isort_asc; rewrite <- (Permutation_length P); lia.
Qed.
Lemma isort_id l : ascending l -> isort l = l.
Proof. intros H. apply asc_unique; [apply isort_asc|exact H|]. apply Permutation_sym, isort_perm. Qed.

Lemma is_median_unique v a b : is_median v a -> is_median v b -> a = b.
Proof.
  intros (s & P & A & H) (t & Q & B & K).
  assert (s = t) as <- by (apply asc_unique; auto; now rewrite <- P).
  cbv zeta in *. destruct (length s) eqn:E; [congruence|]. rewrite <- E in *.
  destruct (Nat.odd (length s)); [congruence|].
  destruct H as (? & ? & ? & ? & ->), K as (? & ? & ? & ? & ->). congruence.
Qed.
