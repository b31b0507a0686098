(** Proofs about clustering. *)
From Coq Require Import QArith Qcanon List Bool Arith ZArith Lia Permutation.
From Verif Require Import QcUtil InfoModel InfoProofs ClusterModel ClusterSpec.
Import ListNotations.
Open Scope nat_scope.

Definition single (i : nat) : list nat := [i].

Section Group.
Variable near : list nat -> list nat -> bool.
Definition near1 (i j : nat) : bool := near [i] [j].

Lemma set_nth_app {B} (a b : list B) x y : set_nth (a ++ x :: b) (length a) y = a ++ y :: b.
Proof. induction a; cbn; auto. now f_equal. Qed.
Lemma nth_app_mid {B} (a b : list B) x d : nth (length a) (a ++ x :: b) d = x.
Proof. induction a; cbn; auto. Qed.

Lemma group_loop_ok x : forall rest done y kept,
  group_loop near (length done) [x] (map single rest) (done ++ y :: map single kept) =
  done ++ (y ++ filter (near1 x) rest) :: map single (kept ++ filter (fun j => negb (near1 x j)) rest).
Proof.
  induction rest as [|j rest IH]; intros done y kept; cbn [map group_loop filter].
  - now rewrite !app_nil_r.
  - change (near [x] (single j)) with (near1 x j). destruct (near1 x j); cbn [negb].
    + rewrite nth_app_mid, set_nth_app, IH. unfold single at 1. now rewrite <- app_assoc.
    + replace ((done ++ y :: map single kept) ++ [single j]) with (done ++ y :: map single (kept ++ [j])).
      * rewrite IH, <- app_assoc. reflexivity.
      * rewrite map_app, <- app_assoc. reflexivity.
Qed.
Lemma group_source_ok done x rest :
  group_source near (length done) (done ++ map single (x :: rest)) =
  (done ++ [x :: filter (near1 x) rest]) ++ map single (filter (fun j => negb (near1 x j)) rest).
Proof.
  unfold group_source. cbn [map]. rewrite nth_app_mid.
  replace (done ++ single x :: map single rest) with ((done ++ [[x]]) ++ map single rest) by now rewrite <- app_assoc.
  replace (length done + 1) with (length (done ++ [[x]])) by (rewrite app_length; reflexivity).
  rewrite skipn_app, Nat.sub_diag, skipn_all, firstn_app, Nat.sub_diag, firstn_all. cbn [skipn firstn app]. rewrite app_nil_r.
  pose proof (group_loop_ok x rest done [x] []) as H. cbn [map app] in H. change (single x) with [x]. rewrite H. now rewrite <- app_assoc.
Qed.
Lemma filter_le {A} (f : A -> bool) l : length (filter f l) <= length l.
Proof. induction l; cbn; auto. destruct (f a); cbn; lia. Qed.
Lemma group_all_ok : forall fuel rest done, length rest < fuel ->
  exists cs, around near1 rest cs /\ group_all near fuel (length done) (done ++ map single rest) = done ++ cs.
Proof.
  induction fuel as [|fuel IH]; intros rest done H; [lia|]. cbn [group_all]. rewrite app_length, map_length. destruct rest as [|x rest].
  - cbn [length]. rewrite Nat.add_0_r, Nat.ltb_irrefl. exists []. split; [constructor|reflexivity].
  - replace (length done <? length done + length (x :: rest)) with true by (symmetry; apply Nat.ltb_lt; cbn; lia).
    rewrite group_source_ok. replace (length done + 1) with (length (done ++ [x :: filter (near1 x) rest])) by (rewrite app_length; reflexivity).
    destruct (IH (filter (fun j => negb (near1 x j)) rest) (done ++ [x :: filter (near1 x) rest])) as (cs & H1 & H2).
    + pose proof (filter_le (fun j => negb (near1 x j)) rest). cbn in H. lia.
    + rewrite H2. exists ((x :: filter (near1 x) rest) :: cs). split; [now constructor|]. now rewrite <- app_assoc.
Qed.
Lemma group_around n : around near1 (seq 0 n) (group near n).
Proof.
  destruct (group_all_ok (n + 1) (seq 0 n) []) as (cs & H1 & H2); [rewrite seq_length; lia|]. cbn [length app] in H2.
  unfold group. change (fun i => [i]) with single. now rewrite H2.
Qed.
End Group.

(** Facts about clusters around their first element *)
Section Around.
Variable near : nat -> nat -> bool.
Lemma filter_split (f : nat -> bool) l : Permutation (filter f l ++ filter (fun j => negb (f j)) l) l.
Proof.
  induction l as [|x l IH]; cbn; auto. destruct (f x); cbn [negb app].
  - now apply perm_skip.
  - rewrite <- Permutation_middle. now apply perm_skip.
Qed.
Lemma around_partition l cs : around near l cs -> partition l cs.
Proof.
  induction 1 as [|i rest cs H IH]; unfold partition in *; cbn; auto. apply perm_skip. rewrite IH. apply filter_split.
Qed.
Lemma around_members l cs c : around near l cs -> In c cs -> exists i c', c = i :: c' /\ Forall (fun j => near i j = true) c'.
Proof.
  induction 1 as [|i rest cs H IH]; intros Hc; cbn in Hc; [contradiction|]. destruct Hc as [<-|Hc]; auto.
  exists i, (filter (near i) rest). split; auto. apply Forall_forall. intros j Hj. now apply filter_In in Hj as [_ Hj].
Qed.
Lemma around_head l cs c : around near l cs -> In c cs -> forall i c', c = i :: c' -> In i l.
Proof.
  induction 1 as [|i rest cs H IH]; intros Hc j c' E; cbn in Hc; [contradiction|]. destruct Hc as [<-|Hc].
  - injection E as <- <-. now left.
  - right. specialize (IH Hc j c' E). now apply filter_In in IH.
Qed.
(** An element is not near to the first one of any earlier cluster *)
Lemma around_apart l cs : around near l cs -> forall k m i c j d, k < m -> nth_error cs k = Some (i :: c) -> nth_error cs m = Some d -> In j d -> near i j = false.
Proof.
  induction 1 as [|i0 rest cs H IH]; intros k m i c j d Hkm Hk Hm Hj; [now destruct k|].
  destruct m as [|m]; [lia|]. cbn [nth_error] in Hm. destruct k as [|k]; cbn [nth_error] in Hk.
  - injection Hk as <- <-. apply around_partition in H. apply nth_error_In in Hm.
    assert (In j (filter (fun j => negb (near i0 j)) rest)).
    { eapply Permutation_in; [exact H|]. apply in_concat. eauto. }
    apply filter_In in H0 as [_ H0]. now apply negb_true_iff in H0.
  - eapply IH; [|exact Hk|exact Hm|exact Hj]. lia.
Qed.
End Around.
