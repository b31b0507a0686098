(** Properties of clustering (common/ProximityClustering.cc) and of the patches made with it (sky_model/SkyModelFunctions.cc). *)
From Coq Require Import QArith Qcanon List Bool Arith ZArith Lia Permutation.
From Verif Require Import QcUtil InfoModel ClusterModel ClusterSpec ClusterProofs.
Import ListNotations.
Open Scope nat_scope.

(** * C29: clusters *)

(** Whatever the distances are, each position is in exactly one cluster, and no cluster is empty. *)
Theorem C29_partition : forall near n, partition (seq 0 n) (group near n) /\ Forall (fun c => c <> []) (group near n).
Proof.
  intros near n. pose proof (group_around near n) as H. split; [now apply around_partition in H|].
  apply Forall_forall. intros c Hc. destruct (around_members _ _ _ c H Hc) as (i & c' & -> & _). discriminate.
Qed.
Print Assumptions C29_partition.
(** So each position is in one cluster, once. *)
Theorem C29_once : forall near n i, i < n ->
  exists k c, nth_error (group near n) k = Some c /\ In i c /\ NoDup c /\
    forall k' c', nth_error (group near n) k' = Some c' -> In i c' -> k' = k.
Proof.
  intros near n i Hi. destruct (C29_partition near n) as [P _]. unfold partition in P.
  assert (D : NoDup (concat (group near n))) by (eapply Permutation_NoDup; [symmetry; exact P|apply seq_NoDup]).
  assert (I : In i (concat (group near n))) by (eapply Permutation_in; [symmetry; exact P|apply in_seq; lia]).
  revert D I. generalize (group near n). clear. induction l as [|c l IH]; cbn; [contradiction|]. intros D I.
  assert (Dc : NoDup c /\ NoDup (concat l) /\ forall x, In x c -> ~ In x (concat l)).
  { clear - D. induction c as [|x c IHc]; cbn in *; [repeat split; auto; constructor|]. inversion D as [|? ? N D']; subst.
    destruct (IHc D') as (A & B & E). rewrite in_app_iff in N. repeat split; auto.
    - constructor; tauto.
    - intros y [<-|Hy]; auto. }
  destruct Dc as (D1 & D2 & D3). apply in_app_iff in I as [I|I].
  - exists 0, c. repeat split; auto. intros [|k'] c' Hk Hc'; auto. exfalso. apply (D3 i I). apply in_concat. exists c'. split; auto.
    cbn in Hk; now apply nth_error_In in Hk.
  - destruct (IH D2 I) as (k & d & H1 & H2 & H3 & H4). exists (S k), d. repeat split; auto. intros [|k'] c' Hk Hc'.
    + cbn in Hk. injection Hk as <-. exfalso. exact (D3 i Hc' I).
    + f_equal. eapply H4; eauto.
Qed.
Print Assumptions C29_once.
(** The clusters are around their first position: it with all that are near to it and are not in an earlier cluster.  So all
    are near to the first one of their cluster, and not near to the first one of an earlier cluster. *)
Theorem C29_around : forall near n, let near1 i j := near [i] [j] in
  around near1 (seq 0 n) (group near n) /\
  (forall c, In c (group near n) -> exists i c', c = i :: c' /\ Forall (fun j => near1 i j = true) c') /\
  (forall k m i c j d, k < m -> nth_error (group near n) k = Some (i :: c) -> nth_error (group near n) m = Some d -> In j d -> near1 i j = false).
Proof.
  intros near n near1. pose proof (group_around near n) as H. split; [exact H|]. split.
  - intros c Hc. exact (around_members _ _ _ c H Hc).
  - intros. eapply (around_apart _ _ _ H); eauto.
Qed.
Print Assumptions C29_around.
(** The case: positions 0, 10, 1, 11, 3 and 4 on a line, less than 4 apart; 3 is near to 0 but 4 is not. *)
Definition case_positions : list nat := [0; 10; 1; 11; 3; 4].
Definition case_near (a b : list nat) : bool :=
  let x := nth (hd 0 a) case_positions 0 in let y := nth (hd 0 b) case_positions 0 in (x - y) + (y - x) <? 4.
Example C29_case : group case_near 6 = [[0; 2; 4]; [1; 3]; [5]].
Proof. reflexivity. Qed.
(** Two clusters may be nearer to each other than the maximum: it is not a single-linkage clustering, and not one by centroids *)
Example C29_case_near : case_near [4] [5] = true.
Proof. reflexivity. Qed.

(** * C60: patches of clusters *)

(** The patches have all components, each one once; the numbers in their names are different ones, and each has the name of
    one of the patches of its components. *)
Theorem C60_components : forall C N (ra dec : C -> Qc) near (patches : list (N * list C)),
  exists out, cluster_sources ra dec near patches = map Some out /\
  Permutation (concat (map (fun p => snd (fst p)) out)) (flat_map snd patches) /\
  (forall k p, nth_error out k = Some p -> snd (fst (fst p)) = k) /\
  Forall (fun p => exists c cs, snd (fst p) = c :: cs /\ exists q, In q patches /\ fst q = fst (fst (fst p)) /\ In c (snd q)) out.
Proof.
  intros C N ra dec near patches. unfold cluster_sources. set (all := sources patches). set (n := length all).
  pose proof (C29_partition near n) as [P NE]. set (cl := group near n) in *.
  assert (In_all : forall c, In c cl -> Forall (fun i => i < n) c).
  { intros c Hc. apply Forall_forall. intros i Hi. assert (I : In i (seq 0 n)).
    { eapply Permutation_in; [exact P|]. apply in_concat. eauto. } apply in_seq in I. lia. }
  set (found := fun c => flat_map (fun i => match nth_error all i with Some c => [c] | None => [] end) c).
  assert (F : forall c, Forall (fun i => i < n) c -> length (found c) = length c).
  { induction c as [|i c IH]; intros H; cbn; auto. inversion H; subst. destruct (nth_error all i) eqn:E.
    - cbn. now rewrite <- IH.
    - apply nth_error_None in E. lia. }
  assert (K : forall l s, (forall c, In c l -> c <> [] /\ Forall (fun i => i < n) c) -> exists out,
     map (fun k => make_patch ra dec all k (nth (k - s) l [])) (seq s (length l)) = map Some out /\
     map (fun p => snd (fst p)) out = map (fun c => map snd (found c)) l /\
     (forall k p, nth_error out k = Some p -> snd (fst (fst p)) = s + k) /\
     Forall (fun p => exists c cs, snd (fst p) = c :: cs /\ exists q, In q patches /\ fst q = fst (fst (fst p)) /\ In c (snd q)) out).
  { induction l as [|c l IH]; intros s H.
    - exists []. cbn. repeat split; auto. now intros [|].
    - destruct (IH (S s)) as (out & O1 & O2 & O3 & O4). { intros c' Hc'. apply H. now right. }
      destruct (H c (or_introl eq_refl)) as [Hne Hin]. pose proof (F c Hin) as L.
      cbn [length seq map]. rewrite Nat.sub_diag. change (nth 0 (c :: l) []) with c.
      assert (M : map (fun k => make_patch ra dec all k (nth (k - s) (c :: l) [])) (seq (S s) (length l)) = map Some out).
      { rewrite <- O1. apply map_ext_in. intros k Hk. apply in_seq in Hk. replace (k - s) with (S (k - S s)) by lia. reflexivity. }
      rewrite M. unfold make_patch. fold (found c). destruct (found c) as [|x xs] eqn:E.
      { destruct c; [contradiction|discriminate]. }
      eexists (_ :: out). split; [reflexivity|]. cbn [map fst snd]. split; [now rewrite O2, ?E|]. split.
      + intros [|k] p Hk; cbn [nth_error] in Hk; [injection Hk as <-; cbn; lia|]. apply O3 in Hk. lia.
      + constructor; auto. cbn [fst snd]. exists (snd x), (map snd xs). split; auto.
        assert (X : In x all).
        { assert (I : In x (found c)) by (rewrite E; now left). unfold found in I. apply in_flat_map in I as (i & _ & I).
          destruct (nth_error all i) eqn:Ei; [|contradiction]. destruct I as [<-|[]]. now apply nth_error_In in Ei. }
        unfold all, sources in X. apply in_flat_map in X as (q & Hq & X). apply in_map_iff in X as (d & <- & X). exists q. auto. }
  destruct (K cl 0) as (out & O1 & O2 & O3 & O4).
  { intros c Hc. split; auto. rewrite Forall_forall in NE. auto. }
  exists out. split. { rewrite <- O1. apply map_ext. intros k. now rewrite Nat.sub_0_r. }
  split; [|auto]. rewrite O2.
  assert (Q : concat (map (fun c => map snd (found c)) cl) = map snd (found (concat cl))).
  { unfold found. clear. induction cl as [|c l IH]; cbn; auto. rewrite flat_map_app, map_app. now f_equal. }
  rewrite Q. assert (R : map snd all = flat_map snd patches).
  { unfold all, sources. clear. induction patches as [|[a l] p IH]; cbn; auto. rewrite map_app, map_map, IH. cbn. now rewrite map_id. }
  rewrite <- R. apply Permutation_map. unfold found. rewrite P. unfold n. clear.
  assert (G : forall (l pre : list (N * C)), flat_map (fun i => match nth_error (pre ++ l) i with Some c => [c] | None => [] end) (seq (length pre) (length l)) = l).
  { induction l as [|x l IH]; intros pre; cbn [length seq flat_map]; auto. rewrite nth_error_app2, Nat.sub_diag by auto. cbn [nth_error app].
    f_equal. specialize (IH (pre ++ [x])). rewrite <- app_assoc, app_length in IH. cbn [length app] in IH. now rewrite Nat.add_1_r in IH. }
  pose proof (G all []) as H. cbn [app length] in H. now rewrite H.
Qed.
Print Assumptions C60_components.
Definition q (z : Z) : Qc := Q2Qc (inject_Z z).
Example C60_case :
  map (option_map (fun p => (fst p, this (fst (snd p)))))
    (cluster_sources (fun c : Z => q c) (fun _ => 0%Qc) case_near [(1, [0; 10; 1]%Z); (2, [11; 3; 4]%Z)]) =
  [Some (1, 0, [0; 1; 3]%Z, (4 # 3)%Q); Some (1, 1, [10; 11]%Z, (21 # 2)%Q); Some (2, 2, [4]%Z, (4 # 1)%Q)].
Proof. vm_compute. reflexivity. Qed.

(** The direction of a patch is the mean of the coordinates, also over the border of right ascension.  Here the components are at
    359 and 1 degrees, which is two degrees apart, and the direction of their patch is at 180 degrees. *)
Definition turn_distance (a b : Z) : Z := let d := Z.abs (a - b) in Z.min d (360 - d).
Definition case_border : list (nat * list Z) := [(0, [359; 1]%Z)].
Theorem C60_direction_refuted : exists (patches : list (nat * list Z)) name k comps ra dec,
  let near a b := (turn_distance (nth (hd 0%nat a) (flat_map snd patches) 0) (nth (hd 0%nat b) (flat_map snd patches) 0) <? 3)%Z in
  In (Some (name, k, comps, (ra, dec))) (cluster_sources (fun c : Z => q c) (fun _ => 0%Qc) near patches) /\
  exists r, ra = q r /\ Forall (fun c => (179 <= turn_distance r c)%Z) comps /\
            forall c d, In c comps -> In d comps -> (turn_distance c d < 3)%Z.
Proof.
  exists case_border, 0, 0, [359; 1]%Z, (q 180), (q 0). cbv zeta. split.
  - assert (E : cluster_sources (fun c : Z => q c) (fun _ => 0%Qc)
      (fun a b => (turn_distance (nth (hd 0%nat a) (flat_map snd case_border) 0) (nth (hd 0%nat b) (flat_map snd case_border) 0) <? 3)%Z) case_border
      = [Some (0%nat, 0%nat, [359; 1]%Z, ((q 359 + (q 1 + 0)) / qn 2, (0 + (0 + 0)) / qn 2))%Qc]) by reflexivity.
    rewrite E. left. do 2 f_equal. f_equal; apply qc_eq; vm_compute; reflexivity.
  - exists 180%Z. split; auto. split; [repeat constructor; vm_compute; discriminate|]. intros c d Hc Hd. cbn in Hc, Hd.
    destruct Hc as [<-|[<-|[]]], Hd as [<-|[<-|[]]]; reflexivity.
Qed.
Print Assumptions C60_direction_refuted.
