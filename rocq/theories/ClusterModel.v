(** Model of common/ProximityClustering.cc and of the patches that sky_model/SkyModelFunctions.cc makes with it. *)
From Coq Require Import QArith Qcanon List Bool Arith ZArith.
From Verif Require Import QcUtil InfoModel.
Import ListNotations.
Open Scope nat_scope.

Section Cluster.
(** common/ProximityClustering.cc:40-46,55 (ClusterDistance, Centroid): whether the distance of two clusters is less than the
    maximum.  The mean position and the angular distance are from a library; any function of the two clusters. *)
Variable near : list nat -> list nat -> bool.

(** common/ProximityClustering.cc:54-61: the later clusters; [c] is the cluster at [i] before the loop *)
Fixpoint group_loop (i : nat) (c : list nat) (rest new_clusters : list (list nat)) : list (list nat) :=
  match rest with
  | [] => new_clusters
  | d :: rest =>
    if near c d then group_loop i c rest (set_nth new_clusters i (nth i new_clusters [] ++ d))
    else group_loop i c rest (new_clusters ++ [d])
  end.
(** common/ProximityClustering.cc:48-64 (GroupSource) *)
Definition group_source (i : nat) (clusters : list (list nat)) : list (list nat) :=
  group_loop i (nth i clusters []) (skipn (i + 1) clusters) (firstn (i + 1) clusters).
(** common/ProximityClustering.cc:73-78: the loop over the clusters, of which the number goes down *)
Fixpoint group_all (fuel i : nat) (clusters : list (list nat)) : list (list nat) :=
  match fuel with
  | O => clusters
  | S fuel => if i <? length clusters then group_all fuel (i + 1) (group_source i clusters) else clusters
  end.
(** common/ProximityClustering.cc:66-80 (Group): for [n] positions *)
Definition group (n : nat) : list (list nat) := group_all (n + 1) 0 (map (fun i => [i]) (seq 0 n)).
End Cluster.

Section Patches.
(** Components of a sky model, with right ascension and declination (as exact numbers), and names *)
Variables (C N : Type) (ra dec : C -> Qc).
(** sky_model/SkyModelFunctions.cc:178-189: all components, and the patch that each one is in *)
Definition sources (patches : list (N * list C)) : list (N * C) := flat_map (fun p => map (fun c => (fst p, c)) (snd p)) patches.
(** sky_model/SkyModelFunctions.cc:195-217: a patch: the name of the patch of its first component and its number, its components
    and its direction *)
Definition make_patch (all : list (N * C)) (k : nat) (members : list nat) : option (N * nat * list C * (Qc * Qc)) :=
  let found := flat_map (fun i => match nth_error all i with Some c => [c] | None => [] end) members in
  match found with
  | [] => None
  | first :: _ =>
    let comps := map snd found in
    let mean (f : C -> Qc) := (qsum (map f comps) / qn (length members))%Qc in
    Some (fst first, k, comps, (mean ra, mean dec))
  end.
(** sky_model/SkyModelFunctions.cc:172-220 (clusterProximateSources); the clusters are not empty, so that there is always a first
    component ([None] otherwise) *)
Definition cluster_sources (near : list nat -> list nat -> bool) (patches : list (N * list C)) : list (option (N * nat * list C * (Qc * Qc))) :=
  let all := sources patches in
  let clusters := group near (length all) in
  map (fun k => make_patch all k (nth k clusters [])) (seq 0 (length clusters)).
End Patches.
Arguments sources {C N}. Arguments make_patch {C N}. Arguments cluster_sources {C N}.
