(** Properties C24 and C25: the map of parameters. *)
From Coq Require Import List Bool Arith ZArith Ascii String Lia.
From Verif Require Import StrModel ParsetModel ParsetSpec ParsetProofs.
Import ListNotations.
Open Scope nat_scope.

Notation str x := (list_ascii_of_string x).

(** ** C24 *)
(** After any history a key has at most one value, and a lookup finds it. *)
Theorem C24_lookup : forall V md (h : list (op V)) k v,
  functional md (pmap (exec V md h)) /\
  (fst (find_kv V md k (exec V md h)) = Some v <-> gives md (pmap (exec V md h)) k v) /\
  (is_defined V md k (exec V md h) = true <-> has md (pmap (exec V md h)) k).
Proof.
  intros V md h k v. pose proof (exec_sorted md h) as H. split; [now apply sorted_functional|].
  unfold find_kv, is_defined, has. pose proof (find_none md k _ H) as Fn. destruct (find V md k (pmap (exec V md h))) as [[k0 v0]|] eqn:E.
  - apply find_some in E as [E1 E2]; auto. split; [|split; auto; intros _; exists v0; apply gives_iff; eauto]. cbn. split.
    + intros [= ->]. apply gives_iff. eauto.
    + intros G. apply gives_iff in G as (k1 & Hin & E). f_equal. assert ((k0, v0) = (k1, v)) by (apply (sorted_unique md _ H); auto; cbn; congruence). congruence.
  - pose proof (proj1 Fn eq_refl) as F. cbn. split; split; try discriminate.
    + intros G. apply gives_iff in G as (k1 & Hin & E1). exfalso. now apply (F _ Hin).
    + intros (w & G). apply gives_iff in G as (k1 & Hin & E1). exfalso. now apply (F _ Hin).
Qed.
Print Assumptions C24_lookup.

(** The subset of a prefix has exactly the keys starting with it, with the prefix replaced;
    the set itself keeps its bindings. *)
Theorem C24_subset : forall V md (h : list (op V)) base prefix,
  let s := exec V md h in let '(sub, s') := make_subset V md base prefix s in
  functional md sub /\ pmap s' = pmap s /\
  forall k v, In (k, v) sub <-> exists k0 r, In (k0, v) (pmap s) /\ prefixed md base k0 r /\ k = prefix ++ r.
Proof.
  intros V md h base prefix s. pose proof (make_subset_spec md base prefix s (exec_sorted md h)) as H. cbn zeta in H.
  destruct (make_subset V md base prefix s) as [sub s']. cbn [fst snd] in H. destruct H as (H1 & H2 & H3 & _).
  split; [now apply sorted_functional|]. split; [exact H2|]. intros k v. rewrite H3. cbn [fst snd]. split.
  - intros (k0 & Hin & P & ->). apply pref_prefixed in P as (r & P). exists k0, r. split; auto. split; auto. now rewrite (prefixed_rest md base k0 r P).
  - intros (k0 & r & Hin & P & ->). exists k0. split; auto. split; [apply pref_prefixed; eauto|]. now rewrite (prefixed_rest md base k0 r P).
Qed.
Print Assumptions C24_subset.

(** Subtracting it leaves exactly the other bindings. *)
Theorem C24_subtract : forall V md (h : list (op V)) p k v,
  In (k, v) (pmap (subtract_subset V md p (exec V md h))) <-> In (k, v) (pmap (exec V md h)) /\ ~ exists r, prefixed md p k r.
Proof.
  intros V md h p k v. destruct (subtract_spec md p (exec V md h) (exec_sorted md h)) as [_ H]. rewrite H. cbn [fst]. now rewrite pref_prefixed.
Qed.
Print Assumptions C24_subtract.

(** Adopting a collection overrides exactly its keys. *)
Theorem C24_adopt : forall V md (h : list (op V)) c prefix, functional md c ->
  forall k v, gives md (pmap (adopt_collection V md c prefix (exec V md h))) k v <->
    (exists k1, In (k1, v) c /\ same md (prefix ++ k1) k) \/
    ((forall k1 v1, In (k1, v1) c -> ~ same md (prefix ++ k1) k) /\ gives md (pmap (exec V md h)) k v).
Proof.
  intros V md h c prefix [D U] k v. cbn [adopt_collection with_map pmap]. rewrite adopt_gives; [|apply exec_sorted| |exact D].
  - split.
    + intros [(k1 & Hin & E)|[Hn G]]; [left; exists k1; split; auto; now apply same_nrm|]. right. split; auto.
      intros k1 v1 Hin X. apply same_nrm in X. exact (Hn _ Hin X).
    + intros [(k1 & Hin & E)|[Hn G]]; [left; exists k1; split; auto; now apply same_nrm|]. right. split; auto.
      intros [k1 v1] Hin X. apply (Hn k1 v1 Hin). now apply same_nrm.
  - intros [k1 v1] [k2 v2] H1 H2 E. apply U; auto. now apply same_nrm.
Qed.
Print Assumptions C24_adopt.

(** Single keys: replacing and merging give the key the new value, adding does so only for a new key, removing
    takes the key away; other keys keep what they have. *)
Theorem C24_updates : forall V md (h : list (op V)) k v k' v',
  let s := exec V md h in
  (gives md (pmap (replace V md k v s)) k' v' <-> (same md k k' /\ v' = v) \/ (~ same md k k' /\ gives md (pmap s) k' v')) /\
  (gives md (pmap (add_merge V md k v s)) k' v' <-> (same md k k' /\ v' = v) \/ (~ same md k k' /\ gives md (pmap s) k' v')) /\
  (gives md (pmap (add V md k v s)) k' v' <-> gives md (pmap s) k' v' \/ (same md k k' /\ v' = v /\ ~ has md (pmap s) k)) /\
  (gives md (pmap (remove V md k s)) k' v' <-> ~ same md k k' /\ gives md (pmap s) k' v').
Proof.
  intros V md h k v k' v' s. rewrite same_nrm. exact (updates_gives md s k v k' v' (exec_sorted md h)).
Qed.
Print Assumptions C24_updates.

Definition demo : list (op nat) :=
  [Add _ (str "b.x") 1; Add _ (str "B.y") 2; Add _ (str "a") 3; Merge _ (str "a") 4; Add _ (str "b") 5; Replace _ (str "b.X") 6; Add _ (str "c") 7; Remove _ (str "c")].

Example C24_case :
  pmap (exec nat NOCASE demo) = [(str "a", 4); (str "b", 5); (str "b.x", 6); (str "B.y", 2)] /\
  fst (make_subset nat NOCASE (str "B.") (str "q.") (exec nat NOCASE demo)) = [(str "q.x", 6); (str "q.y", 2)] /\
  pmap (subtract_subset nat NOCASE (str "B.") (exec nat NOCASE demo)) = [(str "a", 4); (str "b", 5)] /\
  pmap (exec nat NORMAL demo) = [(str "B.y", 2); (str "a", 4); (str "b", 5); (str "b.X", 6); (str "b.x", 1)] /\
  fst (make_subset nat NORMAL (str "b.") [] (exec nat NORMAL demo)) = [(str "X", 6); (str "x", 1)] /\
  pmap (adopt_collection nat NOCASE [(str "A", 8); (str "d", 9)] [] (exec nat NOCASE demo)) = [(str "a", 8); (str "b", 5); (str "b.x", 6); (str "B.y", 2); (str "d", 9)].
Proof. vm_compute. repeat split. Qed.

(** ** C25 *)
(** A key is reported exactly if it is present and no call so far asked for it as spelled while
    it was present, directly or by taking a subset. *)
Theorem C25_unused : forall V md (h : list (op V)) k,
  In k (unused_keys V (exec V md h)) <->
    (exists v, In (k, v) (pmap (exec V md h))) /\
    ~ (exists h1 h2, h = h1 ++ Get V k :: h2 /\ has md (pmap (exec V md h1)) k) /\
    ~ (exists h1 h2 base p r, h = h1 ++ Subset V base p :: h2 /\ (exists v, In (k, v) (pmap (exec V md h1))) /\ prefixed md base k r).
Proof.
  intros V md h k. rewrite unused_iff, asked_history. unfold event. split.
  - intros [Hp Hn]. split; auto. split.
    + intros (h1 & h2 & E & Hh). apply Hn. exists h1, (Get V k), h2. split; auto.
    + intros (h1 & h2 & b & p & r & E & Hv & P). apply Hn. exists h1, (Subset V b p), h2. split; auto. right. exists b, p. split; auto. split; eauto.
  - intros (Hp & N1 & N2). split; auto. intros (h1 & o & h2 & E & [[-> Hh]|(b & p & -> & Hv & r & P)]).
    + apply N1. eauto.
    + apply N2. exists h1, h2, b, p, r. auto.
Qed.
Print Assumptions C25_unused.

(** In a case-sensitive set that is: the key was never successfully looked up. *)
Theorem C25_normal : forall V (h : list (op V)) k,
  In k (unused_keys V (exec V NORMAL h)) <->
    (exists v, In (k, v) (pmap (exec V NORMAL h))) /\
    ~ (exists h1 h2 v, h = h1 ++ Get V k :: h2 /\ In (k, v) (pmap (exec V NORMAL h1))) /\
    ~ (exists h1 h2 base p r v, h = h1 ++ Subset V base p :: h2 /\ In (k, v) (pmap (exec V NORMAL h1)) /\ k = base ++ r).
Proof.
  intros V h k. rewrite C25_unused. unfold has, gives, prefixed. cbn [same]. split; intros (H & N1 & N2); (split; [exact H|]); split.
  - intros (h1 & h2 & v & E & Hin). apply N1. exists h1, h2. split; auto. exists v, k. auto.
  - intros (h1 & h2 & b & p & r & v & E & Hin & Ek). apply N2. exists h1, h2, b, p, r. split; auto. split; [eauto|]. exists b. auto.
  - intros (h1 & h2 & E & v & k0 & Hin & ->). apply N1. eauto.
  - intros (h1 & h2 & b & p & r & E & (v & Hin) & p' & Ek & <-). apply N2. exists h1, h2, b, p, r, v. auto.
Qed.
Print Assumptions C25_normal.

Example C25_case : unused_keys nat (exec nat NORMAL (demo ++ [Get _ (str "b.x"); Subset _ (str "B") []; Get _ (str "zz"); IsDefined _ (str "a")]))
  = [str "a"; str "b"; str "b.X"].
Proof. reflexivity. Qed.

(** Finding: in a case-insensitive set a key that was looked up in another spelling is still reported as unused. *)
Theorem C25_nocase_refuted : exists (h1 : list (op nat)) k k',
  fst (find_kv nat NOCASE k' (exec nat NOCASE h1)) = Some 1 /\ same NOCASE k k' /\
  In k (unused_keys nat (exec nat NOCASE (h1 ++ [Get nat k']))).
Proof.
  exists [Add nat (str "Msin") 1], (str "Msin"), (str "msin"). split; [reflexivity|]. split; [apply same_nrm; reflexivity|]. left. reflexivity.
Qed.
Print Assumptions C25_nocase_refuted.
