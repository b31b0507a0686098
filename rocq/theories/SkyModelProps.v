(** C106: the patches and sources of a sky model. *)
From Coq Require Import Qcanon List Arith Bool ZArith Lia.
From Verif Require Import QcUtil AverageModel GainModel SkyModelModel SkyModelSpec.
Import ListNotations.
Open Scope nat_scope.

Lemma lookup_assign m k v n : lookup (assign m k v) n = if n =? k then Some v else lookup m n.
Proof.
  induction m as [|[a w] m IH]; cbn [assign lookup]; [reflexivity|].
  destruct (Nat.eqb_spec k a) as [->|N]; cbn [lookup].
  - destruct (n =? a); reflexivity.
  - destruct (k <? a); cbn [lookup]; [reflexivity|]. rewrite IH. destruct (Nat.eqb_spec n a) as [->|]; [|reflexivity].
    destruct (Nat.eqb_spec a k) as [->|]; [congruence | reflexivity].
Qed.

Lemma assign_keys m k v n : In n (map fst (assign m k v)) <-> n = k \/ In n (map fst m).
Proof.
  induction m as [|[a w] m IH]; cbn [assign map In fst]; [intuition|].
  destruct (Nat.eqb_spec k a) as [->|N]; cbn [map In fst]; [intuition|]. destruct (k <? a); cbn [map In fst]; [intuition|]. rewrite IH. intuition.
Qed.

Lemma assign_increasing m k v : increasing (map fst m) -> increasing (map fst (assign m k v)).
Proof.
  induction m as [|[a w] m IH]; cbn [assign map fst increasing]; [intros _; split; [intros b [] | exact I]|]. intros [A B].
  destruct (Nat.eqb_spec k a) as [->|N]; [cbn [map fst increasing]; auto|]. destruct (Nat.ltb_spec k a) as [L|L]; cbn [map fst increasing].
  - split; [|auto]. intros b [<-|Hb]; [exact L|]. specialize (A b Hb). lia.
  - split; [|auto]. intros b Hb. apply assign_keys in Hb. destruct Hb as [->|Hb]; [lia | auto].
Qed.

Lemma lookup_keys m n : In n (map fst m) <-> exists v, lookup m n = Some v.
Proof.
  induction m as [|[a w] m IH]; cbn [lookup map In fst]; [split; [intros [] | intros [v H]; discriminate]|].
  destruct (Nat.eqb_spec n a) as [->|N]; [split; eauto|]. rewrite <- IH. intuition congruence.
Qed.

Lemma change_names l f : (forall p, p_name (f p) = p_name p) -> forall i, map p_name (change l i f) = map p_name l.
Proof. intros H. induction l as [|p l IH]; intros [|i]; cbn; try reflexivity; [now rewrite H | now rewrite IH]. Qed.

Lemma change_nth l f : forall i j, nth_error (change l i f) j = if j =? i then option_map f (nth_error l j) else nth_error l j.
Proof.
  induction l as [|p l IH]; intros [|i] [|j]; cbn [change nth_error option_map Nat.eqb]; try reflexivity; [destruct (j =? i); reflexivity | apply IH].
Qed.

(** The number of a name is that of the last patch with it. *)
Definition indexed (m : sky) : Prop := increasing (map fst (lut m)) /\
  forall n, match lookup (lut m) n with
            | Some i => nth_error (map p_name (patches m)) i = Some n /\ forall j, i < j -> nth_error (map p_name (patches m)) j <> Some n
            | None => ~ In n (map p_name (patches m))
            end.

Lemma add_patch_indexed m p c : indexed m -> indexed (fst (add_patch m p c)).
Proof.
  intros [I H]. unfold add_patch. destruct (c && _); [exact (conj I H)|]. cbn [fst]. split; cbn [lut patches]; [now apply assign_increasing|].
  intros n. rewrite lookup_assign, map_app. cbn [map]. set (L := map p_name (patches m)) in *. assert (E : length (patches m) = length L) by (unfold L; now rewrite map_length).
  destruct (Nat.eqb_spec n (p_name p)) as [->|N].
  - rewrite E. split; [now rewrite nth_error_app2, Nat.sub_diag by lia|]. intros j Hj. rewrite (proj2 (nth_error_None _ _)); [discriminate|]. rewrite app_length. cbn. lia.
  - specialize (H n). destruct (lookup (lut m) n) as [i|].
    + destruct H as [A B]. assert (i < length L) by (apply nth_error_Some; congruence). split; [now rewrite nth_error_app1 by lia|]. intros j Hj.
      destruct (Nat.lt_ge_cases j (length L)) as [K|K]; [rewrite nth_error_app1 by lia; now apply B|]. rewrite nth_error_app2 by lia.
      destruct (j - length L) as [|[|q]]; cbn; congruence.
    + rewrite in_app_iff. intros [K|[K|[]]]; [auto | congruence].
Qed.

Lemma step_indexed m o : indexed m -> indexed (fst (step m o)).
Proof.
  intros H. destruct o as [p c|s c|s k f c|i f r d]; cbn [step].
  - now apply add_patch_indexed.
  - unfold add_source. destruct (c && _); [exact H|]. exact H.
  - unfold add_source_patch. destruct (c && _); [exact H|]. destruct (c && _); [exact H|].
    pose proof (add_patch_indexed m (Patch (s_patch s) (s_ra s) (s_dec s) k f) false H) as K. destruct (add_patch m _ false) as [m' b]. exact K.
  - unfold update_patch. destruct (i <? _); [|exact H]. destruct H as [I H]. split; cbn [fst lut patches]; [exact I|]. now rewrite change_names by reflexivity.
Qed.

Lemma after_snoc l o : after (l ++ [o]) = fst (step (after l) o).
Proof. unfold after. now rewrite fold_left_app. Qed.

Lemma after_indexed l : indexed (after l).
Proof.
  induction l as [|o l IH] using rev_ind; [split; [exact I | intros n [] ]|]. rewrite after_snoc. now apply step_indexed.
Qed.

Lemma last_named_index (l : list patch) i p n : nth_error l i = Some p -> nth_error (map p_name l) i = Some n -> (forall j, i < j -> nth_error (map p_name l) j <> Some n) -> last_named p_name l n p.
Proof.
  intros A B C. destruct (nth_error_split _ _ A) as (b & e & -> & L). exists b, e. split; [reflexivity|]. rewrite (map_nth_error p_name _ _ A) in B. injection B as B. split; [exact B|].
  intros q Hq E. apply In_nth_error in Hq. destruct Hq as [k Hk]. apply (C (i + S k)); [lia|]. subst i. rewrite map_app, nth_error_app2 by (rewrite map_length; lia).
  rewrite map_length. replace (length b + S k - length b) with (S k) by lia. cbn [map nth_error]. rewrite (map_nth_error p_name _ _ Hk). now rewrite E.
Qed.

(** C106: after any calls, a patch is found by its name: the last one that was added with this name, with its last position; for another name there is an exception. *)
Theorem C106_patch l n : match get_patch (after l) n with
  | Ok p => last_named p_name (patches (after l)) n p
  | Throw => forall p, In p (patches (after l)) -> p_name p <> n
  | Undefined => False
  end.
Proof.
  destruct (after_indexed l) as [_ H]. specialize (H n). unfold get_patch. destruct (lookup (lut (after l)) n) as [i|].
  - destruct H as [A B]. unfold get. destruct (nth_error (patches (after l)) i) as [p|] eqn:E; [exact (last_named_index _ _ _ _ E A B)|].
    apply nth_error_None in E. assert (i < length (map p_name (patches (after l)))) by (apply nth_error_Some; congruence). rewrite map_length in *. lia.
  - intros p Hp E. apply H. rewrite <- E. now apply in_map.
Qed.

(** C106: the names of the patches are given in order, every name once; a pattern selects from them in the same order. *)
Theorem C106_names l : increasing (patch_names (after l)) /\ (forall n, In n (patch_names (after l)) <-> exists p, In p (patches (after l)) /\ p_name p = n) /\
  forall pattern, increasing (find_patches (after l) pattern) /\ forall n, In n (find_patches (after l) pattern) <-> In n (patch_names (after l)) /\ pattern n = true.
Proof.
  destruct (after_indexed l) as [I H]. split; [exact I|]. split.
  - intros n. unfold patch_names. rewrite lookup_keys. specialize (H n). destruct (lookup (lut (after l)) n) as [i|].
    + split; [intros _ | eauto]. destruct H as [A _]. apply nth_error_In in A. apply in_map_iff in A. destruct A as (p & E & K). eauto.
    + split; [intros [v K]; discriminate|]. intros (p & K & E). exfalso. apply H. rewrite <- E. now apply in_map.
  - intros pattern. split; [|intros n; apply filter_In]. unfold find_patches. fold (patch_names (after l)) in I. revert I. generalize (patch_names (after l)). clear.
    induction l as [|a l IH]; [auto|]. cbn [increasing filter]. intros [A B]. destruct (pattern a); [|auto]. split; [|auto]. intros b Hb. apply filter_In in Hb. apply A. tauto.
Qed.

(** Whether a call checks for existing names *)
Definition checked (o : operation) : Prop := match o with AddPatch _ c | AddSource _ c | AddSourcePatch _ _ _ c => c = true | UpdatePatch _ _ _ _ => True end.

Lemma new_patch_spec m n : indexed m -> new_patch m n = true <-> ~ In n (map p_name (patches m)).
Proof.
  intros [_ H]. specialize (H n). unfold new_patch. destruct (lookup (lut m) n) as [i|]; [|tauto]. destruct H as [A _]. apply nth_error_In in A. split; [discriminate | contradiction].
Qed.

Lemma unique_source_spec m n : unique_source m n = true <-> ~ In n (map s_name (sources m)).
Proof.
  unfold unique_source. rewrite negb_true_iff. split.
  - intros H K. apply in_map_iff in K. destruct K as (s & E & K). assert (existsb (fun s => s_name s =? n) (sources m) = true) by (apply existsb_exists; exists s; split; [exact K | now apply Nat.eqb_eq]). congruence.
  - intros H. destruct (existsb _ _) eqn:E; [|reflexivity]. apply existsb_exists in E. destruct E as (s & K & E). apply Nat.eqb_eq in E. exfalso. apply H. rewrite <- E. now apply in_map.
Qed.

Lemma nodup_snoc {T} (l : list T) a : NoDup l -> ~ In a l -> NoDup (l ++ [a]).
Proof. intros H K. rewrite <- (rev_involutive (l ++ [a])), rev_app_distr. apply NoDup_rev. cbn. constructor; [now rewrite <- in_rev | now apply NoDup_rev]. Qed.

Lemma checked_unique l : Forall checked l -> NoDup (map p_name (patches (after l))) /\ NoDup (map s_name (sources (after l))).
Proof.
  induction l as [|o l IH] using rev_ind; [split; constructor|]. intros F. apply Forall_app in F. destruct F as [F G]. inversion G as [|? ? C _]; subst. destruct (IH F) as [P S]. clear IH F G.
  pose proof (after_indexed l) as I. rewrite after_snoc. destruct o as [p c|s c|s k f c|i f r d]; cbn [step checked] in *; subst.
  - unfold add_patch. cbn [andb]. destruct (new_patch _ _) eqn:Q; cbn [negb fst patches sources]; [|auto]. apply new_patch_spec in Q; [|exact I]. rewrite map_app. split; [now apply nodup_snoc | exact S].
  - unfold add_source. cbn [andb]. destruct (unique_source _ _) eqn:Q; cbn [negb fst patches sources]; [|auto]. apply unique_source_spec in Q. rewrite map_app. split; [exact P | now apply nodup_snoc].
  - unfold add_source_patch. cbn [andb]. destruct (unique_source _ _) eqn:Q; cbn [negb fst]; [|auto]. destruct (new_patch _ _) eqn:R; cbn [negb fst]; [|auto].
    apply unique_source_spec in Q. apply new_patch_spec in R; [|exact I]. unfold add_patch, add_source. cbn [andb fst patches sources]. rewrite !map_app. split; now apply nodup_snoc.
  - unfold update_patch. destruct (i <? _); cbn [fst patches sources]; [|auto]. now rewrite change_names by reflexivity.
Qed.

(** C106: if calls check for existing names, every name is that of one patch and of one source at most, every patch is found by its name, and as many names are given as there are patches. *)
Theorem C106_checked l : Forall checked l ->
  NoDup (map p_name (patches (after l))) /\ NoDup (map s_name (sources (after l))) /\
  (forall p, In p (patches (after l)) -> get_patch (after l) (p_name p) = Ok p) /\ length (patch_names (after l)) = length (patches (after l)).
Proof.
  intros F. destruct (checked_unique l F) as [P S]. split; [exact P|]. split; [exact S|]. split.
  - intros p Hp. pose proof (C106_patch l (p_name p)) as H. destruct (get_patch (after l) (p_name p)) as [q| |]; [|destruct (H p Hp eq_refl)|destruct H].
    destruct H as (b & e & E & N & _). f_equal. rewrite E in P, Hp. rewrite map_app in P. cbn [map] in P. apply NoDup_remove_2 in P. rewrite <- map_app in P.
    apply in_app_iff in Hp. destruct Hp as [Hp|[<-|Hp]]; [|reflexivity|]; exfalso; apply P; rewrite N; apply in_map; apply in_app_iff; auto.
  - destruct (C106_names l) as (I & K & _). rewrite <- (map_length p_name (patches (after l))). apply Nat.le_antisymm; apply NoDup_incl_length.
    + clear - I. induction (patch_names (after l)) as [|a m IH]; [constructor|]. destruct I as [A B]. constructor; [intros H; specialize (A a H); lia | auto].
    + intros n Hn. apply K in Hn. destruct Hn as (p & Hp & <-). now apply in_map.
    + exact P.
    + intros n Hn. apply in_map_iff in Hn. destruct Hn as (p & E & Hp). apply K. eauto.
Qed.

(** C106: a call that checks is refused exactly if the name of the source or the patch that it adds exists; then nothing has changed. *)
Theorem C106_refused l s p k f :
  (snd (step (after l) (AddPatch p true)) = true <-> ~ In (p_name p) (map p_name (patches (after l)))) /\
  (snd (step (after l) (AddSource s true)) = true <-> ~ In (s_name s) (map s_name (sources (after l)))) /\
  (snd (step (after l) (AddSourcePatch s k f true)) = true <-> ~ In (s_name s) (map s_name (sources (after l))) /\ ~ In (s_patch s) (map p_name (patches (after l)))) /\
  forall o, snd (step (after l) o) = false -> fst (step (after l) o) = after l.
Proof.
  pose proof (after_indexed l) as I. rewrite <- !unique_source_spec, <- !new_patch_spec by exact I. cbn [step]. unfold add_source_patch, add_patch, add_source. cbn [andb].
  split; [destruct (new_patch _ _); cbn; intuition congruence|]. split; [destruct (unique_source _ _); cbn; intuition congruence|].
  split; [destruct (unique_source _ _), (new_patch _ _); cbn; intuition congruence|].
  intros [q c|t c|t j g c|i g r d]; cbn [step]; unfold add_source_patch, add_patch, add_source, update_patch; cbn [andb].
  - destruct (c && _); [reflexivity | discriminate].
  - destruct (c && _); [reflexivity | discriminate].
  - destruct (c && _); [reflexivity|]. destruct (c && _); [reflexivity | discriminate].
  - destruct (i <? _); [discriminate | reflexivity].
Qed.

(** C106: what is added is at the end, and updating a patch changes only the position and brightness of that patch. *)
Theorem C106_changes l :
  (forall p c m, step (after l) (AddPatch p c) = (m, true) -> patches m = patches (after l) ++ [p] /\ sources m = sources (after l) /\ get_patch m (p_name p) = Ok p) /\
  (forall s c m, step (after l) (AddSource s c) = (m, true) -> patches m = patches (after l) /\ sources m = sources (after l) ++ [s]) /\
  (forall s k f c m, step (after l) (AddSourcePatch s k f c) = (m, true) -> patches m = patches (after l) ++ [Patch (s_patch s) (s_ra s) (s_dec s) k f] /\ sources m = sources (after l) ++ [s]) /\
  (forall i f r d m, step (after l) (UpdatePatch i f r d) = (m, true) -> sources m = sources (after l) /\ patch_names m = patch_names (after l) /\
    exists p, nth_error (patches (after l)) i = Some p /\ nth_error (patches m) i = Some (Patch (p_name p) r d (p_category p) f) /\
    forall j, j <> i -> nth_error (patches m) j = nth_error (patches (after l)) j).
Proof.
  cbn [step]. unfold add_source_patch, add_patch, add_source, update_patch. cbn [andb]. repeat split.
  1-3: revert H; destruct (c && _); [discriminate|]; intros [= <-]; cbn [patches sources]; try reflexivity.
  { unfold get_patch. cbn [lut patches]. rewrite lookup_assign, Nat.eqb_refl. unfold get. now rewrite nth_error_app2, Nat.sub_diag by lia. }
  1-2: revert H; destruct (c && _); [discriminate|]; intros [= <-]; reflexivity.
  1-2: revert H; destruct (c && _); [discriminate|]; destruct (c && _); [discriminate|]; intros [= <-]; reflexivity.
  1-3: revert H; destruct (Nat.ltb_spec i (length (patches (after l)))) as [L|]; [|discriminate]; intros [= <-]; try reflexivity.
  destruct (nth_error (patches (after l)) i) as [p|] eqn:E; [|apply nth_error_None in E; lia]. exists p. split; [reflexivity|]. cbn [patches]. split.
  - now rewrite change_nth, Nat.eqb_refl, E.
  - intros j Hj. rewrite change_nth. now apply Nat.eqb_neq in Hj as ->.
Qed.

(** Two patches with the same name *)
Definition patch_a : patch := Patch 7 0%Qc 0%Qc 2%Z 1%Qc.
Definition patch_b : patch := Patch 7 1%Qc 0%Qc 2%Z 1%Qc.

(** C106, a finding: without the check, a patch with an existing name is added; the patch before remains in the list of patches but is not found by its name any more. *)
Theorem C106_unchecked_refuted : exists l p, In p (patches (after l)) /\ get_patch (after l) (p_name p) <> Ok p /\ length (patch_names (after l)) < length (patches (after l)).
Proof. exists [AddPatch patch_a false; AddPatch patch_b false], patch_a. split; [now left|]. split; [discriminate | cbn; lia]. Qed.

(** C106, a finding: a source can be added to a patch that does not exist, also with the check. *)
Theorem C106_source_refuted : exists l s, Forall checked l /\ In s (sources (after l)) /\ get_patch (after l) (s_patch s) = Throw.
Proof. exists [AddSource (Source 1 7 0%Qc 0%Qc) true], (Source 1 7 0%Qc 0%Qc). split; [repeat constructor|]. split; [now left | reflexivity]. Qed.

(** Patches 7 and 3 and a source with patch 5; the second patch 7 is refused; the names are in order. *)
Definition calls : list operation := [AddPatch patch_a true; AddPatch (Patch 3 0%Qc 0%Qc 2%Z 1%Qc) true; AddPatch patch_b true; AddSourcePatch (Source 1 5 0%Qc 1%Qc) 2%Z 1%Qc true; AddSource (Source 2 7 0%Qc 1%Qc) true; UpdatePatch 0 0%Qc 1%Qc 1%Qc].
Example calls_checked : Forall checked calls.
Proof. repeat constructor. Qed.
Example calls_result : patch_names (after calls) = [3; 5; 7] /\ map p_name (patches (after calls)) = [7; 3; 5] /\ get_patch (after calls) 7 = Ok (Patch 7 1%Qc 1%Qc 2%Z 0%Qc) /\
  get_patch (after calls) 4 = Throw /\ find_patches (after calls) (Nat.leb 4) = [5; 7] /\ length (sources (after calls)) = 2.
Proof. repeat split; reflexivity. Qed.

Print Assumptions C106_patch.
Print Assumptions C106_names.
Print Assumptions C106_checked.
Print Assumptions C106_refused.
Print Assumptions C106_changes.
Print Assumptions C106_unchecked_refuted.
Print Assumptions C106_source_refuted.
