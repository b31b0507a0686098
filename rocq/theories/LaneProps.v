(** Properties of the queues between threads (common/buffered_lane.h). *)
From Coq Require Import List Bool Arith Lia Permutation.
From Verif Require Import InfoModel InfoProofs LaneModel LaneSpec.
Import ListNotations.

(** * C31 *)

Lemma sublist_refl {A} (l : list A) : sublist l l.
Proof. induction l; constructor; auto. Qed.
Lemma sublist_app {A} (a b c d : list A) : sublist a b -> sublist c d -> sublist (a ++ c) (b ++ d).
Proof. induction 1; intros; cbn; auto; constructor; auto. Qed.
Lemma sublist_trans {A} (b c : list A) : sublist b c -> forall a, sublist a b -> sublist a c.
Proof.
  induction 1 as [|x b c H IH|x b c H IH]; intros a Ha; auto.
  - inversion Ha; subst; constructor; auto.
  - constructor; auto.
Qed.
Lemma sublist_skipn {A} n (l : list A) : sublist (skipn n l) l.
Proof. revert n. induction l; intros [|n]; cbn; try constructor; auto using sublist_refl. Qed.

Lemma nth_error_Some' {X} (l : list X) k x : nth_error l k = Some x -> k < length l.
Proof. intros H. apply nth_error_Some. now rewrite H. Qed.

Section Lane.
Context {A : Type} (write_size read_size capacity : nat).
Notation step := (step write_size read_size capacity).
Notation run := (run write_size read_size capacity).

(** What reader [k] has read *)
Definition got (k : nat) (l : list (nat * A)) : list A := map snd (filter (fun p => fst p =? k) l).
(** What is on its way *)
Definition pending (s : state A) : list A := queue s ++ moving s ++ w_buffer s.

Lemma got_app k l m : got k (l ++ m) = got k l ++ got k m.
Proof. unfold got. now rewrite filter_app, map_app. Qed.

Lemma split_nth {X} (l : list X) k x : nth_error l k = Some x -> exists a b, l = a ++ x :: b /\ length a = k.
Proof. intros H. apply nth_error_split in H as (a & b & -> & L). eauto. Qed.
Lemma set_nth_split {X} (a b : list X) x y : set_nth (a ++ x :: b) (length a) y = a ++ y :: b.
Proof. induction a; cbn; auto. now f_equal. Qed.

(** Everything that was written is somewhere, once *)
Definition conserved (s : state A) : Prop := Permutation (map snd (received s) ++ concat (map fst (readers s)) ++ pending s) (sent s).
Lemma step_conserved s e : conserved s -> conserved (step s e).
Proof.
  unfold conserved, pending. destruct s as [wb mv en q cl rs se re]. intros H. destruct e as [x| | | |k]; cbn [step moving ending w_buffer queue closed readers sent received] in *.
  - destruct mv; auto. destruct en; auto. destruct (_ =? _); cbn; rewrite <- H; cbn; rewrite ?app_nil_r, <- !app_assoc; reflexivity.
  - destruct mv; auto. destruct en; auto. cbn. rewrite app_nil_r. exact H.
  - destruct mv as [|x mv]; auto. destruct (_ <? _); auto. cbn. rewrite <- app_assoc. exact H.
  - destruct mv; auto.
  - destruct (nth_error rs k) as [[[|x rest] [|]]|] eqn:E; auto.
    + apply split_nth in E as (a & b & -> & <-). destruct (firstn read_size q) as [|x rest] eqn:F.
      * destruct (_ || _); auto. cbn. rewrite set_nth_split. rewrite map_app in *. exact H.
      * cbn. rewrite set_nth_split, <- H. rewrite !map_app, !concat_app. cbn. rewrite <- (firstn_skipn read_size q) at 2. rewrite F.
        rewrite <- !app_assoc. cbn. apply Permutation_app_head. set (p := skipn read_size q ++ mv ++ wb).
        transitivity (concat (map fst a) ++ x :: rest ++ concat (map fst b) ++ p).
        { apply Permutation_middle. }
        apply Permutation_app_head. change (x :: rest ++ concat (map fst b) ++ p) with ((x :: rest) ++ concat (map fst b) ++ p).
        rewrite Permutation_app_swap_app. apply Permutation_app_head. unfold p. cbn. now rewrite <- ?app_assoc.
    + apply split_nth in E as (a & b & -> & <-). cbn. rewrite set_nth_split, <- H. rewrite !map_app, !concat_app. cbn. rewrite <- !app_assoc. cbn.
      apply Permutation_app_head. rewrite <- !app_assoc. apply Permutation_middle.
Qed.

(** Each element that is written is received by one reader or is still on its way. *)
Theorem C31_conserved : forall n (events : list (event A)), let s := run n events in
  Permutation (map snd (received s) ++ concat (map fst (readers s)) ++ pending s) (sent s).
Proof.
  intros n events. change (conserved (run n events)). unfold LaneModel.run.
  assert (G : forall events s, conserved s -> conserved (fold_left step events s)).
  { induction events0; intros s H; cbn; auto. apply IHevents0. now apply step_conserved. }
  apply G. unfold conserved, pending. cbn. induction n; cbn; auto.
Qed.

(** The end: nothing is on its way *)
Definition ended_ok (s : state A) : Prop :=
  (closed s = true -> ending s = true /\ moving s = []) /\ (ending s = true -> w_buffer s = []) /\
  Forall (fun r => snd r = true -> fst r = [] /\ closed s = true /\ queue s = []) (readers s).
Lemma step_ended s e : 0 < read_size -> ended_ok s -> ended_ok (step s e).
Proof.
  intros Hr (H1 & H2 & H3). unfold ended_ok. destruct s as [wb mv en q cl rs se re].
  destruct e as [x| | | |k]; cbn [step moving ending w_buffer queue closed readers sent received] in *.
  - destruct mv; auto. destruct en; auto. destruct cl; [destruct H1; auto; discriminate|]. destruct (_ =? _); cbn; repeat split; auto; discriminate.
  - destruct mv; auto. destruct en; auto. destruct cl; [destruct H1; auto; discriminate|]. cbn. repeat split; auto; discriminate.
  - destruct mv as [|x mv]; auto. destruct cl; [destruct H1; auto; discriminate|]. destruct (_ <? _); cbn; auto. repeat split; auto; try discriminate.
    eapply Forall_impl; [|exact H3]. cbn. intros r Hx E. destruct (Hx E) as (_ & X & _). discriminate.
  - destruct mv; auto. cbn. repeat split; auto. eapply Forall_impl; [|exact H3]. cbn. intros r Hx E. destruct (Hx E) as (X1 & X2 & X3). destruct (H1 X2). auto.
  - destruct (nth_error rs k) as [[[|x rest] [|]]|] eqn:E; auto.
    + apply split_nth in E as (a & b & -> & <-). apply Forall_app in H3 as [Ha Hb]. inversion Hb as [|? ? Hx Hb']; subst.
      destruct (firstn read_size q) as [|x rest] eqn:F.
      * assert (q = []) by (destruct q; auto; destruct read_size; [lia|discriminate]). subst q.
        destruct (cl || (read_size =? 0)) eqn:Z; auto.
        2: { cbn. repeat split; auto; try tauto. apply Forall_app. split; auto. }
        apply orb_true_iff in Z as [->|Z]; [|apply Nat.eqb_eq in Z; lia]. cbn. rewrite set_nth_split. repeat split; auto; try tauto.
        apply Forall_app. split; auto.
      * cbn. rewrite set_nth_split. repeat split; auto; try tauto.
        assert (N : q <> []) by (intros ->; rewrite firstn_nil in F; discriminate).
        apply Forall_app. split; [|constructor; [discriminate|]].
        -- eapply Forall_impl; [|exact Ha]. cbn. intros r Hy E'. destruct (Hy E') as (_ & _ & X). contradiction.
        -- eapply Forall_impl; [|exact Hb']. cbn. intros r Hy E'. destruct (Hy E') as (_ & _ & X). contradiction.
    + apply split_nth in E as (a & b & -> & <-). apply Forall_app in H3 as [Ha Hb]. inversion Hb as [|? ? Hx Hb']; subst.
      cbn. rewrite set_nth_split. repeat split; auto; try tauto. apply Forall_app. split; auto. constructor; auto. discriminate.
Qed.
Lemma run_ended n events : 0 < read_size -> ended_ok (run n events).
Proof.
  intros Hr. unfold LaneModel.run.
  assert (G : forall events s, ended_ok s -> ended_ok (fold_left step events s)).
  { induction events0; intros s H; cbn; auto. apply IHevents0. now apply step_ended. }
  apply G. repeat split; try discriminate. apply Forall_forall. intros r Hx. apply repeat_spec in Hx as ->. discriminate.
Qed.

(** If all readers have come to the end, then all that was written has been received, once. *)
Theorem C31_complete : forall n (events : list (event A)), 0 < read_size -> 0 < n -> let s := run n events in
  Forall (fun r => snd r = true) (readers s) -> Permutation (map snd (received s)) (sent s).
Proof.
  intros n events Hr Hn s H. pose proof (C31_conserved n events) as P. fold s in P. cbv zeta in P.
  pose proof (run_ended n events Hr) as (E1 & E2 & E3). fold s in E1, E2, E3.
  assert (L : length (readers s) = n).
  { subst s. unfold LaneModel.run. assert (G : forall (events : list (event A)) s, length (readers (fold_left step events s)) = length (readers s)).
    { induction events0; intros s; cbn; auto. rewrite IHevents0. clear. destruct s as [wb mv en q cl rs se re].
      destruct a as [x| | | |k]; cbn [LaneModel.step moving ending w_buffer queue closed readers sent received].
      - destruct mv; auto. destruct en; auto. destruct (_ =? _); auto.
      - destruct mv; auto. destruct en; auto.
      - destruct mv; auto. destruct (_ <? _); auto.
      - destruct mv; auto.
      - destruct (nth_error rs k) as [[[|x rest] [|]]|]; auto.
        + destruct (firstn read_size q); [destruct (_ || _); auto|]; apply set_nth_length.
        + apply set_nth_length. }
    rewrite G. apply repeat_length. }
  destruct (readers s) as [|r rs] eqn:R; [cbn in L; lia|]. rewrite <- R in *.
  assert (I : In r (readers s)) by (rewrite R; now left).
  rewrite Forall_forall in H, E3. destruct (E3 r I (H r I)) as (_ & C & Q). destruct (E1 C) as (En & M).
  unfold pending in P. rewrite Q, M, (E2 En) in P. 
  assert (Z : concat (map fst (readers s)) = []).
  { clear - H E3. induction (readers s) as [|r l IH]; cbn; auto. destruct (E3 r (or_introl eq_refl) (H r (or_introl eq_refl))) as (-> & _).
    cbn. apply IH; intros; apply H || apply E3; auto; now right. }
  rewrite Z in P. cbn in P. now rewrite app_nil_r in P.
Qed.

(** Each reader gets its elements in the order of writing. *)
Definition in_order (k : nat) (s : state A) : Prop :=
  sublist (got k (received s) ++ match nth_error (readers s) k with Some r => fst r | None => [] end ++ pending s) (sent s).
Lemma nth_error_set {X} (l : list X) i j x : i <> j -> nth_error (set_nth l i x) j = nth_error l j.
Proof. revert i j. induction l; intros [|i] [|j] H; cbn; auto; try lia. Qed.
Lemma nth_error_split_here {X} (a b : list X) x : nth_error (a ++ x :: b) (length a) = Some x.
Proof. induction a; cbn; auto. Qed.
Lemma step_in_order k s e : in_order k s -> in_order k (step s e).
Proof.
  unfold in_order, pending. destruct s as [wb mv en q cl rs se re]. intros H. destruct e as [x| | | |j]; cbn [LaneModel.step moving ending w_buffer queue closed readers sent received] in *.
  - destruct mv; auto. destruct en; auto. destruct (_ =? _); cbn; rewrite ?app_nil_r; cbn in H.
    all: rewrite !app_assoc; apply sublist_app; [rewrite <- ?app_assoc in *; exact H|apply sublist_refl].
  - destruct mv; auto. destruct en; auto. cbn. rewrite app_nil_r. exact H.
  - destruct mv as [|x mv]; auto. destruct (_ <? _); auto. cbn. rewrite <- app_assoc. exact H.
  - destruct mv; auto.
  - destruct (nth_error rs j) as [[[|x rest] [|]]|] eqn:E; auto.
    + destruct (firstn read_size q) as [|x rest] eqn:F.
      * destruct (_ || _); auto. cbn [received readers queue moving w_buffer sent]. destruct (Nat.eq_dec j k) as [->|N].
        -- rewrite E in H. apply split_nth in E as (a & b & -> & <-). rewrite set_nth_split, nth_error_split_here. exact H.
        -- now rewrite nth_error_set.
      * cbn [received readers queue moving w_buffer sent]. rewrite got_app. unfold got at 2. cbn [filter fst]. destruct (Nat.eq_dec j k) as [->|N].
        -- rewrite Nat.eqb_refl. cbn [map snd]. rewrite E in H. apply split_nth in E as (a & b & -> & <-). rewrite set_nth_split, nth_error_split_here. cbn [fst app] in *.
           rewrite <- (firstn_skipn read_size q), F in H. rewrite <- !app_assoc in *. exact H.
        -- apply Nat.eqb_neq in N. rewrite N. apply Nat.eqb_neq in N. rewrite nth_error_set by auto. cbn [map]. rewrite app_nil_r.
           eapply sublist_trans; [exact H|]. apply sublist_app; [apply sublist_refl|]. apply sublist_app; [apply sublist_refl|].
           apply sublist_app; [apply sublist_skipn|apply sublist_refl].
    + cbn [received readers queue moving w_buffer sent]. rewrite got_app. unfold got at 2. cbn [filter fst]. destruct (Nat.eq_dec j k) as [->|N].
      * rewrite Nat.eqb_refl. cbn [map snd]. rewrite E in H. apply split_nth in E as (a & b & -> & <-). rewrite set_nth_split, nth_error_split_here. cbn [fst app] in *.
        rewrite <- !app_assoc. exact H.
      * apply Nat.eqb_neq in N. rewrite N. apply Nat.eqb_neq in N. rewrite nth_error_set by auto. cbn [map]. rewrite app_nil_r. exact H.
Qed.
Theorem C31_order : forall n (events : list (event A)) k, let s := run n events in sublist (got k (received s)) (sent s).
Proof.
  intros n events k s.
  assert (I : in_order k s).
  { subst s. unfold LaneModel.run.
    assert (G : forall events s, in_order k s -> in_order k (fold_left step events s)).
    { induction events0; intros s H; cbn; auto. apply IHevents0. now apply step_in_order. }
    apply G. unfold in_order, pending. cbn. destruct (nth_error (repeat ([], false) n) k) as [r|] eqn:E.
    - apply nth_error_In in E. apply repeat_spec in E as ->. constructor.
    - constructor. }
  unfold in_order in I. eapply sublist_trans; [exact I|]. rewrite <- (app_nil_r (got k (received s))) at 1. apply sublist_app; [apply sublist_refl|].
  generalize (match nth_error (readers s) k with Some r => fst r | None => [] end ++ pending s). induction l; constructor; auto.
Qed.
(** One reader gets everything in order. *)
Theorem C31_one_reader : forall events : list (event A), 0 < read_size -> let s := run 1 events in
  Forall (fun r => snd r = true) (readers s) -> map snd (received s) = sent s.
Proof.
  intros events Hr s H. pose proof (C31_complete 1 events Hr ltac:(lia) H) as P. cbv zeta in P. fold s in P.
  pose proof (C31_order 1 events 0) as O. cbv zeta in O. fold s in O.
  assert (G : got 0 (received s) = map snd (received s)).
  { subst s. unfold LaneModel.run, got. f_equal.
    assert (K : forall (events : list (event A)) s, length (readers s) = 1 -> filter (fun p => fst p =? 0) (received s) = received s ->
      filter (fun p => fst p =? 0) (received (fold_left step events s)) = received (fold_left step events s)).
    { induction events0 as [|e es IH]; intros s L F; cbn; auto. apply IH.
      - destruct s as [wb mv en q cl rs se re]. destruct e as [x| | | |k]; cbn [LaneModel.step moving ending w_buffer queue closed readers sent received] in *.
        + destruct mv; auto. destruct en; auto. destruct (_ =? _); auto.
        + destruct mv; auto. destruct en; auto.
        + destruct mv; auto. destruct (_ <? _); auto.
        + destruct mv; auto.
        + destruct (nth_error rs k) as [[[|x rest] [|]]|]; auto.
          * destruct (firstn read_size q); [destruct (_ || _); auto|]; cbn; now rewrite set_nth_length.
          * cbn. now rewrite set_nth_length.
      - destruct s as [wb mv en q cl rs se re]. destruct e as [x| | | |k]; cbn [LaneModel.step moving ending w_buffer queue closed readers sent received] in *.
        + destruct mv; auto. destruct en; auto. destruct (_ =? _); auto.
        + destruct mv; auto. destruct en; auto.
        + destruct mv; auto. destruct (_ <? _); auto.
        + destruct mv; auto.
        + destruct (nth_error rs k) as [[[|x rest] [|]]|] eqn:E; auto.
          * assert (k = 0) as -> by (apply nth_error_Some' in E; lia). destruct (firstn read_size q); [destruct (_ || _); auto|]. cbn. rewrite filter_app, F. reflexivity.
          * assert (k = 0) as -> by (apply nth_error_Some' in E; lia). cbn. rewrite filter_app, F. reflexivity. }
    apply K; reflexivity. }
  rewrite G in O. apply Permutation_length in P. clear - O P. induction O; auto.
  - f_equal. apply IHO. cbn in P. lia.
  - exfalso. assert (length a <= length b). { clear - O. induction O; cbn; lia. } cbn in P. lia.
Qed.
End Lane.
Print Assumptions C31_conserved. Print Assumptions C31_complete. Print Assumptions C31_order. Print Assumptions C31_one_reader.

(** The case: a writer of two elements at a time, a queue of two and two readers of two. *)
Definition case_events : list (event nat) :=
  [Write 1; Read 0; Write 2; Write 3; Move; Read 1; Move; Write 3; End; Read 0; Close; Move; Close; Read 1; Read 0; Read 1].
Example C31_case : let s := run 2 2 2 2 case_events in
  sent s = [1; 2; 3] /\ received s = [(1, 1); (0, 2); (1, 3)] /\ readers s = [([], true); ([], true)].
Proof. repeat split. Qed.

(** A reader with a buffer of size zero ends at once. *)
Theorem C31_empty_buffer_refuted : exists events : list (event nat), let s := run 2 0 2 1 events in
  Forall (fun r => snd r = true) (readers s) /\ ~ Permutation (map snd (received s)) (sent s).
Proof. exists [Write 1; End; Move; Close; Read 0]. cbn. split; [repeat constructor|]. intros H. apply Permutation_length in H. discriminate. Qed.
Print Assumptions C31_empty_buffer_refuted.
