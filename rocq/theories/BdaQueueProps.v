(** Properties of the queue of BdaDdeCal. *)
From Coq Require Import List Bool Arith Lia ZifyBool ZifyNat.
From Verif Require Import AverageModel InfoModel GainModel DdecalProofs BdaQueueModel BdaQueueSpec BdaQueueProofs.
Import ListNotations.
Open Scope nat_scope.

Section Props.
Context {D M F W : Type}.
Variables (n_steps n_dir : nat) (only_predict keep_model : bool) (uvw : buffer D M F W -> F) (predict : nat -> F * W -> M) (sum : list M -> D).
Hypothesis Hn : n_steps <= n_dir.
Notation run := (run n_steps only_predict keep_model uvw predict sum).
Notation process_all := (process_all n_steps only_predict keep_model uvw predict sum).
Variables (k : nat -> nat -> nat) (l : list (buffer D M F W)).
Hypothesis Hl : Forall (fits n_steps n_dir) l.

Lemma process_all_throws : ~ Forall (has_what_it_needs n_steps n_dir) l -> forall i pre st, Forall (there n_steps n_dir) pre ->
  holds n_steps n_dir only_predict keep_model predict sum pre st -> process_all k i st l = Throw.
Proof.
  induction l as [|b l' IH]; intros H i pre st Tp Hp; [exfalso; apply H; constructor|]. apply Forall_cons_iff in Hl as [Hb Hl']. cbn [BdaQueueModel.process_all].
  destruct (has_reused n_steps b) eqn:E.
  - assert (Tb : there n_steps n_dir b) by (apply (has_reused_there n_steps n_dir uvw predict Hn b (proj1 Hb)); exact E).
    destruct (process_ok n_steps n_dir only_predict keep_model uvw predict sum Hn (k i) pre st b Tp Hp Hb Tb) as (st' & E' & H'). rewrite E'. cbn [bind].
    eapply IH; [exact Hl'| | |exact H'].
    + intros K. apply H. constructor; assumption.
    + apply Forall_app. split; [exact Tp|]. constructor; [exact Tb|constructor].
  - unfold process. rewrite E. reflexivity.
Qed.

(** A run is accepted exactly if every buffer comes with the model data that is to be reused *)
Theorem C78_accepted : ((exists st, run k l = Ok st) <-> Forall (has_what_it_needs n_steps n_dir) l) /\ (run k l = Throw \/ exists st, run k l = Ok st).
Proof.
  assert (A : Forall (has_what_it_needs n_steps n_dir) l -> exists st, run k l = Ok st).
  { intros T. destruct (process_all_ok n_steps n_dir only_predict keep_model uvw predict sum Hn k l Hl T 0 [] (init n_steps)) as (st & E & H); [constructor|apply holds_init; exact Hn|].
    unfold BdaQueueModel.run. rewrite E. cbn [bind].
    destruct (finish_ok n_steps n_dir only_predict keep_model uvw predict sum Hn _ st (there_all n_steps n_dir uvw l T) H) as (st' & E' & _). now exists st'. }
  assert (B : ~ Forall (has_what_it_needs n_steps n_dir) l -> run k l = Throw).
  { intros T. unfold BdaQueueModel.run. rewrite (process_all_throws T 0 [] (init n_steps)); [reflexivity|constructor|apply holds_init; exact Hn]. }
  assert (C : Forall (has_what_it_needs n_steps n_dir) l \/ ~ Forall (has_what_it_needs n_steps n_dir) l).
  { clear - Hl Hn uvw predict. induction l as [|b l' IH]; [left; constructor|]. apply Forall_cons_iff in Hl as [Hb Hl']. destruct (IH Hl') as [C|C].
    - destruct (has_reused n_steps b) eqn:E.
      + left. constructor; [apply (has_reused_there n_steps n_dir uvw predict Hn b (proj1 Hb)); exact E|exact C].
      + right. intros K. apply Forall_cons_iff in K as [K _]. pose proof (proj2 (has_reused_there n_steps n_dir uvw predict Hn b (proj1 Hb)) K). congruence.
    - right. intros K. apply Forall_cons_iff in K as [_ K]. now apply C. }
  split; [split|].
  - intros [st E]. destruct C as [C|C]; [exact C|]. rewrite (B C) in E. discriminate.
  - exact A.
  - destruct C as [C|C]; [right; now apply A|left; now apply B].
Qed.

(** Whenever the steps give their results: every buffer leaves once and in order, with for every direction the model data that was made for it or came with it, or with the sum of
    these as data; the flags are those of the UVW flagger *)
Theorem C78_paired_partial st : run k l = Ok st -> queue st = [] /\ length (sent st) = length l /\
  forall i b, nth_error l i = Some b -> exists b' ms, nth_error (sent st) i = Some b' /\ rest b' = rest b /\ flags b' = uvw b /\
    length ms = n_dir /\ (forall d, d < n_dir -> exists m, nth_error ms d = Some m /\ model_of n_steps predict (uvw b) b d = Some m) /\
    if only_predict && negb keep_model then main b' = sum ms /\ models b' = map (fun _ => None) ms else main b' = main b /\ models b' = map Some ms.
Proof.
  intros E. destruct C78_accepted as [[A _] _]. pose proof (A (ex_intro _ st E)) as T. clear A. unfold BdaQueueModel.run in E.
  destruct (process_all_ok n_steps n_dir only_predict keep_model uvw predict sum Hn k l Hl T 0 [] (init n_steps)) as (st1 & E1 & H); [constructor|apply holds_init; exact Hn|].
  rewrite E1 in E. cbn [bind] in E.
  destruct (finish_ok n_steps n_dir only_predict keep_model uvw predict sum Hn _ st1 (there_all n_steps n_dir uvw l T) H) as (st' & E' & Q1 & Q2). rewrite E' in E. injection E as <-.
  split; [exact Q1|]. cbn [app] in Q2. split; [rewrite Q2, !map_length; reflexivity|]. intros i b Eb.
  pose proof (proj1 (Forall_forall _ _) T b (nth_error_In _ _ Eb)) as Tb.
  assert (X : exists ms, length ms = n_dir /\ (forall d, d < n_dir -> exists m, nth_error ms d = Some m /\ model_of n_steps predict (uvw b) b d = Some m) /\
    models (full n_steps n_dir predict (Buffer (main b) (uvw b) (rest b) (models b))) = map Some ms).
  { cbn [full flags rest models].
    assert (G : forall n a, a + n <= n_dir -> exists ms, length ms = n /\ (forall d, d < n -> exists m, nth_error ms d = Some m /\ model_of n_steps predict (uvw b) b (a + d) = Some m) /\
      map (fun d => if d <? n_steps then Some (predict d (uvw b, rest b)) else nth d (models b) None) (seq a n) = map Some ms).
    { induction n as [|n IH]; intros a Ha; [exists []; repeat split; intros; lia|]. destruct (IH (S a) ltac:(lia)) as (ms & L & G & G').
      assert (Y : exists m, model_of n_steps predict (uvw b) b a = Some m).
      { unfold model_of. destruct (Nat.ltb_spec a n_steps) as [K|K]; [eexists; reflexivity|]. apply (there_nth n_steps n_dir b a Tb K). lia. }
      destruct Y as (m & Y). exists (m :: ms). split; [cbn; lia|]. split.
      - intros [|d] Hd; [exists m; rewrite Nat.add_0_r; split; [reflexivity|exact Y]|]. destruct (G d ltac:(lia)) as (m' & M1 & M2). exists m'. split; [exact M1|].
        replace (a + S d) with (S a + d) by lia. exact M2.
      - cbn [seq map]. rewrite G'. f_equal. exact Y. }
    exact (G n_dir 0 ltac:(lia)). }
  destruct X as (ms & X1 & X2 & X3). eexists. exists ms. split; [rewrite Q2, map_map; exact (map_nth_error _ i l Eb)|].
  assert (S1 : flat_map (fun o : option M => match o with Some m => [m] | None => [] end) (map Some ms) = ms) by (clear; induction ms; cbn; congruence).
  unfold emit, sum_models. rewrite X3, S1. destruct only_predict; cbn [andb]; [|repeat split; assumption].
  destruct keep_model; cbn [negb]; repeat split; try assumption. cbn [models]. now rewrite map_map.
Qed.

(** No buffer waits longer than needed: after any number of calls, if a buffer waits, then there is a step that has not given its result for it *)
Theorem C78_prompt st : process_all k 0 (init n_steps) l = Ok st -> let m := length (sent st) in
  length (queue st) = length l - m /\ (m = length l \/ exists d, d < n_steps /\
    nth_error (pending st) d = Some (map (fun b => predict d (uvw b, rest b)) (skipn m l))).
Proof.
  intros E. assert (T : Forall (there n_steps n_dir) l).
  { destruct C78_accepted as [[A _] B]. apply A. destruct B as [B|B]; [|exact B]. exfalso. unfold BdaQueueModel.run in B. rewrite E in B. cbn [bind] in B.
    assert (T : Forall (has_what_it_needs n_steps n_dir) l \/ ~ Forall (has_what_it_needs n_steps n_dir) l).
    { clear - Hl Hn uvw predict. induction l as [|b l' IH]; [left; constructor|]. apply Forall_cons_iff in Hl as [Hb Hl']. destruct (IH Hl') as [C|C].
      - destruct (has_reused n_steps b) eqn:E.
        + left. constructor; [apply (has_reused_there n_steps n_dir uvw predict Hn b (proj1 Hb)); exact E|exact C].
        + right. intros K. apply Forall_cons_iff in K as [K _]. pose proof (proj2 (has_reused_there n_steps n_dir uvw predict Hn b (proj1 Hb)) K). congruence.
      - right. intros K. apply Forall_cons_iff in K as [_ K]. now apply C. }
    destruct T as [T|T].
    - destruct (process_all_ok n_steps n_dir only_predict keep_model uvw predict sum Hn k l Hl T 0 [] (init n_steps)) as (st1 & E1 & H); [constructor|apply holds_init; exact Hn|].
      assert (st1 = st) by congruence. subst st1.
      destruct (finish_ok n_steps n_dir only_predict keep_model uvw predict sum Hn _ st (there_all n_steps n_dir uvw l T) H) as (st' & E' & _). congruence.
    - rewrite (process_all_throws T 0 [] (init n_steps)) in E; [discriminate|constructor|apply holds_init; exact Hn]. }
  destruct (process_all_ok n_steps n_dir only_predict keep_model uvw predict sum Hn k l Hl T 0 [] (init n_steps)) as (st1 & E1 & H); [constructor|apply holds_init; exact Hn|].
  assert (st1 = st) by congruence. subst st1. cbn [app] in H. destruct H as (j & r & Hj & Hr & -> & Hd). cbn [queue sent pending]. rewrite map_length in Hj, Hd.
  rewrite map_length, firstn_length, map_length. replace (Nat.min j (length l)) with j by lia. split.
  - unfold Q. rewrite map_length, combine_length, seq_length, skipn_length, map_length. lia.
  - destruct Hd as [Hd|(d & D1 & D2)]; [now left|]. right. exists d. split; [exact D1|]. unfold pend. rewrite nth_seq_map. assert (X : (d <? n_steps) = true) by lia. rewrite X, D2.
    rewrite skipn_map, map_map. reflexivity.
Qed.
End Props.
Print Assumptions C78_accepted.
Print Assumptions C78_paired_partial.
Print Assumptions C78_prompt.

(** Two steps of which the first is late by one call and the second gives its results at the end, and one direction that is reused *)
Definition ex_b (i : nat) : buffer nat nat nat nat := Buffer i 0 (10 * i) [None; None; Some (100 + i)].
Definition ex_k (i d : nat) : nat := if d =? 0 then (if i =? 0 then 0 else 1) else 0.
Example C78_example : match run 2 false false (fun b => flags b) (fun d x => d + snd x) (fun _ => 0) ex_k [ex_b 1; ex_b 2; ex_b 3] with
  | Ok st => sent st = [Buffer 1 0 10 [Some 10; Some 11; Some 101]; Buffer 2 0 20 [Some 20; Some 21; Some 102]; Buffer 3 0 30 [Some 30; Some 31; Some 103]]
  | _ => False end.
Proof. reflexivity. Qed.
Example C78_waits_example : match process_all 2 false false (fun b => flags b) (fun d x => d + snd x) (fun _ => 0) ex_k 0 (init 2) [ex_b 1; ex_b 2; ex_b 3] with
  | Ok st => map models (queue st) = [[Some 10; None; Some 101]; [Some 20; None; Some 102]; [None; None; Some 103]]
  | _ => False end.
Proof. reflexivity. Qed.
Example C78_hypothesis_example : Forall (fits 2 3) [ex_b 1; ex_b 2; ex_b 3].
Proof. repeat constructor; intros d Hd; destruct d as [|[|d]]; try reflexivity; lia. Qed.

(** The comment in steps/BdaDdeCal.cc:442-443 says that the unmodified flags are sent on, and for regular data DDECal restores them (C74).  But the UVW flagger works on the buffer
    itself: the visibilities that are not used for the solutions because of the UVW limits are flagged in the output. *)
Theorem C78_flags_refuted : exists (uvw : buffer nat nat bool nat -> bool) (b b' : buffer nat nat bool nat) st, fits 0 1 b /\
  run 0 false false uvw (fun _ _ => 0) (fun _ => 0) (fun _ _ => 0) [b] = Ok st /\ sent st = [b'] /\ flags b = false /\ flags b' = true.
Proof.
  exists (fun _ => true), (Buffer 1 false 0 [Some 2]), (Buffer 1 true 0 [Some 2]). eexists. split; [split; [reflexivity|lia]|]. split; [reflexivity|]. repeat split.
Qed.
Print Assumptions C78_flags_refuted.
