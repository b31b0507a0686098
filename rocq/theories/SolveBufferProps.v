(** Properties of the buffer between BDA input and the solver. *)
From Coq Require Import QArith Qround Qcanon List Bool Arith ZArith Lia.
From Verif Require Import QcUtil InfoModel InfoProofs AverageModel SolveBufferModel SolveBufferSpec SolveBufferProofs.
Import ListNotations.
Open Scope nat_scope.

(** * C67 *)
(** Whatever the calls: the current interval has moved by the number of advances, and every interval from there on has exactly the rows with their time in it
    that were given since all was cleared, in the order in which they were given. *)
Theorem C67_intervals : forall B X c n (l : list (call B X)) s d, (0 < duration c)%Qc -> do_calls c (init n) l = Ok (s, d) ->
  current s = Z.of_nat (advances l) /\
  forall k, nth k (data_rows s) [] = rows_of c (current s + Z.of_nat k) (given l []).
Proof.
  intros B X c n l s d Hd H. destruct (calls_good c l _ _ _ _ _ (good_init c n) H) as (C & (G & (_ & S) & _) & _). split; [exact C|].
  intros k. rewrite S. symmetry. now apply rows_of_index.
Qed.
Print Assumptions C67_intervals.

(** Without clearing: the buffers that came back, those that wait for it and those that are held are the buffers that were given, in order; buffers that came
    back or wait have no row in the current interval or later; and the buffers of all rows that are left are held. *)
Theorem C67_buffers : forall B X c n (l : list (call B X)) s d, (0 < duration c)%Qc -> do_calls c (init n) l = Ok (s, d) -> ~ In Clear l ->
  given l [] = d ++ done s ++ data s /\
  (forall b r, In b (d ++ done s) -> In r (rows b) -> before c (current s) (time r)) /\
  (forall k x r, In (x, r) (nth k (data_rows s) []) -> exists b, In b (data s) /\ content b = x /\ In r (rows b)).
Proof.
  intros B X c n l s d Hd H N. destruct (calls_good c l _ _ _ _ _ (good_init c n) H) as (_ & _ & G). specialize (G N [] eq_refl).
  destruct G as ((_ & S) & E & O). cbn [app] in E, O. rewrite <- app_assoc in E. rewrite Forall_forall in O. split; [exact E|].
  assert (K : forall b r, In b (d ++ done s) -> In r (rows b) -> (index c (time r) < current s)%Z).
  { intros b r I J. specialize (O b I). apply all_old_spec in O. rewrite Forall_forall in O. now apply O. }
  split; [intros b r I J; apply index_lt; eauto|].
  intros k x r I. rewrite S in I. apply filter_In in I as [I J]. apply in_all_rows in I as (b & I & <- & I2). exists b.
  split; [|auto]. rewrite E, app_assoc in I. apply in_app_or in I as [I|I]; auto. exfalso. specialize (K b r I I2). apply Z.eqb_eq in J. cbn [snd] in J. lia.
Qed.
Print Assumptions C67_buffers.

Definition q (z : Z) : Qc := Q2Qc (inject_Z z).
Definition case_setup : setup := Setup (q 100) (q 10).
Definition r (b : nat) (t w : Z) (x : nat) : row nat := Row b (q t) (q w) x.
Definition names {B} (l : list (interval_row B nat)) : list nat := map (fun p => cells (snd p)) l.
(** The case: two buffers, the second of which has rows of the next interval. *)
Definition case_buffers : list (buffer nat nat) := [Buffer 7 [r 0 102 4 1; r 1 105 10 2]; Buffer 8 [r 0 107 6 3; r 0 112 4 4]; Buffer 9 [r 1 115 10 5; r 0 118 8 6]].
Definition case_calls : list (call nat nat) := map Append (firstn 2 case_buffers) ++ [Advance; GetDone] ++ map Append (skipn 2 case_buffers).
Example C67_case : match do_calls case_setup (init 2) case_calls with
  | Ok (s, d) => map names (data_rows s) = [[4; 5; 6]] /\ map content d = [7] /\ map content (data s) = [8; 9] /\ current s = 1%Z
  | _ => False end.
Proof. vm_compute. auto. Qed.

(** The step, with at least one baseline and rows in order per baseline, which come in any groups: there is no error; all buffers are sent on, in order; the
    intervals are solved from the first one on, each with exactly the rows of the whole input that are in it; and all rows are in one of them. *)
Theorem C67_step : forall B X c n (l : list (list (buffer B X))), (0 < duration c)%Qc -> 0 < n -> ordered c n (flat_map rows (concat l)) ->
  exists p m, run c (Step (init n) [] []) l = Ok p /\ sent p = concat l /\
    solved p = map (fun i => rows_of c (Z.of_nat i) (concat l)) (seq 0 m) /\
    Forall (fun r => (start c <= time r)%Qc /\ before c (Z.of_nat m) (time r)) (flat_map rows (concat l)).
Proof.
  intros B X c n l Hd Hn Or. destruct (run_good c Hd n l (Step (init n) [] []) []) as (p & E & S & m & So & F); auto.
  - now apply init_ready.
  - split; [cbn; lia|]. split; [apply good_init|reflexivity].
  - exists p, (Z.to_nat m). split; [exact E|]. split; [exact S|]. split; [exact So|]. cbn [app] in F.
    destruct Or as [Fo _]. unfold plain in F. rewrite Forall_forall in *. intros x I. specialize (F x I). destruct (Fo x I) as (_ & W & St).
    assert (Fi : (start c <= time x)%Qc).
    { eapply Qcle_trans; [exact St|]. unfold begin. assert (0 <= half * width x)%Qc.
      { rewrite <- (Qcmult_0_l (width x)). apply Qcmult_le_compat_r; auto. apply qleb_true. reflexivity. }
      generalize dependent (half * width x)%Qc. intros. qclra. }
    split; [exact Fi|]. apply index_lt; auto. assert (0 <= index c (time x))%Z; [|lia].
    apply index_le; auto. replace (start c + qz 0 * duration c)%Qc with (start c); auto. unfold qz. change (Q2Qc (inject_Z 0)) with 0%Qc. ring.
Qed.
Print Assumptions C67_step.
Example C67_step_case_ordered : ordered case_setup 2 (flat_map rows (concat [firstn 2 case_buffers; skipn 2 case_buffers])).
Proof.
  split.
  - repeat constructor; cbn; try lia; apply qleb_true; vm_compute; reflexivity.
  - cbn. repeat constructor; cbn; intros E; try discriminate E; apply qleb_true; vm_compute; reflexivity.
Qed.
Example C67_step_case : match run case_setup (Step (init 2) [] []) [firstn 2 case_buffers; skipn 2 case_buffers] with
  | Ok p => map names (solved p) = [[1; 2; 3]; [4; 5; 6]] /\ map content (sent p) = [7; 8; 9]
  | _ => False end.
Proof. vm_compute. auto. Qed.

(** A baseline without rows: until the end nothing is solved and nothing is sent on, whatever the others have. *)
Fixpoint processes {B X} (c : setup) (p : step B X) (l : list (list (buffer B X))) : outcome (step B X) :=
  match l with [] => Ok p | bs :: l => match process c p bs with Ok p => processes c p l | o => o end end.
Section Absent.
Context {B X : Type}.
Variables (c : setup) (b0 : nat).
Definition waits (s : state B X) : Prop := done s = [] /\ nth_error (last_complete s) b0 = Some (-1)%Z.
Lemma waits_row b s x s' : waits s -> baseline x <> b0 -> append_row c b s x = Ok s' -> waits s'.
Proof.
  intros [W1 W2] N H. unfold append_row in H. destruct (_ <? 0)%Z; [discriminate|]. destruct (nth_error _ (baseline x)); [|discriminate].
  destruct (_ <? z)%Z; [discriminate|]. injection H as <-. split; [exact W1|]. cbn [last_complete]. rewrite nth_error_set_nth.
  destruct (Nat.eqb_spec (baseline x) b0); [congruence|exact W2].
Qed.
Lemma waits_rows b l : forall s s', waits s -> Forall (fun x => baseline x <> b0) l -> append_rows c b s l = Ok s' -> waits s'.
Proof.
  induction l as [|x l IH]; intros s s' W F H; cbn in H; [now injection H as <-|]. inversion F; subst.
  destruct (append_row c b s x) as [s1| |] eqn:E; try discriminate. eapply IH; [eapply waits_row; eauto|auto|exact H].
Qed.
Lemma waits_all l : forall s s', waits s -> Forall (fun x => baseline x <> b0) (flat_map rows l) -> append_all c s l = Ok s' -> waits s'.
Proof.
  induction l as [|x l IH]; intros s s' W F H; cbn in H; [now injection H as <-|]. cbn in F. apply Forall_app in F as [F1 F2].
  unfold append in H. destruct (append_rows c (content x) s (rows x)) as [s1| |] eqn:E; try discriminate.
  eapply IH; [|exact F2|exact H]. exact (waits_rows _ _ _ _ W F1 E).
Qed.
End Absent.
Theorem C67_absent_baseline : forall B X c n b0 (l : list (list (buffer B X))) p, b0 < n ->
  Forall (fun r => baseline r <> b0) (flat_map rows (concat l)) -> processes c (Step (init n) [] []) l = Ok p -> solved p = [] /\ sent p = [].
Proof.
  intros B X c n b0 l p Hb. assert (W0 : waits b0 (solver_buffer (Step (init n) [] [] : step B X))).
  { split; [reflexivity|]. cbn. rewrite nth_error_repeat; auto. }
  assert (G : forall l (p p' : step B X), waits b0 (solver_buffer p) -> Forall (fun r => baseline r <> b0) (flat_map rows (concat l)) ->
    processes c p l = Ok p' -> solved p' = solved p /\ sent p' = sent p).
  2: { intros F H. exact (G l _ _ W0 F H). }
  clear. induction l as [|bs l IH]; intros p p' W F H; cbn in H, F; [now injection H as <-|].
  rewrite flat_map_app in F. apply Forall_app in F as [F1 F2]. unfold process in H.
  destruct (append_all c (solver_buffer p) bs) as [s| |] eqn:E; try discriminate.
  pose proof (waits_all _ _ _ _ _ W F1 E) as W1. destruct (solve_complete c _ _) as [p1| |] eqn:E1; try discriminate.
  assert (P1 : p1 = Step s (solved p) (sent p)).
  { cbn [solve_complete solver_buffer] in E1. destruct (complete s) as [[|]| |] eqn:C; try discriminate; [|now injection E1 as <-].
    exfalso. apply complete_true in C as (_ & C). rewrite Forall_forall in C. destruct W1 as [_ W1]. specialize (C _ (nth_error_In _ _ W1)). lia. }
  subst p1. assert (W2 : waits b0 (solver_buffer (process_done (Step s (solved p) (sent p))))) by (split; [reflexivity|apply W1]).
  destruct (IH _ _ W2 F2 H) as [-> ->].
  cbn. destruct W1 as [-> _]. now rewrite app_nil_r.
Qed.
Print Assumptions C67_absent_baseline.
Example C67_absent_baseline_case : match processes case_setup (Step (init 3) [] []) (map (fun b => [b]) case_buffers) with
  | Ok p => solved p = [] /\ map content (data (solver_buffer p)) = [7; 8; 9] | _ => False end.
Proof. vm_compute. auto. Qed.

(** Rows out of order are not refused when they are up to one interval early: the check compares with the interval before the one of the previous row. *)
Theorem C67_order_refuted : exists c n (l : list (list (buffer nat nat))) p, (0 < duration c)%Qc /\ ~ ordered c n (flat_map rows (concat l)) /\
  run c (Step (init n) [] []) l = Ok p.
Proof.
  exists case_setup, 1, [[Buffer 7 [r 0 115 10 1; r 0 105 10 2]]]. eexists. split; [apply qltb_true; vm_compute; reflexivity|].
  split; [|vm_compute; reflexivity]. intros [_ H]. inversion H as [|? ? F _]; subst. inversion F as [|? ? G _]; subst.
  specialize (G eq_refl). apply qleb_true in G. vm_compute in G. discriminate G.
Qed.
Print Assumptions C67_order_refuted.
(** If their interval has been solved, it is worse: the number of the interval is negative, and becomes a huge unsigned number up to which intervals are added. *)
Theorem C67_late_refuted : exists c n (l : list (list (buffer nat nat))), (0 < duration c)%Qc /\
  run c (Step (init n) [] []) l = Undefined /\
  Forall (fun r => baseline r < n /\ (0 <= width r)%Qc /\ (start c <= begin r)%Qc) (flat_map rows (concat l)).
Proof.
  exists case_setup, 1, [[Buffer 7 [r 0 105 10 1; r 0 115 10 2]]; [Buffer 8 [r 0 105 10 3]]]. split; [apply qltb_true; vm_compute; reflexivity|].
  split; [vm_compute; reflexivity|]. repeat constructor; cbn; try lia; apply qleb_true; vm_compute; reflexivity.
Qed.
Print Assumptions C67_late_refuted.
(** Without baselines, the smallest element of an empty list is read. *)
Theorem C67_no_baselines_refuted : exists c (l : list (list (buffer nat nat))), (0 < duration c)%Qc /\ ordered c 0 (flat_map rows (concat l)) /\
  run c (Step (init 0) [] []) l = Undefined.
Proof. exists case_setup, [[]]. split; [apply qltb_true; vm_compute; reflexivity|]. split; [split; constructor|reflexivity]. Qed.
Print Assumptions C67_no_baselines_refuted.
