(** Proofs about the buffer between BDA input and the solver. *)
From Coq Require Import QArith Qround Qcanon List Bool Arith ZArith Lia.
From Verif Require Import QcUtil InfoModel InfoProofs AverageModel SolveBufferModel SolveBufferSpec.
Import ListNotations.
Open Scope nat_scope.

(** * Times *)
Section Times.
Variable c : setup.
Hypothesis Hd : (0 < duration c)%Qc.

Lemma index_le z t : (z <= index c t)%Z <-> (start c + qz z * duration c <= t)%Qc.
Proof.
  unfold index, qz. set (y := ((t - start c) / duration c)%Qc).
  assert (Ey : (t - start c = y * duration c)%Qc). { unfold y. field. intros E. rewrite E in Hd. now apply Qclt_not_eq in Hd. }
  assert (G : (z <= Qfloor (this y))%Z <-> (Q2Qc (inject_Z z) <= y)%Qc).
  { unfold Qcle. rewrite this_Q2Qc. split; intros H.
    - eapply Qle_trans; [|apply Qfloor_le]. now rewrite <- Zle_Qle.
    - apply Qfloor_resp_le in H. now rewrite Qfloor_Z in H. }
  rewrite G. split; intros H.
  - assert (L : (Q2Qc (inject_Z z) * duration c <= y * duration c)%Qc) by (apply Qcmult_le_compat_r; auto using Qclt_le_weak).
    rewrite <- Ey in L. generalize dependent (Q2Qc (inject_Z z) * duration c)%Qc. intros. qclra.
  - destruct (Qclt_le_dec y (Q2Qc (inject_Z z))) as [L|L]; auto. exfalso.
    assert (M : (y * duration c < Q2Qc (inject_Z z) * duration c)%Qc) by (apply Qcmult_lt_compat_r; auto).
    rewrite <- Ey in M. generalize dependent (Q2Qc (inject_Z z) * duration c)%Qc. intros. qclra.
Qed.
Lemma index_lt z t : (index c t < z)%Z <-> before c z t.
Proof. unfold before. pose proof (index_le z t) as H. split; intros G.
  - apply Qcnot_le_lt. intros L. apply H in L. lia.
  - destruct (Z.lt_ge_cases (index c t) z) as [|L]; auto. exfalso. apply H in L. now apply Qcle_not_lt in L.
Qed.
Lemma inside_index z t : inside c z t = (index c t =? z)%Z.
Proof.
  unfold inside. destruct (Z.eqb_spec (index c t) z) as [E|E].
  - apply andb_true_intro. split; [apply qleb_true, index_le; lia|apply qltb_true; apply (index_lt (z + 1)); lia].
  - destruct (qleb _ t) eqn:E1; auto. destruct (qltb t _) eqn:E2; auto. exfalso.
    apply qleb_true, index_le in E1. apply qltb_true in E2. apply (index_lt (z + 1)) in E2. lia.
Qed.
Lemma index_mono t u : (t <= u)%Qc -> (index c t <= index c u)%Z.
Proof. intros H. apply index_le. eapply Qcle_trans; [|exact H]. apply index_le. lia. Qed.
End Times.

Section Buffer.
Context {B X : Type}.
Variable c : setup.
Hypothesis Hd : (0 < duration c)%Qc.
Notation state := (state B X). Notation buffer := (buffer B X). Notation interval_row := (interval_row B X).

Lemma rows_of_index i (l : list buffer) : rows_of c i l = filter (fun p => index c (time (snd p)) =? i)%Z (all_rows l).
Proof. unfold rows_of. apply filter_ext. intros p. now apply inside_index. Qed.
Lemma all_rows_app (l l' : list buffer) : all_rows (l ++ l') = all_rows l ++ all_rows l'.
Proof. apply flat_map_app. Qed.
Lemma in_all_rows (l : list buffer) x r : In (x, r) (all_rows l) <-> exists b, In b l /\ content b = x /\ In r (rows b).
Proof.
  unfold all_rows. rewrite in_flat_map. split.
  - intros (b & I & J). apply in_map_iff in J as (r' & [= <- <-] & J). eauto.
  - intros (b & I & <- & J). exists b. split; auto. apply in_map_iff. eauto.
Qed.

(** ** The rows per interval *)
Definition sorted_in (s : state) (P : list interval_row) : Prop :=
  data_rows s <> [] /\ forall k, nth k (data_rows s) [] = filter (fun p => index c (time (snd p)) =? current s + Z.of_nat k)%Z P.

Lemma nth_extend k j (l : list (list interval_row)) : nth j (extend k l) [] = nth j l [].
Proof.
  unfold extend. destruct (Nat.lt_ge_cases j (length l)); [now rewrite app_nth1|].
  rewrite app_nth2 by auto. rewrite nth_repeat. symmetry. now apply nth_overflow.
Qed.
Lemma extend_length k (l : list (list interval_row)) : k < length (extend k l).
Proof. unfold extend. rewrite app_length, repeat_length. lia. Qed.

Lemma append_row_sorted b s r s' P : append_row c b s r = Ok s' -> sorted_in s P ->
  sorted_in s' (P ++ [(b, r)]) /\ data s' = data s /\ done s' = done s /\ current s' = current s /\ (current s <= index c (time r))%Z.
Proof.
  unfold append_row, relative. intros H [NE S]. destruct (Z.ltb_spec (index c (time r) - current s) 0) as [|Hk]; [discriminate|].
  destruct (nth_error _ _); [|discriminate]. destruct (_ <? z)%Z; [discriminate|]. injection H as <-.
  cbn [data done current data_rows]. split; [|repeat split; auto; lia]. unfold sorted_in. cbn [data_rows current].
  set (k := Z.to_nat (index c (time r) - current s)). split.
  { intros E. apply (f_equal (@length _)) in E. rewrite set_nth_length in E. pose proof (extend_length k (data_rows s)). cbn in E. lia. }
  intros j. rewrite filter_app. cbn [filter snd]. destruct (Nat.eq_dec k j) as [<-|N].
  - rewrite set_nth_same by apply extend_length. rewrite nth_extend, S.
    replace (index c (time r) =? current s + Z.of_nat k)%Z with true; auto. symmetry. apply Z.eqb_eq. unfold k. lia.
  - rewrite set_nth_other by auto. rewrite nth_extend, S.
    replace (index c (time r) =? current s + Z.of_nat j)%Z with false; [now rewrite app_nil_r|]. symmetry. apply Z.eqb_neq. unfold k in N. lia.
Qed.
Lemma append_rows_sorted b l s s' P : append_rows c b s l = Ok s' -> sorted_in s P ->
  sorted_in s' (P ++ map (pair b) l) /\ data s' = data s /\ done s' = done s /\ current s' = current s.
Proof.
  revert s P. induction l as [|r l IH]; intros s P H S; cbn in H |- *.
  - injection H as <-. rewrite app_nil_r. auto.
  - destruct (append_row c b s r) as [s1| |] eqn:E; try discriminate.
    destruct (append_row_sorted _ _ _ _ _ E S) as (S1 & D1 & D2 & D3 & _).
    destruct (IH _ _ H S1) as (S2 & E1 & E2 & E3). rewrite <- app_assoc in S2. repeat split; try congruence; apply S2.
Qed.
Lemma append_sorted s b s' P : append c s b = Ok s' -> sorted_in s P ->
  sorted_in s' (P ++ map (pair (content b)) (rows b)) /\ data s' = data s ++ [b] /\ done s' = done s /\ current s' = current s.
Proof.
  unfold append. intros H S. destruct (append_rows _ _ _ _) as [s1| |] eqn:E; try discriminate. injection H as <-.
  destruct (append_rows_sorted _ _ _ _ _ E S) as (S1 & D1 & D2 & D3). cbn. repeat split; try congruence; apply S1.
Qed.
Lemma advance_current (s : state) : current (advance c s) = (current s + 1)%Z.
Proof. unfold advance. now destruct (release _ _ _). Qed.
Lemma advance_rows (s : state) : data_rows (advance c s) = match tl (data_rows s) with [] => [[]] | l => l end.
Proof. unfold advance. now destruct (release _ _ _). Qed.
Lemma advance_last (s : state) : last_complete (advance c s) = map (fun z => z - 1)%Z (last_complete s).
Proof. unfold advance. now destruct (release _ _ _). Qed.
Lemma advance_sorted s P : sorted_in s P -> sorted_in (advance c s) P.
Proof.
  intros [NE S]. split; rewrite advance_rows.
  - destruct (tl (data_rows s)); discriminate.
  - intros k. rewrite advance_current. replace (current s + 1 + Z.of_nat k)%Z with (current s + Z.of_nat (Datatypes.S k))%Z by lia.
    rewrite <- S. destruct (data_rows s) as [|x [|y l]]; [congruence| |reflexivity]. cbn. now destruct k as [|[|k]].
Qed.

(** ** The buffers that are held *)
Lemma release_spec cur (l d k : list buffer) : release c cur l = (d, k) -> l = d ++ k /\ Forall (fun b => all_old c cur b = true) d /\
  match k with [] => True | b :: _ => all_old c cur b = false end.
Proof.
  revert d k. induction l as [|b l IH]; intros d k H; cbn in H.
  - injection H as <- <-. auto.
  - destruct (all_old c cur b) eqn:E.
    + destruct (release c cur l) as [d' k'] eqn:F. injection H as <- <-. destruct (IH _ _ eq_refl) as (-> & F1 & F2). auto.
    + injection H as <- <-. auto.
Qed.
Lemma advance_held (s : state) : exists d, done (advance c s) = done s ++ d /\ data s = d ++ data (advance c s) /\
  Forall (fun b => all_old c (current s + 1) b = true) d /\
  match data (advance c s) with [] => True | b :: _ => all_old c (current s + 1) b = false end.
Proof.
  unfold advance. destruct (release c (current s + 1) (data s)) as [d k] eqn:E. destruct (release_spec _ _ _ _ E) as (? & ? & ?).
  exists d. cbn. auto.
Qed.
Lemma all_old_spec cur (b : buffer) : all_old c cur b = true <-> Forall (fun r => (index c (time r) < cur)%Z) (rows b).
Proof. unfold all_old. rewrite forallb_forall, Forall_forall. split; intros H r I; specialize (H r I); lia. Qed.
Lemma all_old_mono cur cur' (b : buffer) : (cur <= cur')%Z -> all_old c cur b = true -> all_old c cur' b = true.
Proof. rewrite !all_old_spec, !Forall_forall. intros L H r I. specialize (H r I). lia. Qed.

(** The state after the buffers [F] are given, of which [G] are released. *)
Definition good (s : state) (F G : list buffer) : Prop :=
  sorted_in s (all_rows F) /\ F = G ++ data s /\ Forall (fun b => all_old c (current s) b = true) G.

Lemma good_append s b s' F G : append c s b = Ok s' -> good s F G -> good s' (F ++ [b]) G /\ current s' = current s /\ done s' = done s.
Proof.
  intros H (S & E & O). destruct (append_sorted _ _ _ _ H S) as (S1 & D1 & D2 & D3). split; [|auto]. split; [|split].
  - rewrite all_rows_app. cbn. now rewrite app_nil_r.
  - now rewrite D1, E, app_assoc.
  - now rewrite D3.
Qed.
Lemma good_advance s F G : good s F G -> exists d, done (advance c s) = done s ++ d /\ good (advance c s) F (G ++ d) /\ data s = d ++ data (advance c s).
Proof.
  intros (S & E & O). destruct (advance_held s) as (d & D1 & D2 & D3 & _). exists d. split; auto. split; [|exact D2]. split; [|split].
  - now apply advance_sorted.
  - now rewrite <- app_assoc, <- D2.
  - rewrite advance_current. apply Forall_app. split; auto. eapply Forall_impl; [|exact O]. intros b. apply all_old_mono. lia.
Qed.
Lemma good_get_done s F G : good s F G -> good (fst (get_done s)) F G.
Proof. auto. Qed.
Lemma good_init n : good (init n) [] [].
Proof. split; [split; [discriminate|]|split; auto]. intros [|[|k]]; reflexivity. Qed.

Lemma calls_good l : forall s F G s' d, good s F G -> do_calls c s l = Ok (s', d) ->
  current s' = (current s + Z.of_nat (advances l))%Z /\ (exists G', good s' (given l F) G') /\
  (~ In Clear l -> forall D, G = D ++ done s -> good s' (given l F) (D ++ d ++ done s')).
Proof.
  induction l as [|o l IH]; intros s F G s' d Hg H; cbn in H.
  - injection H as <- <-. cbn. split; [lia|]. split; [eauto|]. intros _ D ->. exact Hg.
  - destruct o as [b| | |]; cbn [do_call] in H; cbn [advances given].
    + destruct (append c s b) as [s1| |] eqn:E; try discriminate. destruct (do_calls c s1 l) as [[s2 d2]| |] eqn:E2; try discriminate.
      injection H as <- <-. destruct (good_append _ _ _ _ _ E Hg) as (Hg1 & C1 & D1).
      destruct (IH _ _ _ _ _ Hg1 E2) as (I1 & I2 & I3). rewrite C1 in I1. split; auto. split; auto.
      intros N D ->. apply I3; [intros I; apply N; now right|]. now rewrite D1.
    + destruct (do_calls c (advance c s) l) as [[s2 d2]| |] eqn:E2; try discriminate. injection H as <- <-.
      destruct (good_advance _ _ _ Hg) as (x & D1 & Hg1 & _). destruct (IH _ _ _ _ _ Hg1 E2) as (I1 & I2 & I3).
      rewrite advance_current in I1. split; [lia|]. split; auto.
      intros N D ->. apply I3; [intros I; apply N; now right|]. now rewrite D1, app_assoc.
    + cbn in H. destruct (do_calls c _ l) as [[s2 d2]| |] eqn:E2; try discriminate. injection H as <- <-.
      destruct (IH _ F G _ _ (Hg : good (fst (get_done s)) F G) E2) as (I1 & I2 & I3). split; auto. split; auto.
      intros N D ->. rewrite <- app_assoc, app_assoc. apply I3; [intros I; apply N; now right|]. cbn [done]. now rewrite app_nil_r.
    + destruct (do_calls c (clear s) l) as [[s2 d2]| |] eqn:E2; try discriminate. injection H as <- <-.
      assert (Hc : good (clear s) [] []). { split; [split; [discriminate|]|split; auto]. intros [|[|k]]; reflexivity. }
      destruct (IH _ _ _ _ _ Hc E2) as (I1 & I2 & I3). split; auto. split; auto. intros N. exfalso. apply N. now left.
Qed.

(** ** Input in order *)
Definition first_index (r : row X) : Z := index c (begin r).
Definition ready (n : nat) (s : state) (Q : list (row X)) : Prop :=
  length (last_complete s) = n /\
  (forall r z, In r Q -> nth_error (last_complete s) (baseline r) = Some z -> (z + 1 <= first_index r - current s)%Z) /\
  (forall r, In r Q -> (current s <= first_index r)%Z).

Lemma begin_index (r : row X) : (0 <= width r)%Qc -> (first_index r <= index c (time r))%Z.
Proof.
  intros H. apply index_mono; auto. unfold begin. assert (0 <= half * width r)%Qc.
  { rewrite <- (Qcmult_0_l (width r)). apply Qcmult_le_compat_r; auto. apply qleb_true. reflexivity. }
  generalize dependent (half * width r)%Qc. intros. qclra.
Qed.
Lemma nth_error_set_nth {A} (l : list A) i j x : nth_error (set_nth l i x) j = if (i =? j) && (i <? length l) then Some x else nth_error l j.
Proof.
  revert i j. induction l as [|a l IH]; intros [|i] [|j]; cbn; try reflexivity; try (now rewrite andb_false_r); auto.
  rewrite IH. reflexivity.
Qed.
Lemma append_row_ready n b s r Q : ordered c n (r :: Q) -> ready n s (r :: Q) -> exists s', append_row c b s r = Ok s' /\ ready n s' Q.
Proof.
  intros [Fo Or] (L & R1 & R2). inversion Fo as [|? ? (H1 & H2 & H3) Fo']; subst. inversion Or as [|? ? O1 O2]; subst.
  unfold append_row, relative. pose proof (begin_index r H2) as Bi. pose proof (R2 r (or_introl eq_refl)) as C1.
  destruct (Z.ltb_spec (index c (time r) - current s) 0); [lia|].
  destruct (nth_error (last_complete s) (baseline r)) as [z|] eqn:E.
  2: { apply nth_error_None in E. lia. }
  pose proof (R1 r z (or_introl eq_refl) E) as C2. change (index c (time r - half * width r)%Qc) with (first_index r).
  destruct (Z.ltb_spec (first_index r - current s) z); [lia|]. eexists. split; [reflexivity|]. split; [cbn; now rewrite set_nth_length|].
  cbn [current last_complete]. split.
  - intros r' z' I G. rewrite nth_error_set_nth in G. destruct (Nat.eqb_spec (baseline r) (baseline r')) as [Eb|Nb].
    + replace (baseline r <? length (last_complete s)) with true in G by (symmetry; now apply Nat.ltb_lt). injection G as <-.
      rewrite Forall_forall in O1. assert (first_index r <= first_index r')%Z; [|lia]. apply index_mono; auto.
    + cbn in G. apply R1; auto. now right.
  - intros r' I. apply R2. now right.
Qed.
Lemma ordered_app n (l l' : list (row X)) : ordered c n (l ++ l') -> ordered c n l'.
Proof.
  intros [F O]. split; [now apply Forall_app in F|]. clear F. induction l as [|x l IH]; auto. cbn in O. inversion O; subst. auto.
Qed.
Lemma append_rows_ready n b l : forall s Q, ordered c n (l ++ Q) -> ready n s (l ++ Q) -> exists s', append_rows c b s l = Ok s' /\ ready n s' Q.
Proof.
  induction l as [|r l IH]; intros s Q O R; cbn.
  - eauto.
  - cbn [app] in O, R. destruct (append_row_ready n b s r _ O R) as (s1 & E & R1). rewrite E. apply IH; auto. now apply (ordered_app n [r]).
Qed.
Definition plain (l : list buffer) : list (row X) := flat_map rows l.
Lemma append_all_ready n l : forall s Q F G, ordered c n (plain l ++ Q) -> ready n s (plain l ++ Q) -> good s F G ->
  exists s', append_all c s l = Ok s' /\ ready n s' Q /\ good s' (F ++ l) G /\ current s' = current s /\ done s' = done s.
Proof.
  induction l as [|b l IH]; intros s Q F G O R Hg; cbn [append_all].
  - exists s. rewrite app_nil_r. auto.
  - cbn [plain flat_map] in O, R. rewrite <- app_assoc in O, R.
    destruct (append_rows_ready n (content b) _ s _ O R) as (s1 & E & R1).
    assert (A : append c s b = Ok (State (data s1 ++ [b]) (done s1) (current s1) (last_complete s1) (data_rows s1))) by (unfold append; now rewrite E).
    rewrite A. destruct (good_append _ _ _ _ _ A Hg) as (Hg1 & C1 & D1).
    destruct (IH _ Q _ _ (ordered_app n _ _ O) (R1 : ready n (State (data s1 ++ [b]) (done s1) (current s1) (last_complete s1) (data_rows s1)) _) Hg1) as (s2 & E2 & R2 & Hg2 & C2 & D2).
    exists s2. rewrite <- app_assoc in Hg2. repeat split; auto; try congruence; try apply R2; apply Hg2.
Qed.

Lemma fold_min_le l : forall z, (fold_left Z.min l z <= z)%Z /\ Forall (fun x => fold_left Z.min l z <= x)%Z l.
Proof.
  induction l as [|a l IH]; intros z; cbn; [split; [lia|constructor]|]. destruct (IH (Z.min z a)) as [H1 H2]. split; [lia|]. constructor; auto. lia.
Qed.
Lemma complete_true (s : state) : complete s = Ok true -> last_complete s <> [] /\ Forall (fun z => 0 <= z)%Z (last_complete s).
Proof.
  unfold complete. destruct (last_complete s) as [|z l]; [discriminate|]. intros [= H]. apply Z.leb_le in H. split; [discriminate|].
  destruct (fold_min_le l z) as [H1 H2]. constructor; [lia|]. eapply Forall_impl; [|exact H2]. cbn. lia.
Qed.
Lemma ready_advance n s Q : complete s = Ok true -> (forall r, In r Q -> baseline r < n) -> ready n s Q ->
  ready n (advance c s) Q /\ forall r, In r Q -> (current s + 1 <= first_index r)%Z.
Proof.
  intros Hc Hb (L & R1 & R2). apply complete_true in Hc as (_ & P).
  assert (K : forall r, In r Q -> (current s + 1 <= first_index r)%Z).
  { intros r I. destruct (nth_error (last_complete s) (baseline r)) as [z|] eqn:E.
    - pose proof (R1 r z I E). rewrite Forall_forall in P. specialize (P z (nth_error_In _ _ E)). lia.
    - apply nth_error_None in E. specialize (Hb r I). lia. }
  split; auto. split; [rewrite advance_last; now rewrite map_length|]. split.
  - intros r z I. rewrite advance_last, advance_current, nth_error_map. destruct (nth_error _ (baseline r)) as [z'|] eqn:E; [|discriminate].
    intros [= <-]. specialize (R1 r z' I E). lia.
  - intros r I. rewrite advance_current. auto.
Qed.

(** ** The step *)
Definition solved_upto (F : list buffer) (k : Z) : list (list interval_row) := map (fun i => rows_of c (Z.of_nat i) F) (seq 0 (Z.to_nat k)).
Definition step_good (p : step B X) (F : list buffer) (All : list buffer) : Prop :=
  (0 <= current (solver_buffer p))%Z /\ good (solver_buffer p) F (sent p ++ done (solver_buffer p)) /\
  solved p = solved_upto All (current (solver_buffer p)).

Lemma solve_one p F Q : step_good p F (F ++ Q) -> (forall r, In r (plain Q) -> (current (solver_buffer p) + 1 <= index c (time r))%Z) ->
  step_good (Step (advance c (solver_buffer p)) (solved p ++ [interval_rows (solver_buffer p)]) (sent p)) F (F ++ Q).
Proof.
  intros (C0 & Hg & So) Fu. split; [|split]; cbn [solver_buffer sent solved].
  - rewrite advance_current. lia.
  - destruct (good_advance _ _ _ Hg) as (d & D1 & Hg1 & _). now rewrite D1, app_assoc.
  - rewrite advance_current. unfold solved_upto. replace (Z.to_nat (current (solver_buffer p) + 1)) with (Z.to_nat (current (solver_buffer p)) + 1) by lia.
    rewrite seq_app, map_app. cbn [seq map Nat.add]. rewrite So. do 2 f_equal.
    destruct Hg as ((_ & S) & _). unfold interval_rows. rewrite S. rewrite rows_of_index, all_rows_app, filter_app.
    replace (current (solver_buffer p) + Z.of_nat 0)%Z with (Z.of_nat (Z.to_nat (current (solver_buffer p)))) by lia.
    match goal with |- _ = _ ++ ?x => assert (K : x = []) end; [|now rewrite K, app_nil_r].
    apply incl_l_nil. intros [x r] I. exfalso. apply filter_In in I as [I E]. apply in_all_rows in I as (b & I1 & _ & I2).
    assert (In r (plain Q)) as I3 by (apply in_flat_map; eauto). specialize (Fu r I3). apply Z.eqb_eq in E. cbn [snd] in E. lia.
Qed.

Lemma solve_complete_good n fuel : forall p F Q, 0 < n -> ordered c n (plain Q) -> ready n (solver_buffer p) (plain Q) -> step_good p F (F ++ Q) ->
  Forall (fun z => z < Z.of_nat fuel)%Z (last_complete (solver_buffer p)) ->
  exists p', solve_complete c fuel p = Ok p' /\ ready n (solver_buffer p') (plain Q) /\ step_good p' F (F ++ Q).
Proof.
  induction fuel as [|fuel IH]; intros p F Q Hn Or R G Fz; cbn [solve_complete]; destruct (complete (solver_buffer p)) as [[|]| |] eqn:E;
    try (exists p; now auto).
  - exfalso. apply complete_true in E as [NE P]. destruct (last_complete (solver_buffer p)) as [|z l]; [congruence|].
    inversion P; inversion Fz; subst. lia.
  - exfalso. unfold complete in E. destruct (last_complete _); discriminate.
  - exfalso. unfold complete in E. destruct R as (L & _). destruct (last_complete _); [cbn in L; lia|discriminate].
  - destruct (ready_advance n _ (plain Q) E) as [R1 K]; auto.
    { destruct Or as [Fo _]. rewrite Forall_forall in Fo. intros r I. now apply Fo. }
    apply IH; auto.
    + apply solve_one; auto. intros r I. specialize (K r I). destruct Or as [Fo _]. rewrite Forall_forall in Fo.
      destruct (Fo r I) as (_ & W & _). pose proof (begin_index r W). lia.
    + cbn [solver_buffer]. rewrite advance_last. apply Forall_map. eapply Forall_impl; [|exact Fz]. cbn. lia.
  - exfalso. unfold complete in E. destruct (last_complete _); discriminate.
  - exfalso. unfold complete in E. destruct R as (L & _). destruct (last_complete _); [cbn in L; lia|discriminate].
Qed.
Lemma fold_max_ge l : forall z, (z <= fold_left Z.max l z)%Z /\ Forall (fun x => x <= fold_left Z.max l z)%Z l.
Proof.
  induction l as [|a l IH]; intros z; cbn; [split; [lia|constructor]|]. destruct (IH (Z.max z a)) as [H1 H2]. split; [lia|]. constructor; auto. lia.
Qed.
Lemma process_good n p F l Q : 0 < n -> ordered c n (plain l ++ plain Q) -> ready n (solver_buffer p) (plain l ++ plain Q) -> step_good p F (F ++ l ++ Q) ->
  exists p', process c p l = Ok p' /\ ready n (solver_buffer p') (plain Q) /\ step_good p' (F ++ l) ((F ++ l) ++ Q).
Proof.
  intros Hn Or R (C0 & Hg & So). unfold process. destruct (append_all_ready n l _ _ _ _ Or R Hg) as (s & E & R1 & Hg1 & C1 & D1). rewrite E.
  destruct (solve_complete_good n (S (Z.to_nat (fold_left Z.max (last_complete s) 0%Z))) (Step s (solved p) (sent p)) (F ++ l) Q) as (p' & E' & R' & G'); auto.
  - now apply ordered_app in Or.
  - split; [|split]; cbn [solver_buffer sent solved]; [lia|now rewrite D1|]. now rewrite C1, <- app_assoc.
  - cbn [solver_buffer]. destruct (fold_max_ge (last_complete s) 0%Z) as [M1 M2]. eapply Forall_impl; [|exact M2]. cbn. lia.
  - rewrite E'. eexists. split; [reflexivity|]. split; [exact R'|]. destruct G' as (G1 & G2 & G3). unfold process_done. cbn [get_done].
    split; [|split]; cbn [solver_buffer sent solved current]; auto. cbn [done]. now rewrite app_nil_r.
Qed.
Lemma plain_app (l l' : list buffer) : plain (l ++ l') = plain l ++ plain l'.
Proof. apply flat_map_app. Qed.

Lemma solve_rest_good fuel : forall p F, step_good p F F ->
  (forall b r, In b (data (solver_buffer p)) -> In r (rows b) -> (index c (time r) - current (solver_buffer p) < Z.of_nat (S fuel))%Z) ->
  exists p', solve_rest c (S fuel) p = Ok p' /\ step_good p' F F /\ data (solver_buffer p') = [].
Proof.
  induction fuel as [|fuel IH]; intros p F G H.
  - cbn [solve_rest]. destruct (data (solver_buffer p)) as [|b l] eqn:E; [eauto|].
    assert (G' : step_good (Step (advance c (solver_buffer p)) (solved p ++ [interval_rows (solver_buffer p)]) (sent p)) F F).
    { rewrite <- (app_nil_r F) at 2. apply solve_one; [now rewrite app_nil_r|]. intros r []. }
    assert (D : data (advance c (solver_buffer p)) = []).
    { destruct (advance_held (solver_buffer p)) as (d & _ & D2 & _ & D4). rewrite E in D2. destruct (data (advance c (solver_buffer p))) as [|b' k]; auto. exfalso.
      assert (O : all_old c (current (solver_buffer p) + 1) b' = true).
      { apply all_old_spec, Forall_forall. intros r I. specialize (H b' r). rewrite D2 in H. specialize (H (in_elt _ _ _) I). lia. }
      congruence. }
    cbn [solver_buffer]. rewrite D. eauto.
  - cbn [solve_rest]. destruct (data (solver_buffer p)) as [|b l] eqn:E; [eauto|].
    apply IH.
    + rewrite <- (app_nil_r F) at 2. apply solve_one; [now rewrite app_nil_r|]. intros r [].
    + cbn [solver_buffer]. intros b' r I1 I2. rewrite advance_current. destruct (advance_held (solver_buffer p)) as (d & _ & D2 & _).
      rewrite E in D2. specialize (H b' r). rewrite D2 in H. specialize (H ltac:(apply in_or_app; now right) I2). lia.
Qed.

Lemma run_good n l : forall p F, 0 < n -> ordered c n (plain (concat l)) -> ready n (solver_buffer p) (plain (concat l)) -> step_good p F (F ++ concat l) ->
  exists p', run c p l = Ok p' /\ sent p' = F ++ concat l /\ exists m, solved p' = solved_upto (F ++ concat l) m /\
    Forall (fun r => (index c (time r) < m)%Z) (plain (F ++ concat l)).
Proof.
  induction l as [|bs l IH]; intros p F Hn Or R G; cbn [run concat] in *.
  - rewrite app_nil_r in *. unfold finish.
    assert (L : exists k, length (data_rows (solver_buffer p)) = S k).
    { destruct G as (_ & ((NE & _) & _) & _). destruct (data_rows _); [congruence|]. eexists; reflexivity. }
    destruct L as [k L]. rewrite L. destruct (solve_rest_good k p F G) as (p' & E & (C1 & (S1 & E1 & O1) & So) & D).
    { intros b r I1 I2. destruct G as (_ & ((_ & S) & E & _) & _).
      destruct (Z.lt_ge_cases (index c (time r) - current (solver_buffer p)) (Z.of_nat (Datatypes.S k))) as [|W]; auto. exfalso.
      specialize (S (Z.to_nat (index c (time r) - current (solver_buffer p)))). rewrite nth_overflow in S by (rewrite L; lia).
      assert (I : @List.In interval_row (content b, r) []); [|destruct I]. rewrite S. apply filter_In. cbn [snd]. split; [|apply Z.eqb_eq; lia].
      apply in_all_rows. exists b. split; auto. rewrite E. apply in_or_app. now right. }
    rewrite E. eexists. split; [reflexivity|]. unfold process_done, get_done. cbn [sent solved]. rewrite D, app_nil_r in E1. split; [congruence|].
    exists (current (solver_buffer p')). split; auto. rewrite <- E1 in O1. apply Forall_flat_map. eapply Forall_impl; [|exact O1].
    intros b. apply all_old_spec.
  - rewrite plain_app in Or, R. destruct (process_good n p F bs (concat l) Hn Or R) as (p1 & E & R1 & G1); auto.
    rewrite E. destruct (IH p1 (F ++ bs) Hn (ordered_app n _ _ Or) R1 G1) as (p2 & E2 & S2). rewrite <- app_assoc in S2. eauto.
Qed.
Lemma init_ready n Q : ordered c n Q -> ready n (init n) Q.
Proof.
  intros [Fo _]. rewrite Forall_forall in Fo. assert (K : forall r, In r Q -> (0 <= first_index r)%Z).
  { intros r I. destruct (Fo r I) as (_ & _ & H). apply index_le; auto. replace (start c + qz 0 * duration c)%Qc with (start c); auto.
    unfold qz. change (Q2Qc (inject_Z 0)) with 0%Qc. ring. }
  split; [apply repeat_length|]. split; cbn.
  - intros r z I E. apply nth_error_In, repeat_spec in E. subst. specialize (K r I). lia.
  - intros r I. now apply K.
Qed.
End Buffer.
