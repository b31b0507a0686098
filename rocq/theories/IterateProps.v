(** C71: when a solver stops and what it reports; C72: the iterations of the hybrid solver. *)
From Coq Require Import QArith Qcanon List Bool Arith NArith ZArith Lia Reals Qreals.
From Verif Require Import QcUtil AverageModel Cplx GainFit IterateModel IterateSpec IterateProofs.
Import ListNotations.
Open Scope nat_scope.

(** * The loop *)
Section Loop.
Context {S N K : Type}.
Variable next_of : S -> N.
Variable constrain : K -> nat -> bool -> bool -> N -> K * N * bool.
Variable magnitude : S -> N -> Qc.
Variable copy : N -> S.
Variable cfg : settings.
Variables (sols0 : S) (k0 : K).
(** The iterations without an end: the solutions, the state of the constraints and whether an iteration before has converged *)
Fixpoint state (n : nat) : S * K * bool :=
  match n with
  | 0 => (sols0, k0, false)
  | Datatypes.S n =>
      let '(s, k, p) := state n in
      let '(k', nx, sat) := constrain k n p (max_iterations cfg <=? Datatypes.S n) (next_of s) in
      (copy nx, k', has_converged cfg sat (magnitude s nx) || p)
  end.
Definition outcome_of (n : nat) : K * N * bool := let '(s, k, p) := state n in constrain k n p (max_iterations cfg <=? Datatypes.S n) (next_of s).
(** Whether the constraints are satisfied in iteration n, and whether it has converged; iterations are counted from one *)
Definition satisfied_in (n : nat) : bool := snd (outcome_of (n - 1)).
Definition converged_in (n : nat) : bool := has_converged cfg (satisfied_in n) (magnitude (fst (fst (state (n - 1)))) (snd (fst (outcome_of (n - 1))))).
Definition solutions_after (n : nat) : S := fst (fst (state n)).
Definition may_stop (n : nat) : Prop := min_iterations cfg <= n /\ (max_iterations cfg <= n \/ (converged_in n = true /\ satisfied_in n = true)).

Lemma state_S n : state (Datatypes.S n) = (copy (snd (fst (outcome_of n))), fst (fst (outcome_of n)), converged_in (Datatypes.S n) || snd (state n)).
Proof.
  unfold converged_in, satisfied_in, outcome_of. replace (Datatypes.S n - 1) with n by lia. cbn [state]. destruct (state n) as [[s k] p]. destruct (constrain _ _ _ _ _) as [[k' nx] sat]. reflexivity.
Qed.
Hypothesis no_stalling : detect_stalling cfg = false.
Lemma loop_spec fuel : forall n st steps, 0 < fuel -> may_stop (n + fuel) ->
  exists m, n < m <= n + fuel /\ may_stop m /\ (forall j, n < j < m -> ~ may_stop j) /\
  loop next_of constrain magnitude copy cfg fuel (fst (fst (state n))) (snd (fst (state n))) st n (snd (state n)) steps =
    Ok (make_result m (converged_in m) (satisfied_in m), solutions_after m, converged_in m && satisfied_in m, st).
Proof.
  induction fuel as [|fuel IH]; intros n st steps Hf Hs; [lia|]. cbn [loop].
  assert (E : constrain (snd (fst (state n))) n (snd (state n)) (max_iterations cfg <=? Datatypes.S n) (next_of (fst (fst (state n)))) = outcome_of n) by (unfold outcome_of; destruct (state n) as [[]]; reflexivity).
  rewrite E. destruct (outcome_of n) as [[k nx] sat] eqn:O.
  assert (C : has_converged cfg sat (magnitude (fst (fst (state n))) nx) = converged_in (Datatypes.S n)) by (unfold converged_in, satisfied_in; replace (Datatypes.S n - 1) with n by lia; rewrite O; reflexivity).
  assert (T : sat = satisfied_in (Datatypes.S n)) by (unfold satisfied_in; replace (Datatypes.S n - 1) with n by lia; rewrite O; reflexivity).
  rewrite C. unfold reached. rewrite no_stalling. cbn [andb]. rewrite orb_false_r, T.
  pose proof (state_S n) as SS. rewrite O in SS. cbn [fst snd] in SS.
  destruct ((min_iterations cfg <=? Datatypes.S n) && ((max_iterations cfg <=? Datatypes.S n) || converged_in (Datatypes.S n) && satisfied_in (Datatypes.S n))) eqn:R.
  - exists (Datatypes.S n). split; [lia|]. apply andb_true_iff in R as [R1 R2]. apply Nat.leb_le in R1. split.
    + split; [exact R1|]. apply orb_true_iff in R2 as [R2|R2]; [left; now apply Nat.leb_le|right; now apply andb_true_iff].
    + split; [intros; lia|]. unfold solutions_after. rewrite SS. reflexivity.
  - assert (NS : ~ may_stop (Datatypes.S n)).
    { intros [M1 M2]. apply Nat.leb_le in M1. rewrite M1 in R. cbn [andb] in R. destruct M2 as [M2|[M2 M3]]; [apply Nat.leb_le in M2; now rewrite M2 in R|]. rewrite M2, M3 in R. now rewrite orb_true_r in R. }
    destruct fuel as [|fuel]; [elim NS; now replace (n + 1) with (Datatypes.S n) in Hs by lia|].
    destruct (IH (Datatypes.S n) st (steps ++ [magnitude (fst (fst (state n))) nx])) as (m & M1 & M2 & M3 & M4); [lia|now replace (Datatypes.S n + Datatypes.S fuel) with (n + Datatypes.S (Datatypes.S fuel)) by lia|].
    rewrite SS in M4. cbn [fst snd] in M4. exists m. split; [lia|]. split; [exact M2|]. split; [|exact M4].
    intros j Hj. destruct (Nat.eq_dec j (Datatypes.S n)) as [->|]; [exact NS|apply M3; lia].
Qed.
End Loop.

(** * C71: when it stops *)
(** For any solver steps, constraints and settings, without the detection of stalling: the solver stops after the first iteration, from the minimum on, that is the last allowed
    one or has converged with all constraints satisfied, and gives the solutions of that iteration.  That is at most the larger of the minimum and the maximum. *)
Theorem C71_stop : forall S N K next_of (constrain : K -> nat -> bool -> bool -> N -> K * N * bool) magnitude (copy : N -> S) cfg sols k st,
  detect_stalling cfg = false ->
  let satisfied := satisfied_in next_of constrain magnitude copy cfg sols k in
  let converged := converged_in next_of constrain magnitude copy cfg sols k in
  exists n, solve next_of constrain magnitude copy cfg sols k st = Ok (make_result n (converged n) (satisfied n), solutions_after next_of constrain magnitude copy cfg sols k n, converged n && satisfied n, st) /\
  first_stop (fun n => min_iterations cfg <= n /\ (max_iterations cfg <= n \/ (converged n = true /\ satisfied n = true))) n /\
  n <= Nat.max 1 (Nat.max (min_iterations cfg) (max_iterations cfg)).
Proof.
  intros S N K next_of constrain magnitude copy cfg sols k st D satisfied converged.
  destruct (loop_spec next_of constrain magnitude copy cfg sols k D (Nat.max 1 (Nat.max (min_iterations cfg) (max_iterations cfg))) 0 st []) as (n & H1 & H2 & H3 & H4); [lia|split; [lia|left; lia]|].
  exists n. split; [exact H4|]. split; [|lia]. split; [lia|]. split; [exact H2|]. intros m Hm. apply H3. lia.
Qed.
Print Assumptions C71_stop.

(** Then the reported number of iterations tells whether it has converged: it is more than the maximum, by one, exactly if the last iteration has not. *)
Theorem C71_reported : forall S N K next_of (constrain : K -> nat -> bool -> bool -> N -> K * N * bool) magnitude (copy : N -> S) cfg sols k st,
  detect_stalling cfg = false -> 1 <= max_iterations cfg -> min_iterations cfg <= max_iterations cfg ->
  exists r s b st', solve next_of constrain magnitude copy cfg sols k st = Ok (r, s, b, st') /\
  (iterations r <= max_iterations cfg <-> b = true) /\ (b = false -> iterations r = max_iterations cfg + 1).
Proof.
  intros S N K next_of constrain magnitude copy cfg sols k st D M1 M2.
  destruct (C71_stop S N K next_of constrain magnitude copy cfg sols k st D) as (n & E & (F1 & F2 & F3) & L). cbv zeta in *.
  do 4 eexists. split; [exact E|]. set (c := converged_in _ _ _ _ _ _ _ n) in *. set (t := satisfied_in _ _ _ _ _ _ _ n) in *. clearbody c t. unfold make_result. cbn [iterations].
  destruct c, t; cbn [andb]; (split; [split; [intros; try reflexivity; exfalso|intros; try discriminate; lia]|intros; try discriminate]); destruct F2 as [F2 [F4|[F4 F5]]]; try discriminate; lia.
Qed.
Print Assumptions C71_reported.
(** A case: the solutions are numbers that are halved in every step, and the constraints are satisfied from the third iteration on *)
Definition halve (s : Qc) : Qc := (s * half)%Qc.
Definition case_constrain (k : nat) (i : nat) (p l : bool) (n : Qc) : nat * Qc * bool := (S k, n, 2 <=? k).
Definition case_cfg (m : nat) (d : bool) : settings := Settings 0 m half half d 1%Qc.
Example C71_stop_case : exists s, solve halve case_constrain (fun s n => (s - n)%Qc) (fun n => n) (case_cfg 9 false) (qn 4) 0 None = Ok (Result 3 0, s, true, None) /\ this s = (1 # 2)%Q.
Proof. eexists. split; vm_compute; reflexivity. Qed.
Example C71_reported_case : exists s, solve halve case_constrain (fun s n => (s - n)%Qc) (fun n => n) (case_cfg 2 false) (qn 4) 0 None = Ok (Result 3 3, s, false, None).
Proof. eexists. vm_compute. reflexivity. Qed.

(** * C71: stalling *)
(** For any sequence of steps: the detection keeps their mean and variance, and says that the solver has stalled if there are at least 30 and the mean is less than
    [sigma] times the square root of the variance. *)
Theorem C71_stall : forall sigma l, l <> [] ->
  let run := fold_left (fun o n => match o with Ok (st, _) => detect_stall sigma st n (firstn n l) | o => o end) (seq 1 (length l)) (Ok (None, false)) in
  exists st b, run = Ok (Some st, b) /\ count st = length l /\ mean st = mean_of l /\ (var st / qn (count st))%Qc = variance_of l /\
  (b = true <-> 30 <= length l /\ (Q2R (mean_of l) < Q2R sigma * sqrt (Q2R (variance_of l)))%R).
Proof.
  intros sigma l Hl. cbv zeta.
  assert (G : forall n, n <= length l -> 0 < n -> exists st,
    fold_left (fun o n => match o with Ok (st, _) => detect_stall sigma st n (firstn n l) | o => o end) (seq 1 n) (Ok (None, false)) =
    Ok (Some st, if n <? 30 then false else below_root (mean_of (firstn n l)) sigma (variance_of (firstn n l))) /\ good st (firstn n l)).
  { induction n as [|n IH]; intros H1 H2; [lia|].
    assert (F : firstn (S n) l = firstn n l ++ [nth n l 0%Qc]).
    { clear - H1. revert n H1. induction l as [|x l IH]; intros n H1; [cbn in H1; lia|]. destruct n as [|n]; [reflexivity|]. cbn [firstn app nth]. f_equal. apply IH. cbn in H1. lia. }
    assert (L : length (firstn n l) = n) by (apply firstn_length_le; lia).
    rewrite seq_S, fold_left_app. cbn [fold_left plus].
    destruct n as [|n].
    - cbn [seq fold_left]. rewrite F. cbn [firstn app]. destruct (detect_spec sigma None [] (nth 0 l 0%Qc) I) as (st & E & Gd). exists st. split; [exact E|exact Gd].
    - destruct IH as (st & E & Gd); [lia|lia|]. rewrite E. rewrite F. destruct (detect_spec sigma (Some st) (firstn (S n) l) (nth (S n) l 0%Qc)) as (st' & E' & G').
      { unfold good_or_first. destruct (firstn (S n) l); auto. }
      rewrite L in E'. exists st'. split; [exact E'|exact G']. }
  destruct (G (length l)) as (st & E & G1 & G2 & G3); [lia|destruct l; [easy|cbn; lia]|]. rewrite firstn_all in *. exists st. eexists. split; [exact E|]. split; [exact G1|]. split; [exact G2|].
  split; [unfold variance_of; now rewrite G1, G3|].
  assert (V : (0 <= variance_of l)%Qc). { unfold variance_of, Qcdiv. replace 0%Qc with (0 * / qn (length l))%Qc by ring. apply Qcmult_le_compat_r.
    - apply qsum_nonneg. intros x Hx. apply in_map_iff in Hx as (y & <- & _). apply qc_square_nonneg.
    - apply Qclt_le_weak, qc_inv_pos, qn_pos. destruct l; [easy|cbn; lia]. }
  rewrite <- below_root_real by exact V. destruct (Nat.ltb_spec (length l) 30); split; intros; try discriminate; try lia; tauto.
Qed.
Print Assumptions C71_stall.
(** With one large step among small ones, 30 steps stall for sigma = 1 *)
Example C71_stall_case : let l := qn 100 :: repeat 1%Qc 29 in exists st,
  fold_left (fun o n => match o with Ok (st, _) => detect_stall 1%Qc st n (firstn n l) | o => o end) (seq 1 (length l)) (Ok (None, false)) = Ok (Some st, true).
Proof. eexists. vm_compute. reflexivity. Qed.

(** If the square of sigma times the maximum number of iterations minus one is at most one, the detection of stalling never does anything: any steps (their sizes are not
    negative) give the same result with and without it. *)
Theorem C71_stall_never : forall S N K next_of (constrain : K -> nat -> bool -> bool -> N -> K * N * bool) magnitude (copy : N -> S) mi ma acc cacc sigma sols k st,
  (forall s n, 0 <= magnitude s n)%Qc -> (forall k i p l n, snd (constrain k i p l n) = true) -> (0 <= sigma)%Qc -> mi <= ma -> 1 <= ma -> (sigma * sigma * (qn ma - 1) <= 1)%Qc ->
  exists r s b st1 st2,
    solve next_of constrain magnitude copy (Settings mi ma acc cacc true sigma) sols k st = Ok (r, s, b, st1) /\
    solve next_of constrain magnitude copy (Settings mi ma acc cacc false sigma) sols k st = Ok (r, s, b, st2).
Proof.
  intros S N K next_of constrain magnitude copy mi ma acc cacc sigma sols k st HM HC HS H1 H2 HB. unfold solve. cbn [min_iterations max_iterations].
  assert (G : forall fuel sols k st st' it p steps, length steps = it -> it + fuel <= ma -> Nat.max mi ma <= it + fuel -> 0 < fuel -> good_or_first st steps -> (forall x, In x steps -> 0 <= x)%Qc ->
    exists r s b st1 st2, loop next_of constrain magnitude copy (Settings mi ma acc cacc true sigma) fuel sols k st it p steps = Ok (r, s, b, st1) /\
      loop next_of constrain magnitude copy (Settings mi ma acc cacc false sigma) fuel sols k st' it p steps = Ok (r, s, b, st2)).
  2:{ apply G; auto; try lia; [exact I|intros x []]. }
  clear sols k st. induction fuel as [|fuel IH]; intros sols k st st' it p steps L B B' P Gd Ns; [lia|]. cbn [loop min_iterations max_iterations].
  pose proof (HC k it p (ma <=? Datatypes.S it) (next_of sols)) as Hsat. destruct (constrain k it p (ma <=? Datatypes.S it) (next_of sols)) as [[k' nx] sat]. cbn [snd] in Hsat. subst sat.
  unfold reached. cbn [detect_stalling min_iterations max_iterations step_diff_sigma andb].
  destruct (detect_spec sigma st steps (magnitude sols nx) Gd) as (st1 & E & G'). rewrite L in E. rewrite E.
  assert (Ns' : forall x, In x (steps ++ [magnitude sols nx]) -> (0 <= x)%Qc). { intros x Hx. apply in_app_iff in Hx as [Hx|[<-|[]]]; auto. }
  assert (L' : length (steps ++ [magnitude sols nx]) = Datatypes.S it) by (rewrite app_length; cbn; lia).
  assert (NS : below_root (mean_of (steps ++ [magnitude sols nx])) sigma (variance_of (steps ++ [magnitude sols nx])) = false).
  { apply no_stall; auto; [now destruct steps|]. rewrite L'. eapply Qcle_trans; [|exact HB]. rewrite !(Qcmult_comm (sigma * sigma)). apply Qcmult_le_compat_r; [|apply qc_square_nonneg].
    assert (qn (Datatypes.S it) <= qn ma)%Qc by (apply qn_le; lia). qclra. }
  rewrite NS. replace (if Datatypes.S it <? 30 then false else false) with false by (destruct (_ <? _); reflexivity).
  change (has_converged (Settings mi ma acc cacc false sigma)) with (has_converged (Settings mi ma acc cacc true sigma)). set (c := has_converged _ _ _).
  destruct ((mi <=? Datatypes.S it) && ((ma <=? Datatypes.S it) || c && true || false)) eqn:R.
  - do 5 eexists. split; reflexivity.
  - destruct fuel as [|fuel].
    { exfalso. apply andb_false_iff in R as [R|R]; [apply Nat.leb_gt in R; lia|]. apply orb_false_iff in R as [R _]. apply orb_false_iff in R as [R _]. apply Nat.leb_gt in R. lia. }
    apply IH; auto; try lia. unfold good_or_first. destruct (steps ++ [magnitude sols nx]); auto.
Qed.
Print Assumptions C71_stall_never.
(** The default of 0.1 and at most 101 iterations (the default is 50) are such values. *)
Example C71_stall_never_case : (0 <= Q2Qc (1 # 10))%Qc /\ forall ma, ma <= 101 -> (Q2Qc (1 # 10) * Q2Qc (1 # 10) * (qn ma - 1) <= 1)%Qc.
Proof.
  split; [apply qleb_true; reflexivity|]. intros ma H. apply Qcle_trans with (Q2Qc (1 # 10) * Q2Qc (1 # 10) * (qn 101 - 1))%Qc; [|apply qleb_true; vm_compute; reflexivity].
  rewrite !(Qcmult_comm (Q2Qc (1 # 10) * Q2Qc (1 # 10))). apply Qcmult_le_compat_r; [|apply qc_square_nonneg]. assert (qn ma <= qn 101)%Qc by (now apply qn_le). qclra.
Qed.

(** If the solver has stalled, the reported number of iterations does not tell: it is at most the maximum, though the solver has not converged.  DDECal then keeps the solutions
    with flagunconverged, and starts from them with propagateconvergedonly. *)
Theorem C71_reported_refuted : exists (steps : nat -> Qc) cfg r s b st, detect_stalling cfg = true /\ min_iterations cfg <= max_iterations cfg /\
  solve (fun n : nat => S n) (fun (k : unit) _ _ _ n => (k, n, true)) (fun s _ => steps s) (fun n => n) cfg 0 tt None = Ok (r, s, b, st) /\ b = false /\ iterations r <= max_iterations cfg.
Proof.
  exists (fun n => match n with 0 => qn 100 | _ => 1%Qc end), (Settings 0 50 half half true 1%Qc). do 4 eexists. split; [reflexivity|]. split; [cbn; lia|]. split; [vm_compute; reflexivity|]. split; [reflexivity|]. cbn [iterations max_iterations]. lia.
Qed.
Print Assumptions C71_reported_refuted.
(** If the constraints are satisfied for the first time after the first iteration, the detection of stalling uses numbers that were never set. *)
Theorem C71_stall_refuted : exists cfg, detect_stalling cfg = true /\ solve halve case_constrain (fun s n => (s - n)%Qc) (fun n => n) cfg (qn 4) 0 None = Undefined.
Proof. exists (case_cfg 9 true). split; [reflexivity|]. vm_compute. reflexivity. Qed.
Print Assumptions C71_stall_refuted.

(** * C71: steps *)
(** A step goes the given fraction of the way to the next solution; a next solution that is not finite stays so. *)
Theorem C71_step : forall step s n, step_to step s None = None /\ exists x, step_to step s (Some n) = Some x /\
  csub x s = cscale step (csub n s) /\ csub n x = cscale (1 - step)%Qc (csub n s) /\ (n = s -> x = s).
Proof.
  intros step s n. split; [reflexivity|]. eexists. split; [reflexivity|]. split; [apply cplx_eq; cbn; ring|]. split; [apply cplx_eq; cbn; ring|]. intros ->. apply cplx_eq; cbn; ring.
Qed.
Print Assumptions C71_step.
Example C71_step_case : option_map (fun x => (this (re x), this (im x))) (step_to (Q2Qc (1 # 4)) (C 0%Qc 1%Qc) (Some (C (qn 4) (qn 5)))) = Some (1%Q, 2%Q).
Proof. vm_compute. reflexivity. Qed.

(** * C71: the size of a step *)
Lemma total_spec {S N} (change : S -> N -> Qc * nat) l : total change l = (qsum (map (fun p => fst (change (fst p) (snd p))) l), list_sum (map (fun p => snd (change (fst p) (snd p))) l)).
Proof.
  unfold total. assert (G : forall acc, fold_left (fun acc p => let c := change (fst p) (snd p) in ((fst acc + fst c)%Qc, snd acc + snd c)) l acc =
    ((fst acc + qsum (map (fun p => fst (change (fst p) (snd p))) l))%Qc, snd acc + list_sum (map (fun p => snd (change (fst p) (snd p))) l))).
  { induction l as [|p l IH]; intros [a n]; cbn [fold_left map].
    - rewrite qsum_nil. cbn. f_equal; [ring|lia].
    - rewrite IH. cbn [fst snd]. rewrite qsum_cons. unfold list_sum. cbn [fold_right]. f_equal; [ring|lia]. }
  rewrite G. cbn [fst snd]. f_equal. ring.
Qed.
Lemma magnitude_ext {S N S' N'} (c : S -> N -> Qc * nat) (c' : S' -> N' -> Qc * nat) step (f : S * N -> S' * N') l :
  (forall p, In p l -> c' (fst (f p)) (snd (f p)) = c (fst p) (snd p)) -> step_magnitude step c' (map f l) = step_magnitude step c l.
Proof.
  intros H. unfold step_magnitude. rewrite !total_spec, !map_map. cbn [fst snd].
  rewrite (map_ext_in (fun x => fst (c' (fst (f x)) (snd (f x)))) (fun x => fst (c (fst x) (snd x)))) by (intros p Hp; now rewrite H).
  rewrite (map_ext_in (fun x => snd (c' (fst (f x)) (snd (f x)))) (fun x => snd (c (fst x) (snd x)))) by (intros p Hp; now rewrite H). reflexivity.
Qed.
Lemma cnorm_pos_cases a : cnorm a = 0%Qc \/ cnorm a <> 0%Qc. Proof. destruct (Qc_eq_dec (cnorm a) 0); auto. Qed.
Lemma cinv_mul a b : cnorm a <> 0%Qc -> cnorm b <> 0%Qc -> cinv (cmul a b) = cmul (cinv a) (cinv b).
Proof.
  intros Ha Hb. unfold cinv. rewrite cnorm_mul. apply cplx_eq; cbn; field; split; auto.
Qed.
Lemma ratio_scale c n s : cnorm c <> 0%Qc -> cnorm s <> 0%Qc -> cmul (csub (cmul c n) (cmul c s)) (cinv (cmul c s)) = cmul (csub n s) (cinv s).
Proof.
  intros Hc Hs. rewrite cinv_mul by auto. transitivity (cmul (cmul c (cinv c)) (cmul (csub n s) (cinv s))); [ring|]. rewrite cinv_spec by auto. ring.
Qed.
Definition scale_mat (c : cplx) (m : mat) : mat := Mat (cmul c (m0 m)) (cmul c (m1 m)) (cmul c (m2 m)) (cmul c (m3 m)).
Lemma mul_neq0 (a b : Qc) : a <> 0%Qc -> b <> 0%Qc -> (a * b)%Qc <> 0%Qc.
Proof. intros Ha Hb H. apply Qcmult_integral in H as [H|H]; auto. Qed.
Lemma minvert_scale c s : cnorm c <> 0%Qc -> minvert (scale_mat c s) = match minvert s with Some i => Some (scale_mat (cinv c) i) | None => None end.
Proof.
  intros Hc. assert (D : mdet (scale_mat c s) = cmul (cmul c c) (mdet s)) by (unfold mdet; cbn; ring). unfold minvert. rewrite D.
  destruct (Qc_eq_dec (cnorm (mdet s)) 0) as [E|E], (Qc_eq_dec (cnorm (cmul (cmul c c) (mdet s))) 0) as [E'|E']; try reflexivity.
  - elim E'. rewrite !cnorm_mul, E. ring.
  - exfalso. rewrite !cnorm_mul in E'. revert E'. repeat apply mul_neq0; auto.
  - f_equal. rewrite !cinv_mul by (auto; rewrite cnorm_mul; now apply mul_neq0).
    assert (Q : cmul c (cinv c) = c1) by (now apply cinv_spec).
    apply mat_eq; cbn; match goal with |- ?l = cmul (cinv c) (cmul ?i ?m) => transitivity (cmul (cmul c (cinv c)) (cmul (cinv c) (cmul i m))); [ring|rewrite Q; ring] end.
Qed.
(** The size does not depend on the scale: all solutions can be multiplied with any number that is not zero. *)
Theorem C71_scale : forall abs step c, cnorm c <> 0%Qc ->
  (forall l, step_magnitude step (change1 abs) (map (fun p => (cmul c (fst p), option_map (cmul c) (snd p))) l) = step_magnitude step (change1 abs) l) /\
  (forall l, step_magnitude step (change2 abs) (map (fun p => ((cmul c (fst (fst p)), cmul c (snd (fst p))), (option_map (cmul c) (fst (snd p)), option_map (cmul c) (snd (snd p))))) l) = step_magnitude step (change2 abs) l) /\
  (forall l, step_magnitude step (change4 abs) (map (fun p => (scale_mat c (fst p), option_map (scale_mat c) (snd p))) l) = step_magnitude step (change4 abs) l).
Proof.
  intros abs step c Hc.
  assert (Z : forall T s (x y : T), (if Qc_eq_dec (cnorm (cmul c s)) 0 then x else y) = if Qc_eq_dec (cnorm s) 0 then x else y).
  { intros T s x y. rewrite cnorm_mul. destruct (Qc_eq_dec (cnorm s) 0) as [E|E], (Qc_eq_dec (cnorm c * cnorm s) 0) as [E'|E']; auto; [elim E'; rewrite E; ring|]. exfalso. revert E'. now apply mul_neq0. }
  split; [|split]; intros l; apply magnitude_ext; intros p _.
  - destruct p as [s [n|]]; cbn [fst snd option_map change1]; [|reflexivity]. rewrite Z. destruct (Qc_eq_dec (cnorm s) 0); [reflexivity|]. now rewrite ratio_scale.
  - destruct p as [[s0 s1] [n0 n1]]. unfold change2. cbn [fst snd option_map]. rewrite !Z. destruct (Qc_eq_dec (cnorm s0) 0); [reflexivity|]. destruct (Qc_eq_dec (cnorm s1) 0); [reflexivity|].
    destruct n0, n1; cbn [option_map]; auto. now rewrite !ratio_scale.
  - destruct p as [s n]. unfold change4. cbn [fst snd]. rewrite minvert_scale by auto. destruct (minvert s) as [i|]; [|reflexivity]. destruct n as [n|]; [|reflexivity]. cbn [option_map].
    replace (mmul (msub (scale_mat c n) (scale_mat c s)) (scale_mat (cinv c) i)) with (scale_mat (cmul c (cinv c)) (mmul (msub n s) i)) by (apply mat_eq; cbn; ring).
    rewrite cinv_spec by auto. replace (scale_mat c1 (mmul (msub n s) i)) with (mmul (msub n s) i) by (apply mat_eq; cbn; ring). reflexivity.
Qed.
Print Assumptions C71_scale.
Example C71_scale_case : cnorm (C (qn 2) (qn 1)) <> 0%Qc /\ this (step_magnitude half (change1 cnorm) [(C (qn 1) (qn 1), Some (C (qn 2) (qn 1))); (C (qn 3) (qn 0), None)]) = 1%Q.
Proof. split; [discriminate|vm_compute; reflexivity]. Qed.
(** With equal gains for both polarizations, the diagonal solver has the same step sizes as the scalar solver. *)
Theorem C71_same : forall abs step l,
  step_magnitude step (change2 abs) (map (fun p => ((fst p, fst p), (snd p, snd p))) l) = step_magnitude step (change1 abs) l.
Proof.
  intros abs step l. unfold step_magnitude. rewrite !total_spec, !map_map. cbn [fst snd].
  assert (G : qsum (map (fun x => fst (change2 abs (fst x, fst x) (snd x, snd x))) l) = ((1 + 1) * qsum (map (fun p => fst (change1 abs (fst p) (snd p))) l))%Qc /\
              list_sum (map (fun x => snd (change2 abs (fst x, fst x) (snd x, snd x))) l) = 2 * list_sum (map (fun p => snd (change1 abs (fst p) (snd p))) l)).
  { induction l as [|[s n] l [IH1 IH2]]; [split; [cbn; ring|reflexivity]|]. cbn [map fst snd]. rewrite !qsum_cons. unfold list_sum in *. cbn [fold_right]. rewrite IH1, IH2. unfold change2, change1. cbn [fst snd].
    destruct (Qc_eq_dec (cnorm s) 0), n; cbn [fst snd]; split; try ring; lia. }
  destruct G as [-> ->]. set (n := list_sum _). set (q := qsum _). destruct n as [|n]; [reflexivity|]. replace (2 * S n =? 0) with false by reflexivity. cbn [Nat.eqb]. rewrite qn_mult.
  assert (N : qn (S n) <> 0%Qc) by (apply qn_neq0; lia). assert (N2 : qn 2 = (1 + 1)%Qc) by (rewrite !qn_S, qn_0; ring). rewrite N2. clearbody q.
  unfold Qcdiv. rewrite Qcinv_mult_distr by idtac || idtac. replace (/ ((1 + 1) * qn (S n)))%Qc with (/ (1 + 1) * / qn (S n))%Qc by (field; repeat split; auto; discriminate).
  transitivity ((1 + 1) * / (1 + 1) * (q * / step * / qn (S n)))%Qc; [ring|]. replace ((1 + 1) * / (1 + 1))%Qc with 1%Qc by (field; discriminate). ring.
Qed.
Print Assumptions C71_same.
Example C71_same_case : this (step_magnitude half (change2 cnorm) [((C (qn 1) (qn 1), C (qn 1) (qn 1)), (Some (C (qn 2) (qn 1)), Some (C (qn 2) (qn 1))))]) = 1%Q.
Proof. vm_compute. reflexivity. Qed.
(** The full-Jones solver has not, though a comment says so: the elements beside the diagonal are counted, so its steps seem half as large, and it stops earlier. *)
Theorem C71_same_refuted : exists (abs : cplx -> Qc) step s n, (forall x, 0 <= abs x)%Qc /\
  step_magnitude step (change4 abs) [(mdiag s s, Some (mdiag n n))] <> step_magnitude step (change1 abs) [(s, Some n)].
Proof.
  exists cnorm, 1%Qc, c1, (C (qn 2) 0%Qc). split; [apply cnorm_nonneg|]. intros H. apply (f_equal this) in H. vm_compute in H. discriminate.
Qed.
Print Assumptions C71_same_refuted.
(** Solutions that are not finite are left out, so if no solution is finite, as without any valid data, the step has size zero and the solver says that it has converged. *)
Theorem C71_nan_refuted : exists (l : list (cplx * option cplx)), l <> [] /\ Forall (fun p => snd p = None) l /\
  forall abs step cfg, (0 <= accuracy cfg)%Qc -> has_converged cfg true (step_magnitude step (change1 abs) l) = true.
Proof.
  exists [(c1, None); (c1, None)]. split; [discriminate|]. split; [repeat constructor|]. intros abs step cfg H. unfold has_converged, step_magnitude, total. cbn. now apply qleb_true.
Qed.
Print Assumptions C71_nan_refuted.

(** * C71: finite solutions *)
Lemma sum_abs_spec abs l : sum_abs abs l = (qsum (map abs l), length l).
Proof.
  unfold sum_abs. assert (G : forall acc, fold_left (fun acc x => ((fst acc + abs x)%Qc, S (snd acc))) l acc = ((fst acc + qsum (map abs l))%Qc, snd acc + length l)).
  { induction l as [|x l IH]; intros [a n]; cbn [fold_left map length]; [rewrite qsum_nil; cbn; f_equal; [ring|lia]|]. rewrite IH, qsum_cons. cbn [fst snd]. f_equal; [ring|lia]. }
  rewrite G. cbn [fst snd]. f_equal. ring.
Qed.
Lemma average_spec abs l : average abs l = mean_abs abs l.
Proof. unfold average, mean_abs, mean_of. rewrite sum_abs_spec. cbn [fst snd]. now rewrite map_length. Qed.
(** For any solutions of the scalar solver: finite ones stay, and others become the mean absolute value of the finite ones, or one if there is none. *)
Theorem C71_finite : forall abs l i, i < length l ->
  length (make_finite1 abs l) = length l /\
  nth i (make_finite1 abs l) c0 =
    match nth i l None with
    | Some x => x
    | None => if length (somes l) =? 0 then c1 else C (mean_abs abs (somes l)) 0%Qc
    end.
Proof.
  intros abs l i Hi. unfold make_finite1. split; [apply map_length|]. rewrite average_spec. set (f := fun o => match o with Some x => x | None => _ end).
  rewrite (nth_indep _ c0 (f None)) by (now rewrite map_length). rewrite map_nth. unfold f. destruct (nth i l None); [reflexivity|]. destruct (length (somes l) =? 0); reflexivity.
Qed.
Print Assumptions C71_finite.
Example C71_finite_case : map (fun x => this (re x)) (make_finite1 re [Some (C (qn 2) 0%Qc); None; Some (C (qn 6) 0%Qc)]) = [2; 4; 6]%Q.
Proof. vm_compute. reflexivity. Qed.
(** For the other solvers: solutions with all elements finite stay. *)
Theorem C71_finite_partial : forall abs,
  (forall l i x y, i < length l -> nth i l (None, None) = (Some x, Some y) -> nth i (make_finite2 abs l) (c0, c0) = (x, y)) /\
  (forall l i x, i < length l -> nth i l None = Some x -> nth i (make_finite4 abs l) mzero = x).
Proof.
  intros abs. split.
  - intros l i x y Hi E. unfold make_finite2. set (f := fun o => match o with (Some x, Some y) => _ | _ => _ end). rewrite (nth_indep _ (c0, c0) (f (None, None))) by (now rewrite map_length). rewrite map_nth, E. reflexivity.
  - intros l i x Hi E. unfold make_finite4. set (f := fun o => match o with Some x => _ | _ => _ end). rewrite (nth_indep _ mzero (f None)) by (now rewrite map_length). rewrite map_nth, E. reflexivity.
Qed.
Print Assumptions C71_finite_partial.
Example C71_finite_partial_case : map (fun x => (this (re (fst x)), this (re (snd x)))) (make_finite2 re [(Some (C (qn 2) 0%Qc), Some (C (qn 3) 0%Qc)); (None, Some c1)]) = [(2, 3); (2, 2)]%Q.
Proof. vm_compute. reflexivity. Qed.
(** The diagonal solver takes the average of the first polarization for both. *)
Theorem C71_finite2_refuted : exists (abs : cplx -> Qc) l f, (forall x, 0 <= abs x)%Qc /\ somes (map (fun p => match p with (Some x, Some y) => Some (x, y) | _ => None end) l) = f /\ f <> [] /\
  nth 1 l (Some c0, None) = (None, None) /\ snd (nth 1 (make_finite2 abs l) (c0, c0)) <> C (mean_abs abs (map snd f)) 0%Qc.
Proof.
  exists cnorm, [(Some c0, Some c1); (None, None)], [(c0, c1)]. split; [apply cnorm_nonneg|]. split; [reflexivity|]. split; [discriminate|]. split; [reflexivity|].
  intros H. apply (f_equal (fun c => this (re c))) in H. vm_compute in H. discriminate.
Qed.
Print Assumptions C71_finite2_refuted.
(** The full-Jones solver fills all four elements with the average of the first, so that a solution that was not finite gets a singular matrix, whatever the others are. *)
Theorem C71_finite4_refuted : exists (l : list (option mat)), nth 1 l (Some mzero) = None /\ somes l = [Mat c1 c0 c0 c1] /\
  forall abs, minvert (nth 1 (make_finite4 abs l) (Mat c1 c0 c0 c1)) = None.
Proof.
  exists [Some (Mat c1 c0 c0 c1); None]. split; [reflexivity|]. split; [reflexivity|]. intros abs. cbn [make_finite4 map nth somes length Nat.eqb]. set (a := average abs _). clearbody a.
  unfold minvert. destruct (Qc_eq_dec _ 0) as [E|E]; [reflexivity|]. elim E. unfold mdet, cnorm. cbn. ring.
Qed.
Print Assumptions C71_finite4_refuted.

(** * C72: the hybrid solver *)
(** A solver that may do [m] iterations does at least one, and otherwise at most [m] *)
Definition solver_ok (run : nat -> N -> N * bool) : Prop := forall i m, (1 <= fst (run i m) <= N.max 1 m)%N /\ (snd (run i m) = false -> (m <= fst (run i m))%N).
(** For two solvers, as they are made, where the first may do less than all iterations: not more than the maximum is done in total, and if the number reported is at most the
    maximum, the second solver has converged. *)
Theorem C72_two : forall run maximum a b, solver_ok run -> (1 <= a < maximum)%N -> (maximum <= b)%N -> (maximum < 2 ^ 63)%N ->
  let '(reported, done) := hybrid_solve run maximum false [a; b] in
  (done <= maximum)%N /\ ((reported <= maximum)%N -> snd (run 1%nat (maximum - (if snd (run 0%nat a) then fst (run 0%nat a) else a))%N) = true).
Proof.
  intros run maximum a b R Ha Hb HM. unfold hybrid_solve. cbn [hybrid].
  destruct (N.ltb_spec maximum a) as [L|_]; [lia|]. pose proof (R 0 a) as [R1 R2]. destruct (run 0 a) as [n1 c1'] eqn:E1. cbn [fst snd] in *.
  assert (S64 : forall x y : N, (y <= x)%N -> (x < 2 ^ 63)%N -> sub64 x y = (x - y)%N).
  { intros x y H1 H2. unfold sub64. rewrite Z.mod_small; [lia|]. assert (2 ^ 63 < 2 ^ 64)%Z by reflexivity. lia. }
  destruct c1'.
  - rewrite N.add_0_l. destruct (N.leb_spec n1 a) as [L1|L1]; [|lia]. cbn [andb]. rewrite S64 by lia. destruct (N.ltb_spec (maximum - n1) b) as [L2|L2]; [|lia].
    pose proof (R 1 (maximum - n1)%N) as [Q1 Q2]. destruct (run 1 (maximum - n1)%N) as [n2 c2] eqn:E2. cbn [fst snd] in *. destruct c2.
    + destruct (N.leb_spec n2 (maximum - n1)) as [L3|L3]; cbn [andb]; [split; [lia|auto]|]. split; [lia|auto].
    + specialize (Q2 eq_refl). destruct (N.leb_spec (n2 + 1) (maximum - n1)) as [L3|L3]; [lia|]. cbn [andb]. split; [lia|]. lia.
  - specialize (R2 eq_refl). destruct (N.leb_spec (n1 + 1) a) as [L1|L1]; [lia|]. cbn [andb]. rewrite S64 by lia. destruct (N.ltb_spec (maximum - a) b) as [L2|L2]; [|lia].
    pose proof (R 1 (maximum - a)%N) as [Q1 Q2]. destruct (run 1 (maximum - a)%N) as [n2 c2] eqn:E2. cbn [fst snd] in *. destruct c2.
    + destruct (N.leb_spec n2 (maximum - a)) as [L3|L3]; cbn [andb]; [split; [lia|auto]|]. split; [lia|auto].
    + specialize (Q2 eq_refl). destruct (N.leb_spec (n2 + 1) (maximum - a)) as [L3|L3]; [lia|]. cbn [andb]. split; [lia|]. lia.
Qed.
Print Assumptions C72_two.
(** Two solvers that need 3 and 8 iterations *)
Definition need (l : list N) (i : nat) (m : N) : N * bool := if (nth i l 0 <=? m)%N then (N.max 1 (nth i l 0), true)%N else (N.max 1 m, false).
Lemma need_ok l : solver_ok (need l).
Proof. intros i m. unfold need. destruct (N.leb_spec (nth i l 0%N) m); cbn [fst snd]; split; try discriminate; lia. Qed.
Example C72_two_case : hybrid_solve (need [3; 8]%N) 50 false [8; 50]%N = (11, 11)%N.
Proof. reflexivity. Qed.
(** The other way round it is false: if the first solver does not converge, its iterations are reported with one more, so that a second one that converges in the last iteration
    is reported as not converged. *)
Theorem C72_two_refuted : exists run, solver_ok run /\ snd (run 1%nat 42%N) = true /\ let '(reported, done) := hybrid_solve run 50 false [8; 50]%N in (done <= 50)%N /\ (50 < reported)%N.
Proof. exists (need [99; 42]%N). split; [apply need_ok|]. split; [reflexivity|]. vm_compute. split; [discriminate|reflexivity]. Qed.
Print Assumptions C72_two_refuted.
(** With three solvers that converge, the iterations of the first are taken off twice, the number left becomes negative and wraps, and more than the maximum is done. *)
Theorem C72_three_refuted : exists run, solver_ok run /\ let '(reported, done) := hybrid_solve run 20 false [10; 10; 10]%N in (20 < done)%N /\ (20 < reported)%N.
Proof. exists (need [7; 7; 7]%N). split; [apply need_ok|]. vm_compute. split; reflexivity. Qed.
Print Assumptions C72_three_refuted.
