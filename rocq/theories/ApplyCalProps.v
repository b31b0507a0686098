(** C81: ApplyCal corrects the data *)
From Coq Require Import List Bool Arith ZArith Lia ZifyBool ZifyNat QArith Qround Qcanon.
From Verif Require Import QcUtil Cplx AverageModel GainModel ApplyCalModel ApplyCalSpec DdecalProofs.
Import ListNotations.
Open Scope nat_scope.

Lemma replace_get {T} (l : list T) i x j : nth_error (replace l i x) j = if j =? i then option_map (fun _ => x) (nth_error l i) else nth_error l j.
Proof.
  revert i j. induction l as [|y l IH]; intros i j; [cbn [replace]; destruct i, j; cbn [nth_error option_map]; try reflexivity; now destruct (_ =? _)|].
  destruct i, j; cbn; try reflexivity. apply IH.
Qed.
Lemma replace_length {T} (l : list T) i x : length (replace l i x) = length l.
Proof. revert i. induction l as [|y l IH]; intros [|i]; cbn; auto. Qed.

Section Step.
Variable jones : nat -> Qc -> nat -> nat -> list (option cplx).
Variables n_ant n_chan kind : nat.
Hypothesis Hk : kind = 2 \/ kind = 4.
Hypothesis Hj : forall d t a ch, length (jones d t a ch) = kind.
Variable upd : bool.
Notation correct_sample := (correct_sample jones n_ant n_chan upd).

(** What one pass does with a visibility *)
Definition pass (d : nat) (ga gb : list (option cplx)) (s s' : sample) (c : bool) : Prop :=
  match matrix ga, matrix gb with
  | Some a, Some b => exists v, nth_error (vis s) d = Some v /\ vis s' = replace (vis s) d (mmul (mmul a v) (mherm b)) /\ flag s' = flag s /\ c = false /\
      weight s' = (if upd then if 2 <? kind then full_weights a b (weight s) else diag_weights (m0 a) (m3 a) (m0 b) (m3 b) (weight s) else weight s)
  | _, _ => vis s' = vis s /\ weight s' = weight s /\ flag s' = map (fun _ => true) (flag s) /\ c = negb (nth 0 (flag s) false)
  end.
Lemma sample_ok st d a b ch s t : get (times st) (step st) = Ok t -> a < n_ant -> b < n_ant -> ch < n_chan -> d < length (vis s) ->
  exists s' c, correct_sample st d a b ch s = Ok (s', c) /\ pass d (jones d t a ch) (jones d t b ch) s s' c.
Proof.
  intros Et Ha Hb Hc Hd. assert (G : forall x, x < n_ant -> gains jones n_ant n_chan st d x (step st * n_chan + ch) = Ok (jones d t x ch)).
  { intros x Hx. unfold gains. replace (x <? n_ant) with true by (symmetry; now apply Nat.ltb_lt). rewrite Nat.div_add_l, (Nat.div_small ch) by lia. rewrite Nat.add_0_r, Et. cbn [bind].
    now rewrite Nat.add_comm, Nat.mod_add, Nat.mod_small by lia. }
  unfold ApplyCalModel.correct_sample. rewrite !G by assumption. cbn [bind]. pose proof (Hj d t a ch) as La. pose proof (Hj d t b ch) as Lb. rewrite La. unfold pass.
  set (ga := jones d t a ch) in *. set (gb := jones d t b ch) in *. clearbody ga gb. assert (V : exists v, nth_error (vis s) d = Some v) by (destruct (nth_error (vis s) d) eqn:E; [eauto|apply nth_error_None in E; lia]).
  destruct V as [v Ev]. destruct Hk as [E|E]; rewrite E in *; clear E.
  - destruct ga as [|a0 [|a1 [|? ?]]], gb as [|b0 [|b1 [|? ?]]]; try discriminate. cbn [Nat.ltb Nat.leb]. unfold apply_diag, matrix, set_vis, get.
    destruct a0, a1, b0, b1; try (eexists; eexists; split; [reflexivity|]; repeat split; fail). rewrite Ev. cbn [bind]. eexists; eexists; split; [reflexivity|]. exists v. repeat split; auto.
  - destruct ga as [|a0 [|a1 [|a2 [|a3 [|? ?]]]]], gb as [|b0 [|b1 [|b2 [|b3 [|? ?]]]]]; try discriminate. cbn [Nat.ltb Nat.leb]. unfold apply_full, matrix, set_vis, get.
    destruct a0, a1, a2, a3, b0, b1, b2, b3; try (eexists; eexists; split; [reflexivity|]; repeat split; fail). rewrite Ev. cbn [bind]. eexists; eexists; split; [reflexivity|]. exists v. repeat split; auto.
Qed.
Lemma pass_length d ga gb s s' c : pass d ga gb s s' c -> length (vis s') = length (vis s).
Proof. unfold pass. destruct (matrix ga), (matrix gb); try (intros (-> & _); reflexivity). intros (v & _ & -> & _). apply replace_length. Qed.

(** A pass over the channels of a baseline *)
Lemma channels_ok st d a b t : get (times st) (step st) = Ok t -> a < n_ant -> b < n_ant -> forall l ch, ch + length l <= n_chan -> Forall (fun s => d < length (vis s)) l ->
  exists l' cs, correct_channels jones n_ant n_chan upd st d a b ch l = Ok (l', cs) /\ length l' = length l /\
    forall i s, nth_error l i = Some s -> exists s' c, nth_error l' i = Some s' /\ pass d (jones d t a (ch + i)) (jones d t b (ch + i)) s s' c.
Proof.
  intros Et Ha Hb. induction l as [|s l IH]; intros ch L F; [exists [], []; repeat split; intros [|i] x E; discriminate|]. apply Forall_cons_iff in F. destruct F as [F1 F2]. cbn [length] in L.
  cbn [correct_channels]. destruct (sample_ok st d a b ch s t Et Ha Hb ltac:(lia) F1) as (s' & c & E & P). rewrite E. cbn [bind].
  destruct (IH (S ch) ltac:(lia) F2) as (l' & cs & E' & L' & P'). rewrite E'. cbn [bind]. eexists; eexists; split; [reflexivity|]. split; [cbn; lia|]. intros [|i] x Ex.
  - injection Ex as <-. exists s', c. rewrite Nat.add_0_r. split; [reflexivity|exact P].
  - destruct (P' i x Ex) as (x' & c' & A & B). exists x', c'. split; [exact A|]. now replace (ch + S i) with (S ch + i) by lia.
Qed.
Definition shape (baselines : list (nat * nat)) (n_dir : nat) (l : list (list sample)) : Prop :=
  length l = length baselines /\ Forall (fun r => length r = n_chan /\ Forall (fun s => length (vis s) = n_dir) r) l.
Lemma loop_ok st d n_dir t : get (times st) (step st) = Ok t -> d < n_dir -> forall baselines l, Forall (fun p => fst p < n_ant /\ snd p < n_ant) baselines -> shape baselines n_dir l ->
  exists l' cs, correction_loop jones n_ant n_chan upd st d baselines l = Ok (l', cs) /\ shape baselines n_dir l' /\
    forall bl a b ch r s, nth_error baselines bl = Some (a, b) -> nth_error l bl = Some r -> nth_error r ch = Some s ->
      exists r' s' c, nth_error l' bl = Some r' /\ nth_error r' ch = Some s' /\ pass d (jones d t a ch) (jones d t b ch) s s' c.
Proof.
  intros Et Hd. induction baselines as [|[a b] bs IH]; intros l Fb [L F]; [destruct l; [|discriminate]; exists [], []; split; [reflexivity|split; [split; [reflexivity|constructor]|intros [|bl] ? ? ? ? ? E; discriminate]]|].
  destruct l as [|r l]; [discriminate|]. apply Forall_cons_iff in F, Fb. destruct F as [[F1 F2] F3], Fb as [[B1 B2] B3]. cbn [fst snd] in B1, B2. cbn [correction_loop].
  destruct (channels_ok st d a b t Et B1 B2 r 0) as (r' & c & E & Lr & P); [lia|eapply Forall_impl; [|exact F2]; cbv beta; intros; lia|]. rewrite E. cbn [bind].
  destruct (IH l B3) as (l' & cs & E' & [L' F'] & P'); [split; [cbn in L; lia|exact F3]|]. rewrite E'. cbn [bind]. eexists; eexists; split; [reflexivity|]. split.
  - split; [cbn; lia|]. constructor; [|exact F']. split; [lia|]. apply Forall_forall. intros s' I. apply In_nth_error in I. destruct I as [i Ei].
    destruct (nth_error r i) as [s|] eqn:Es; [|apply nth_error_None in Es; assert (i < length r') by (apply nth_error_Some; congruence); lia].
    destruct (P i s Es) as (s2 & c2 & A & B). assert (s2 = s') by congruence. subst s2. rewrite (pass_length _ _ _ _ _ _ B). rewrite Forall_forall in F2. apply F2. eapply nth_error_In; exact Es.
  - intros [|bl] a' b' ch r0 s Eb Er Es.
    + injection Eb as <- <-. injection Er as <-. destruct (P ch s Es) as (s' & c' & A & B). exists r', s', c'. auto.
    + destruct (P' bl a' b' ch r0 s Eb Er Es) as (r2 & s2 & c2 & A). exists r2, s2, c2. auto.
Qed.

Lemma pass_dirs n : forall d D s s' (ga gb : nat -> list (option cplx)), d + n = D -> length (vis s) = D ->
  (exists f : nat -> sample, f d = s /\ f D = s' /\ forall i, d <= i < D -> exists c, pass i (ga i) (gb i) (f i) (f (S i)) c) ->
  length (vis s') = length (vis s) /\
  (forall i v, nth_error (vis s) i = Some v -> nth_error (vis s') i = Some (if d <=? i then match matrix (ga i), matrix (gb i) with Some a, Some b => mmul (mmul a v) (mherm b) | _, _ => v end else v)) /\
  flag s' = (if forallb (fun i => good (ga i) (gb i)) (seq d n) then flag s else map (fun _ => true) (flag s)).
Proof.
  induction n as [|n IH]; intros d D s s' ga gb E L (f & F1 & F2 & P).
  - rewrite Nat.add_0_r in E. subst D. assert (X : s' = s) by congruence. rewrite X. clear X. split; [reflexivity|]. split; [|reflexivity]. intros i v Ev. assert (i < d) by (rewrite <- L; apply nth_error_Some; congruence).
    replace (d <=? i) with false by lia. exact Ev.
  - destruct (P d ltac:(lia)) as [c Pd]. rewrite F1 in Pd. pose proof (pass_length _ _ _ _ _ _ Pd) as L1.
    destruct (IH (S d) D (f (S d)) s' ga gb) as (I1 & I2 & I3); [lia|lia|exists f; split; [reflexivity|]; split; [exact F2|]; intros i Hi; apply P; lia|].
    split; [lia|]. split.
    + intros i v Ev. unfold pass in Pd. destruct (Nat.eq_dec i d) as [->|N].
      * replace (d <=? d) with true by lia. assert (X : nth_error (vis (f (S d))) d = Some (match matrix (ga d), matrix (gb d) with Some a, Some b => mmul (mmul a v) (mherm b) | _, _ => v end)).
        { destruct (matrix (ga d)) as [x|]; [destruct (matrix (gb d)) as [y|]|]; try (destruct Pd as (-> & _); exact Ev). destruct Pd as (v' & Ev' & -> & _). rewrite replace_get, Nat.eqb_refl, Ev. cbn. congruence. }
        apply I2 in X. replace (S d <=? d) with false in X by lia. exact X.
      * assert (X : nth_error (vis (f (S d))) i = Some v).
        { destruct (matrix (ga d)) as [x|]; [destruct (matrix (gb d)) as [y|]|]; try (destruct Pd as (-> & _); exact Ev). destruct Pd as (v' & Ev' & -> & _). rewrite replace_get. now replace (i =? d) with false by lia. }
        apply I2 in X. replace (d <=? i) with (S d <=? i) by lia. exact X.
    + cbn [seq forallb]. rewrite I3. unfold pass in Pd. unfold good at 2. destruct (matrix (ga d)) as [x|]; [destruct (matrix (gb d)) as [y|]|].
      * destruct Pd as (v' & _ & _ & -> & _). reflexivity.
      * destruct Pd as (_ & _ & -> & _). cbn [andb]. destruct (forallb _ _); [reflexivity|]. now rewrite map_map.
      * destruct Pd as (_ & _ & -> & _). cbn [andb]. destruct (forallb _ _); [reflexivity|]. now rewrite map_map.
Qed.

Lemma all_ok st D baselines t : get (times st) (step st) = Ok t -> Forall (fun p => fst p < n_ant /\ snd p < n_ant) baselines -> forall n d l, d + n = D -> shape baselines D l ->
  exists l', correct_all jones n_ant n_chan upd st n d baselines l = Ok l' /\ shape baselines D l' /\
    forall bl a b ch r s, nth_error baselines bl = Some (a, b) -> nth_error l bl = Some r -> nth_error r ch = Some s ->
      exists r' s', nth_error l' bl = Some r' /\ nth_error r' ch = Some s' /\
        exists f : nat -> sample, f d = s /\ f D = s' /\ forall i, d <= i < D -> exists c, pass i (jones i t a ch) (jones i t b ch) (f i) (f (S i)) c.
Proof.
  intros Et Fb. induction n as [|n IH]; intros d l E Sh.
  - exists l. split; [reflexivity|]. split; [exact Sh|]. intros bl a b ch r s Eb Er Es. exists r, s. repeat split; auto. exists (fun _ => s). repeat split; auto. intros; lia.
  - cbn [correct_all]. destruct (loop_ok st d D t Et ltac:(lia) baselines l Fb Sh) as (l1 & cs & E1 & S1 & P1). rewrite E1. cbn [bind].
    destruct (IH (S d) l1 ltac:(lia) S1) as (l' & E' & S' & P'). exists l'. split; [exact E'|]. split; [exact S'|]. intros bl a b ch r s Eb Er Es.
    destruct (P1 bl a b ch r s Eb Er Es) as (r1 & s1 & c & A1 & B1 & C1). destruct (P' bl a b ch r1 s1 Eb A1 B1) as (r' & s' & A' & B' & f & F1 & F2 & P). exists r', s'. split; [exact A'|]. split; [exact B'|].
    exists (fun i => if i =? d then s else f i). rewrite Nat.eqb_refl. replace (D =? d) with false by lia. split; [reflexivity|]. split; [exact F2|]. intros i Hi.
    replace (S i =? d) with false by lia. destruct (Nat.eqb_spec i d) as [->|N]; [exists c; now rewrite F1|]. apply P. lia.
Qed.

(** *** The times *)
Variables (per_update total : nat) (t0 interval : Qc).
Hypotheses (Hu : 0 < per_update) (Hi : (0 < interval)%Qc) (H0 : (- (1) < t0)%Qc).
Notation slot := (slot_time t0 interval).
Notation last_centre := (slot (total - 1)).
Notation next_time := (next_time per_update interval last_centre).
Definition chunk (st : state) (s i : nat) : Prop :=
  s < i <= s + Nat.min per_update (total - s) /\ times st = map slot (seq s (Nat.min per_update (total - s))) /\ step st = i - 1 - s /\ last st = (slot (s + Nat.min per_update (total - s)) - half * interval)%Qc.
Lemma half_lt_1 : (0 < half)%Qc /\ (half < 1)%Qc.
Proof. split; apply qltb_true; vm_compute; reflexivity. Qed.
Lemma half_2 : (half + half = 1)%Qc.
Proof. apply Qc_is_canon. vm_compute. reflexivity. Qed.
Lemma slot_lt a b : (slot a - half * interval < slot b)%Qc <-> a <= b.
Proof.
  unfold slot_time. destruct half_lt_1 as [A B]. split; intros H.
  - destruct (Nat.le_gt_cases a b) as [|G]; [assumption|exfalso]. assert (X : (qn b + 1 <= qn a)%Qc) by (change 1%Qc with (qn 1); rewrite <- qn_plus; apply qn_le; lia).
    assert (Y : (0 < (qn a - half - qn b) * interval)%Qc) by (apply qc_mult_pos; [qclra|exact Hi]). qclra.
  - assert (X : (qn a <= qn b)%Qc) by now apply qn_le. assert (Y : (0 < (qn b + half - qn a) * interval)%Qc) by (apply qc_mult_pos; [qclra|exact Hi]). qclra.
Qed.
Lemma floor_half n : Qfloor (this (qn n + half)%Qc) = Z.of_nat n.
Proof.
  assert (E : (this (qn n + half)%Qc == inject_Z (Z.of_nat n) + (1 # 2))%Q).
  { rewrite this_plus. change (this half) with (1 # 2)%Q. unfold qn. rewrite this_Q2Qc. reflexivity. }
  rewrite E. unfold Qfloor, inject_Z, Qplus. cbn [Qnum Qden]. symmetry. apply Z.div_unique with (r := 1%Z); lia.
Qed.
Lemma buffer_times_ok i : i < total -> let n := Nat.min per_update (total - i) in
  buffer_times per_update interval last_centre (slot i) = Ok ((slot (i + n) - half * interval)%Qc, map slot (seq i n)).
Proof.
  intros Li n. unfold buffer_times. set (last := (slot i - half * interval + qn per_update * interval)%Qc). set (last_ms := (last_centre + half * interval)%Qc).
  assert (Tm : forall k, map (fun t => (slot i + qn t * interval)%Qc) (seq 0 k) = map slot (seq i k)).
  { intros k. apply nth_error_same. intros j. rewrite !nth_error_map, !seq_nth_error. destruct (j <? k); [|reflexivity]. cbn [option_map]. f_equal. unfold slot_time. rewrite !qn_plus, qn_0. ring. }
  assert (El : last = (slot (i + per_update) - half * interval)%Qc) by (unfold last, slot_time; rewrite qn_plus; ring).
  assert (Em : last_ms = (slot total - half * interval)%Qc).
  { unfold last_ms, slot_time. replace (qn total) with (qn (total - 1) + 1)%Qc by (change 1%Qc with (qn 1); rewrite <- qn_plus; f_equal; lia).
    replace (t0 + (qn (total - 1) + 1) * interval - half * interval)%Qc with (t0 + qn (total - 1) * interval + (1 - half) * interval)%Qc by ring. rewrite <- half_2. ring. }
  destruct (qltb last_ms last) eqn:C.
  - apply qltb_true in C. assert (X : total < i + per_update).
    { destruct (Nat.lt_ge_cases total (i + per_update)) as [|G]; [assumption|exfalso]. rewrite El, Em in C. unfold slot_time in C.
      assert (Y : (qn (i + per_update) = qn total \/ qn (i + per_update) < qn total)%Qc) by (destruct (Nat.eq_dec (i + per_update) total) as [->|N]; [now left|right; apply qn_lt; lia]).
      destruct Y as [Y|Y]; [rewrite Y in C; qclra|]. assert (Z : (0 < (qn total - qn (i + per_update)) * interval)%Qc) by (apply qc_mult_pos; [qclra|exact Hi]). qclra. }
    replace ((last_ms - (slot i - half * interval)) / interval)%Qc with (qn (total - i)).
    2: { rewrite Em. unfold slot_time. replace (qn total) with (qn (total - i) + qn i)%Qc by (rewrite <- qn_plus; f_equal; lia). field. intros Z. rewrite Z in Hi. now apply Qclt_not_eq in Hi. }
    rewrite floor_half. replace (Z.of_nat (total - i) <? 1)%Z with false by lia. replace (per_update <? 1) with false by lia. rewrite Nat2Z.id. fold n. rewrite Tm. do 2 f_equal.
    rewrite Em. f_equal. f_equal. unfold n. lia.
  - apply qltb_false in C. assert (X : i + per_update <= total).
    { destruct (Nat.le_gt_cases (i + per_update) total) as [|G]; [assumption|exfalso]. rewrite El, Em in C. assert (Y : (qn total + 1 <= qn (i + per_update))%Qc) by (change 1%Qc with (qn 1); rewrite <- qn_plus; apply qn_le; lia).
      unfold slot_time in C. assert (Z : (0 < (qn (i + per_update) - qn total) * interval)%Qc) by (apply qc_mult_pos; [qclra|exact Hi]). qclra. }
    rewrite Tm. replace n with per_update by (unfold n; lia). now rewrite El.
Qed.
Lemma next_time_first : 0 < total -> exists st s, next_time init (slot 0) = Ok st /\ chunk st s 1.
Proof.
  intros L. unfold ApplyCalModel.next_time. assert (E : qltb (last init) (slot 0) = true) by (apply qltb_true; unfold slot_time; cbn [init last]; rewrite qn_0; qclra).
  rewrite E, buffer_times_ok by exact L. cbn [bind]. eexists. exists 0. split; [reflexivity|]. unfold chunk. cbn [times step ApplyCalModel.last Nat.add]. repeat split; try lia.
Qed.
Lemma next_time_ok st s i : chunk st s i -> i < total -> exists st' s', next_time st (slot i) = Ok st' /\ chunk st' s' (S i).
Proof.
  intros (C1 & C2 & C3 & C4) L. unfold ApplyCalModel.next_time. rewrite C4. destruct (qltb _ _) eqn:E.
  - apply qltb_true in E. apply slot_lt in E. rewrite buffer_times_ok by exact L. cbn [bind]. eexists. exists i. split; [reflexivity|]. unfold chunk. cbn [times step ApplyCalModel.last]. repeat split; try lia.
  - eexists. exists s. split; [reflexivity|]. unfold chunk. cbn [times step ApplyCalModel.last]. assert (N : ~ s + Nat.min per_update (total - s) <= i).
    { intros G. apply slot_lt in G. apply qltb_true in G. congruence. }
    repeat split; try lia; auto.
Qed.
Lemma chunk_time st s i : chunk st s (S i) -> get (times st) (step st) = Ok (slot i).
Proof.
  intros (C1 & C2 & C3 & _). unfold get. rewrite C2, C3, nth_error_map, seq_nth_error. replace (S i - 1 - s <? Nat.min per_update (total - s)) with true by lia. cbn [option_map]. do 2 f_equal. lia.
Qed.

Lemma process_all_ok n_dir baselines : Forall (fun p => fst p < n_ant /\ snd p < n_ant) baselines -> forall (l : list (list (list sample))) i st,
  (forall t, i < total -> t = slot i -> exists st' s', next_time st t = Ok st' /\ chunk st' s' (S i)) -> i + length l = total -> Forall (shape baselines n_dir) l ->
  exists out, process_all jones n_ant n_chan per_update interval last_centre upd n_dir st baselines (combine (map slot (seq i (length l))) l) = Ok out /\ length out = length l /\
    forall k x, nth_error l k = Some x -> exists x', nth_error out k = Some x' /\
      forall bl a b ch r s, nth_error baselines bl = Some (a, b) -> nth_error x bl = Some r -> nth_error r ch = Some s ->
        exists r' s', nth_error x' bl = Some r' /\ nth_error r' ch = Some s' /\ length (vis s) = n_dir /\
          exists f : nat -> sample, f 0 = s /\ f n_dir = s' /\ forall d, d < n_dir -> exists c, pass d (jones d (slot (i + k)) a ch) (jones d (slot (i + k)) b ch) (f d) (f (S d)) c.
Proof.
  intros Fb. induction l as [|x l IH]; intros i st Hst Li F; [exists []; split; [reflexivity|]; split; [reflexivity|]; intros [|k] y E; discriminate|].
  apply Forall_cons_iff in F. destruct F as [F1 F2]. cbn [length seq map combine process_all] in *. unfold process. destruct (Hst (slot i) ltac:(lia) eq_refl) as (st1 & s1 & E1 & C1). rewrite E1. cbn [bind].
  pose proof (chunk_time _ _ _ C1) as Et. destruct (all_ok st1 n_dir baselines (slot i) Et Fb n_dir 0 x ltac:(lia) F1) as (x' & E2 & S2 & P2). rewrite E2. cbn [bind].
  destruct (IH (S i) st1) as (out & E3 & L3 & P3); [intros t Ht ->; now apply next_time_ok with (s := s1)|lia|exact F2|]. rewrite E3. cbn [bind]. exists (x' :: out). split; [reflexivity|]. split; [cbn; lia|].
  intros [|k] y Ey.
  - injection Ey as <-. exists x'. split; [reflexivity|]. intros bl a b ch r s Eb Er Es. destruct (P2 bl a b ch r s Eb Er Es) as (r' & s' & A & B & f & G1 & G2 & G3). exists r', s'. split; [exact A|]. split; [exact B|]. split.
    + destruct F1 as [_ F1]. rewrite Forall_forall in F1. destruct (F1 r (nth_error_In _ _ Er)) as [_ F3]. rewrite Forall_forall in F3. apply F3. eapply nth_error_In; exact Es.
    + exists f. rewrite Nat.add_0_r. repeat split; auto. intros d Hd. apply G3. lia.
  - destruct (P3 k y Ey) as (y' & A & B). exists y'. split; [exact A|]. intros bl a b ch r s Eb Er Es. replace (i + S k) with (S i + k) by lia. exact (B bl a b ch r s Eb Er Es).
Qed.
End Step.

(** *** The weights *)
Lemma full_weights_ok a b wt w : (forall i j, wel wt i j = Fin (w i j) /\ (0 < w i j)%Qc) -> forall i j, variance a b w i j <> 0%Qc -> wel (full_weights a b wt) i j = Fin (/ variance a b w i j)%Qc.
Proof.
  intros H. assert (N : forall i j, w i j <> 0%Qc) by (intros i j Z; destruct (H i j) as [_ P]; rewrite Z in P; now apply Qclt_not_eq in P).
  pose proof (proj1 (H false false)) as H0. pose proof (proj1 (H false true)) as H1. pose proof (proj1 (H true false)) as H2. pose proof (proj1 (H true true)) as H3. cbn in H0, H1, H2, H3.
  assert (G : forall x0 x1 y0 y1, let v := (cnorm x0 * cnorm y0 / w false false + cnorm x0 * cnorm y1 / w false true + (cnorm x1 * cnorm y0 / w true false + cnorm x1 * cnorm y1 / w true true))%Qc in v <> 0%Qc ->
    einv (eadd (eadd (eadd (emul (einv (w0 wt)) (Fin (cnorm x0 * cnorm y0)%Qc)) (emul (einv (w1 wt)) (Fin (cnorm x0 * cnorm y1)%Qc))) (emul (einv (w2 wt)) (Fin (cnorm x1 * cnorm y0)%Qc))) (emul (einv (w3 wt)) (Fin (cnorm x1 * cnorm y1)%Qc))) = Fin (/ v)%Qc).
  { intros x0 x1 y0 y1 v Nv. rewrite H0, H1, H2, H3. cbn [einv]. repeat (destruct (Qc_eq_dec _ _) as [Z|_]; [now apply N in Z|]). cbn [emul eadd einv].
    match goal with |- context [Qc_eq_dec ?e _] => replace e with v by (unfold v; field; repeat split; apply N) end. destruct (Qc_eq_dec v 0) as [Z|_]; [now apply Nv in Z|reflexivity]. }
  intros [|] [|] Nv; unfold wel, full_weights; cbn [w0 w1 w2 w3]; apply G; exact Nv.
Qed.
Lemma diag_weights_ok a0 a1 b0 b1 wt w : (forall i j, wel wt i j = Fin (w i j) /\ (0 < w i j)%Qc) -> forall i j, variance (mdiag a0 a1) (mdiag b0 b1) w i j <> 0%Qc ->
  wel (diag_weights a0 a1 b0 b1 wt) i j = Fin (/ variance (mdiag a0 a1) (mdiag b0 b1) w i j)%Qc.
Proof.
  intros H. assert (N : forall i j, w i j <> 0%Qc) by (intros i j Z; destruct (H i j) as [_ P]; rewrite Z in P; now apply Qclt_not_eq in P).
  pose proof (proj1 (H false false)) as H0. pose proof (proj1 (H false true)) as H1. pose proof (proj1 (H true false)) as H2. pose proof (proj1 (H true true)) as H3. cbn in H0, H1, H2, H3.
  assert (G : forall x y k l v, v = (cnorm x * cnorm y / w k l)%Qc -> v <> 0%Qc -> emul (Fin (w k l)) (einv (Fin (cnorm x * cnorm y)%Qc)) = Fin (/ v)%Qc).
  { intros x y k l v -> Nv. assert (X : (cnorm x * cnorm y)%Qc <> 0%Qc) by (intros Z; apply Nv; rewrite Z; field; apply N). cbn [einv]. destruct (Qc_eq_dec _ _) as [Z|_]; [now apply X in Z|]. cbn [emul]. f_equal. field.
    split; [apply N|]. split; intros Z; apply X; rewrite Z; ring. }
  assert (C0 : cnorm c0 = 0%Qc) by (apply Qc_is_canon; reflexivity).
  intros [|] [|] Nv; unfold wel, diag_weights; cbn [w0 w1 w2 w3]; rewrite ?H0, ?H1, ?H2, ?H3; apply G; try exact Nv; unfold variance, mdiag; cbn [el m0 m1 m2 m3]; rewrite C0; field; repeat split; apply N.
Qed.
Lemma pass_weights (jones : nat -> Qc -> nat -> nat -> list (option cplx)) kind : kind = 2 \/ kind = 4 -> (forall d t a ch, length (jones d t a ch) = kind) -> forall t a b ch s s' c, pass kind true 0 (jones 0 t a ch) (jones 0 t b ch) s s' c -> reweighted (jones 0 t a ch) (jones 0 t b ch) s s'.
Proof.
  intros Hk Hj t a b ch s s' c. pose proof (Hj 0 t a ch) as La. pose proof (Hj 0 t b ch) as Lb. set (ga := jones 0 t a ch) in *. set (gb := jones 0 t b ch) in *. clearbody ga gb. unfold pass, reweighted.
  destruct (matrix ga) as [x|] eqn:Ea; [destruct (matrix gb) as [y|] eqn:Eb|]; try (now intros (_ & -> & _)). intros (v & _ & _ & _ & _ & ->) w Hw. destruct Hk as [Ek|Ek]; rewrite Ek in *; cbn [Nat.ltb Nat.leb].
  - destruct ga as [|[|] [|[|] [|? ?]]], gb as [|[|] [|[|] [|? ?]]]; try discriminate. injection Ea as <-. injection Eb as <-. cbn [mdiag m0 m3]. intros i j. now apply diag_weights_ok.
  - now apply full_weights_ok.
Qed.

(** Every visibility of every regular time slot is corrected with the gains of its own antennas, time and channel, for any number of time slots per update of the gains; with a gain that is not finite it is flagged and its data stay *)
Theorem C81_corrected jones n_ant n_chan kind upd per_update t0 interval n_dir baselines (l : list (list (list sample))) : kind = 2 \/ kind = 4 -> (forall d t a ch, length (jones d t a ch) = kind) ->
  0 < per_update -> (0 < interval)%Qc -> (- (1) < t0)%Qc -> Forall (fun p => fst p < n_ant /\ snd p < n_ant) baselines ->
  Forall (fun x => length x = length baselines /\ Forall (fun r => length r = n_chan /\ Forall (fun s => length (vis s) = n_dir) r) x) l ->
  let time := slot_time t0 interval in
  exists out, process_all jones n_ant n_chan per_update interval (time (length l - 1)) upd n_dir init baselines (combine (map time (seq 0 (length l))) l) = Ok out /\ length out = length l /\
    forall i x bl a b ch r s, nth_error l i = Some x -> nth_error baselines bl = Some (a, b) -> nth_error x bl = Some r -> nth_error r ch = Some s ->
      exists x' r' s', nth_error out i = Some x' /\ nth_error x' bl = Some r' /\ nth_error r' ch = Some s' /\
        corrected n_dir (fun d => jones d (time i) a ch) (fun d => jones d (time i) b ch) s s' /\ (upd = false -> weight s' = weight s) /\
        (upd = true -> n_dir = 1 -> reweighted (jones 0 (time i) a ch) (jones 0 (time i) b ch) s s').
Proof.
  intros Hk Hj Hu Hi H0 Fb F time. destruct l as [|x0 l0] eqn:El; [exists []; split; [reflexivity|]; split; [reflexivity|]; intros [|i] x bl a b ch r s E; discriminate|]. rewrite <- El in *.
  assert (Lp : 0 < length l) by (rewrite El; cbn; lia). clear El x0 l0.
  destruct (process_all_ok jones n_ant n_chan kind Hk Hj upd per_update (length l) t0 interval Hu Hi n_dir baselines Fb l 0 init) as (out & E & Lo & P).
  { intros t _ ->. destruct (next_time_first jones kind Hk Hj per_update (length l) t0 interval Hu Hi H0 Lp) as (st & s & A & B). exists st, s. split; [exact A|]. destruct B as (B1 & B2). split; [lia|exact B2]. }
  { reflexivity. } { exact F. }
  exists out. split; [exact E|]. split; [exact Lo|]. intros i x bl a b ch r s Ex Eb Er Es. destruct (P i x Ex) as (x' & A & Q). destruct (Q bl a b ch r s Eb Er Es) as (r' & s' & B & C & L & f & F1 & F2 & F3). exists x', r', s'. split; [exact A|]. split; [exact B|]. split; [exact C|]. split.
  - destruct (pass_dirs jones kind Hk Hj upd n_dir 0 n_dir s s' (fun d => jones d (time i) a ch) (fun d => jones d (time i) b ch)) as (G1 & G2 & G3); [lia|exact L|exists f; split; [exact F1|]; split; [exact F2|]; intros d Hd; apply F3; lia|].
    split; [exact G1|]. split; [|exact G3]. intros d v _ Ev. apply G2 in Ev. exact Ev.
  - split; [|intros -> ->; destruct (F3 0 ltac:(lia)) as [c Pd]; rewrite F1, F2 in Pd; now apply pass_weights with (kind := kind) (c := c)].
    intros ->. assert (G : forall d, d <= n_dir -> weight (f d) = weight s).
    { induction d as [|d IH]; intros Hd; [now rewrite F1|]. destruct (F3 d ltac:(lia)) as [c Pd]. unfold pass in Pd. rewrite <- IH by lia. destruct (matrix (jones d (slot_time t0 interval (0 + i)) a ch)); [destruct (matrix (jones d (slot_time t0 interval (0 + i)) b ch))|]; try (now destruct Pd as (_ & -> & _)). destruct Pd as (v & _ & _ & _ & _ & ->). reflexivity. }
    rewrite <- F2. apply G. lia.
Qed.
Print Assumptions C81_corrected.

(** The channels that are counted as flagged for a baseline: those that had no flag and get one *)
Lemma channels_counted jones n_ant n_chan kind upd st d a b t : kind = 2 \/ kind = 4 -> (forall d t a ch, length (jones d t a ch) = kind) -> get (times st) (step st) = Ok t -> a < n_ant -> b < n_ant ->
  forall l ch, ch + length l <= n_chan -> Forall (fun s => d < length (vis s)) l -> exists l',
  correct_channels jones n_ant n_chan upd st d a b ch l =
    Ok (l', map fst (filter (fun p => negb (good (jones d t a (fst p)) (jones d t b (fst p))) && negb (nth 0 (flag (snd p)) false)) (combine (seq ch (length l)) l))).
Proof.
  intros Hk Hj Et Ha Hb. induction l as [|s l IH]; intros ch L F; [exists []; reflexivity|]. apply Forall_cons_iff in F. destruct F as [F1 F2]. cbn [length] in L.
  destruct (sample_ok jones n_ant n_chan kind Hk Hj upd st d a b ch s t Et Ha Hb ltac:(lia) F1) as (s' & c & E & P). destruct (IH (S ch) ltac:(lia) F2) as (l' & E').
  cbn [correct_channels]. rewrite E. cbn [bind]. rewrite E'. cbn [bind]. exists (s' :: l'). do 2 f_equal. cbn [length seq combine filter fst snd]. unfold pass in P. assert (G : good (jones d t a ch) (jones d t b ch) = match matrix (jones d t a ch), matrix (jones d t b ch) with Some _, Some _ => true | _, _ => false end) by reflexivity. rewrite G.
  destruct (matrix (jones d t a ch)); [destruct (matrix (jones d t b ch))|].
  - destruct P as (_ & _ & _ & _ & -> & _). reflexivity.
  - destruct P as (_ & _ & _ & ->). cbn [negb andb]. destruct (negb _); reflexivity.
  - destruct P as (_ & _ & _ & ->). cbn [negb andb]. destruct (negb _); reflexivity.
Qed.
Theorem C81_counted jones n_ant n_chan kind upd st d n_dir t : kind = 2 \/ kind = 4 -> (forall d t a ch, length (jones d t a ch) = kind) -> get (times st) (step st) = Ok t -> d < n_dir -> forall baselines l,
  Forall (fun p => fst p < n_ant /\ snd p < n_ant) baselines -> length l = length baselines -> Forall (fun r => length r = n_chan /\ Forall (fun s => length (vis s) = n_dir) r) l ->
  exists l' counts, correction_loop jones n_ant n_chan upd st d baselines l = Ok (l', counts) /\
    forall bl a b r, nth_error baselines bl = Some (a, b) -> nth_error l bl = Some r ->
      exists c, nth_error counts bl = Some c /\ NoDup c /\
        forall ch, In ch c <-> exists s, nth_error r ch = Some s /\ good (jones d t a ch) (jones d t b ch) = false /\ nth 0 (flag s) false = false.
Proof.
  intros Hk Hj Et Hd. induction baselines as [|[a b] bs IH]; intros l Fb L F; [destruct l; [|discriminate]; exists [], []; split; [reflexivity|]; intros [|bl] ? ? ? E; discriminate|].
  destruct l as [|r l]; [discriminate|]. apply Forall_cons_iff in F, Fb. destruct F as [[F1 F2] F3], Fb as [[B1 B2] B3]. cbn [fst snd] in B1, B2. cbn [correction_loop].
  destruct (channels_counted jones n_ant n_chan kind upd st d a b t Hk Hj Et B1 B2 r 0) as (r' & E); [lia|eapply Forall_impl; [|exact F2]; cbv beta; intros; lia|]. rewrite E. cbn [bind].
  destruct (IH l B3) as (l' & cs & E' & P'); [cbn in L; lia|exact F3|]. rewrite E'. cbn [bind]. eexists; eexists; split; [reflexivity|]. intros [|bl] a' b' r0 Eb Er; [|exact (P' bl a' b' r0 Eb Er)].
  injection Eb as <- <-. injection Er as <-. eexists. split; [reflexivity|].
  assert (Nth : forall i p, nth_error (combine (seq 0 (length r)) r) i = Some p <-> fst p = i /\ nth_error r i = Some (snd p)).
  { intros i [j s]. rewrite combine_nth_error, seq_nth_error. destruct (Nat.ltb_spec i (length r)) as [Li|Li]; cbn [fst snd].
    - destruct (nth_error r i) as [s'|] eqn:Es; [|apply nth_error_None in Es; lia]. split; [intros X; injection X as <- <-; auto|intros [-> X]; now injection X as <-].
    - split; [discriminate|]. intros [_ X]. assert (i < length r) by (apply nth_error_Some; congruence). lia. }
  split.
  - assert (G : forall f (l : list (nat * sample)), NoDup (map fst l) -> NoDup (map fst (filter f l))).
    { clear. intros f. induction l as [|p l IH]; intros N; [constructor|]. cbn [map] in N. apply NoDup_cons_iff in N. destruct N as [N1 N2]. cbn [filter]. destruct (f p); [|now apply IH]. cbn [map]. constructor; [|now apply IH].
      intros I. apply N1. apply in_map_iff in I. destruct I as (q & Eq & I). apply filter_In in I. rewrite <- Eq. now apply in_map. }
    apply G. assert (M : forall (s : nat) (l : list sample), map fst (combine (seq s (length l)) l) = seq s (length l)).
    { clear. intros s l. revert s. induction l as [|x l IH]; intros s; [reflexivity|]. cbn [length seq combine map fst]. f_equal. apply IH. }
    rewrite M. apply seq_NoDup.
  - intros ch. rewrite in_map_iff. split.
    + intros ([j s] & Ej & I). cbn [fst] in Ej. subst j. apply filter_In in I. destruct I as [I C]. apply In_nth_error in I. destruct I as [i Ei]. apply Nth in Ei. cbn [fst snd] in *. destruct Ei as [-> Es]. exists s.
      apply andb_true_iff in C. destruct C as [C1 C2]. apply negb_true_iff in C1, C2. auto.
    + intros (s & Es & C1 & C2). exists (ch, s). split; [reflexivity|]. apply filter_In. split; [apply (nth_error_In _ ch); apply Nth; auto|]. cbn [fst snd]. now rewrite C1, C2.
Qed.
Print Assumptions C81_counted.

(** updateweights with full Jones matrices: a correlation with a zero weight and a zero gain, such as the off-diagonal gains of antennas without solutions (missingantennabehavior=unit), gives weights that are not a number:
    1/0 is infinite and infinity times zero is not a number.  Here the gains are identity matrices, so that nothing should change, but after it the weights of the three other correlations are not a number. *)
Theorem C81_zero_weight_refuted : exists (jones : nat -> Qc -> nat -> nat -> list (option cplx)) s s',
  (forall d t a ch, matrix (jones d t a ch) = Some (mdiag c1 c1)) /\ wel (weight s) false false = Fin 0%Qc /\
  process_all jones 2 1 1 1%Qc 0%Qc true 1 init [(0, 1)] [(0%Qc, [[s]])] = Ok [[[s']]] /\ forall i j, i || j = true -> wel (weight s) i j = Fin 1%Qc /\ wel (weight s') i j = Nan.
Proof.
  exists (fun _ _ _ _ => [Some c1; Some c0; Some c0; Some c1]), (Sample [mdiag c1 c1] (Wt (Fin 0%Qc) (Fin 1%Qc) (Fin 1%Qc) (Fin 1%Qc)) [false]), (Sample [mdiag c1 c1] (Wt (Fin 0%Qc) Nan Nan Nan) [false]).
  split; [reflexivity|]. split; [reflexivity|]. split; [vm_compute; reflexivity|]. intros [|] [|] E; try discriminate; split; reflexivity.
Qed.
Print Assumptions C81_zero_weight_refuted.
(** updateweights with usemodeldata: the weights are changed once for every direction of the model data, which all share them *)
Theorem C81_directions_refuted : exists (jones : nat -> Qc -> nat -> nat -> list (option cplx)) w s s1 s2,
  (forall i j, wel (weight s) i j = Fin 1%Qc) /\ (forall d d' t a ch, jones d t a ch = jones d' t a ch) /\
  process_all jones 2 1 1 1%Qc 0%Qc true 1 init [(0, 1)] [(0%Qc, [[s]])] = Ok [[[s1]]] /\ process_all jones 2 1 1 1%Qc 0%Qc true 2 init [(0, 1)] [(0%Qc, [[s]])] = Ok [[[s2]]] /\
  wel (weight s1) false false = Fin w /\ wel (weight s2) false false = Fin (w * w)%Qc /\ w <> (w * w)%Qc.
Proof.
  exists (fun _ _ _ _ => [Some (C (1 + 1) 0); Some c1]%Qc), (/ ((1 + 1) * (1 + 1) * ((1 + 1) * (1 + 1))))%Qc, (Sample [mzero; mzero] (Wt (Fin 1%Qc) (Fin 1%Qc) (Fin 1%Qc) (Fin 1%Qc)) [false]).
  eexists. eexists. split; [intros [|] [|]; reflexivity|]. split; [reflexivity|]. split; [vm_compute; reflexivity|]. split; [vm_compute; reflexivity|]. split; [vm_compute; reflexivity|]. split; [vm_compute; reflexivity|].
  intros H. apply (f_equal this) in H. vm_compute in H. discriminate.
Qed.
Print Assumptions C81_directions_refuted.

(** Three time slots, two per update: gains i times the time for antenna 0; the first channel of antenna 1 has no gains *)
Example C81_run :
  let jones := fun (d : nat) (t : Qc) (a ch : nat) => if a =? 0 then [Some (C 0 t); Some c1] else if ch =? 0 then [None; Some c1] else [Some c1; Some c1] in
  let s := Sample [mdiag c1 c1] (Wt (Fin 1%Qc) (Fin 1%Qc) (Fin 1%Qc) (Fin 1%Qc)) [false; false] in
  exists out, process_all jones 2 2 2 1%Qc (slot_time 1%Qc 1%Qc 2) true 1 init [(0, 1)] (combine (map (slot_time 1%Qc 1%Qc) (seq 0 3)) [[[s; s]]; [[s; s]]; [[s; s]]]) = Ok out /\
    map (fun x => match x with [[a; b]] => (flag a, flag b, map (fun v => (this (re (m0 v)), this (im (m0 v)))) (vis b), match w0 (weight b) with Fin w => Some (this w) | _ => None end) | _ => ([], [], [], None) end) out =
      [([true; true], [false; false], [(0%Q, 1%Q)], Some 1%Q); ([true; true], [false; false], [(0%Q, 2%Q)], Some (1 # 4)%Q); ([true; true], [false; false], [(0%Q, 3%Q)], Some (1 # 9)%Q)].
Proof. eexists. split; [vm_compute; reflexivity|vm_compute; reflexivity]. Qed.
