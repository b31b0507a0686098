(** C73: what is written to the solution file. *)
From Coq Require Import List Bool Arith Lia ZArith QArith Qcanon.
From Coq Require Import ZifyBool ZifyNat.
From Verif Require Import QcUtil AverageModel SolveDataModel SolveDataProofs GainModel ResampleModel ResampleSpec ResampleProofs.
Import ListNotations.
Open Scope nat_scope.

Section Times.
Context {T : Type}.
Variables (add sub mul : T -> T -> T) (half_ : T) (of_nat : nat -> T) (lt : T -> T -> bool) (s e si dt : T).
Let past t := lt (sub e (mul half_ dt)) (add s (mul (of_nat t) si)).
Lemma times_from_count : forall n t k, k <= n -> (forall i, i < k -> past (t + i) = false) -> (k < n -> past (t + k) = true) ->
  times_from add sub mul half_ of_nat lt n t s e si dt = map (fun i => add s (mul (add (of_nat i) half_) si)) (seq t k).
Proof.
  induction n as [|n IH]; intros t k Hk Hf Ht.
  - now replace k with 0 by lia.
  - cbn [times_from]. change (lt _ _) with (past t). destruct k as [|k].
    + rewrite <- (Nat.add_0_r t), Ht by lia. reflexivity.
    + rewrite <- (Nat.add_0_r t) at 1. rewrite Hf by lia. cbn [seq map]. f_equal. apply IH; [lia| |].
      * intros i Hi. replace (S t + i) with (t + S i) by lia. apply Hf. lia.
      * intros Hi. replace (S t + k) with (t + S k) by lia. apply Ht. lia.
Qed.
End Times.

(** Exact numbers *)
Notation write_solutions_qc := (write_solutions Qcplus Qcminus Qcmult half qn qltb).

(** The time axis for intervals of [r] slots *)
Lemma times_exact n total r first dt : 0 < n -> 0 < r -> (0 < dt)%Qc -> n <= total * r ->
  solution_times Qcplus Qcminus Qcmult half qn qltb total (first - half * dt)%Qc (first + qn (n - 1) * dt)%Qc (dt * qn r)%Qc dt =
  map (fun w => first - half * dt + (qn w + half) * (dt * qn r))%Qc (seq 0 (S ((n - 1) / r))).
Proof.
  intros Hn Hr Hd Ht. unfold solution_times.
  assert (P : forall t, (qltb (first + qn (n - 1) * dt - half * dt) (first - half * dt + qn t * (dt * qn r)))%Qc = (n - 1 <? t * r)).
  { intros t. assert (E : (first - half * dt + qn t * (dt * qn r) = first - half * dt + qn (t * r) * dt)%Qc) by (rewrite qn_mult; ring).
    rewrite E. destruct (Nat.ltb_spec (n - 1) (t * r)) as [H|H].
    - apply qltb_true. assert (qn (n - 1) * dt < qn (t * r) * dt)%Qc by (apply Qcmult_lt_compat_r; [assumption|now apply qn_lt]). qclra.
    - apply qltb_false. assert (qn (t * r) * dt <= qn (n - 1) * dt)%Qc by (apply Qcmult_le_compat_r; [now apply qn_le|now apply Qclt_le_weak]). qclra. }
  pose proof (Nat.div_mod (n - 1) r ltac:(lia)) as D. pose proof (Nat.mod_upper_bound (n - 1) r ltac:(lia)) as M.
  set (q := (n - 1) / r) in *. clearbody q.
  rewrite (times_from_count Qcplus Qcminus Qcmult half qn qltb (first - half * dt)%Qc (first + qn (n - 1) * dt)%Qc (dt * qn r)%Qc dt total 0 (S q)).
  - reflexivity.
  - assert (q * r < total * r) by lia. apply Nat.mul_lt_mono_pos_r in H; [lia|assumption].
  - intros i Hi. cbn [Nat.add]. rewrite P. apply Nat.ltb_ge. assert (i * r <= q * r) by (apply Nat.mul_le_mono_r; lia). lia.
  - intros Hi. cbn [Nat.add]. rewrite P. apply Nat.ltb_lt. cbn. lia.
Qed.

(** The settings that are accepted *)
Lemma prepare_ok si nd req sub : prepare si nd req = Ok sub ->
  length sub = nd /\ sub <> [] /\ (forall n, In n sub -> 0 < n /\ Nat.divide n si) /\ (si = 0 -> forall n, In n sub -> n = 1).
Proof.
  unfold prepare. destruct (Nat.ltb_spec nd (length req)) as [|L]; [easy|].
  set (l := req ++ repeat 1 (nd - length req)). assert (Ll : length l = nd) by (unfold l; rewrite app_length, repeat_length; lia). clearbody l.
  destruct (existsb (fun n => n =? 0) l) eqn:E0; [easy|]. destruct (existsb (fun n => negb (si mod n =? 0)) l) eqn:E1; [easy|].
  destruct (Nat.eqb_spec (length l) 0) as [|N]; [discriminate|].
  assert (P : forall n, In n l -> 0 < n /\ Nat.divide n si).
  { intros n I. pose proof (existsb_zero _ E0 n I). split; [assumption|]. apply Nat.mod_divide; [lia|]. now apply (existsb_mod l). }
  assert (Nl : l <> []) by (intros ->; easy).
  destruct (Nat.ltb_spec 1 (list_max l)) as [M|M].
  - destruct (Nat.eqb_spec si 0) as [|S0]; [easy|]. destruct (si / list_max l =? 0); [easy|]. intros E. injection E as <-. repeat split; auto; try (now apply P). lia.
  - intros E. injection E as <-. repeat split; auto; try (now apply P). intros _ n I. pose proof (proj1 (P n I)).
    pose proof (proj1 (list_max_le l (list_max l)) (le_n _)) as F. rewrite Forall_forall in F. apply F in I. lia.
Qed.
Lemma list_sum_ones l : (forall n, In n l -> n = 1) -> list_sum l = length l.
Proof. induction l as [|x l IH]; [reflexivity|]. intros H. cbn. rewrite (H x) by now left. unfold list_sum in IH. rewrite IH; [lia|]. intros n I. apply H. now right. Qed.
Lemma ones_list_sum l : (forall n, In n l -> 0 < n) -> list_sum l = length l -> forall n, In n l -> n = 1.
Proof.
  induction l as [|x l IH]; [easy|]. intros P E.
  assert (S : length l <= list_sum l).
  { clear - P. assert (Q : forall n, In n l -> 0 < n) by (intros n I; apply P; now right). clear P. induction l as [|y l IH]; [cbn; lia|].
    change (list_sum (y :: l)) with (y + list_sum l). cbn [length]. pose proof (Q y ltac:(now left)). assert (length l <= list_sum l); [|lia]. apply IH. intros n I. apply Q. now right. }
  change (list_sum (x :: l)) with (x + list_sum l) in E. cbn [length] in E. pose proof (P x ltac:(now left)).
  intros n [<-|I]; [lia|]. apply IH; [intros m J; apply P; now right|lia|assumption].
Qed.

(** What is written for intervals that all have the same shape, and a time axis *)
Lemma flat_get {G} (n_freq n_rest : nat) (l : list (list (list G))) w s cb b r : 
  Forall (fun s => length s = n_freq /\ Forall (fun b => length b = n_rest) s) l -> nth_error l w = Some s -> nth_error s cb = Some b -> r < n_rest ->
  nth_error (concat (concat l)) ((w * n_freq + cb) * n_rest + r) = nth_error b r.
Proof.
  intros F Es Eb Hr. assert (F1 : Forall (fun s : list (list G) => length s = n_freq) l) by (eapply Forall_impl; [|exact F]; intros y [A _]; exact A).
  assert (F2 : Forall (fun b : list G => length b = n_rest) (concat l)).
  { apply Forall_forall. intros x I. apply in_concat in I as (y & Iy & Ix). rewrite Forall_forall in F. destruct (F y Iy) as [_ G2]. rewrite Forall_forall in G2. auto. }
  assert (Ls : length s = n_freq) by (rewrite Forall_forall in F1; apply F1; now apply nth_error_In in Es).
  assert (cb < n_freq) by (rewrite <- Ls; apply nth_error_Some; congruence).
  apply (concat_get n_rest); [assumption| |assumption]. rewrite (concat_get n_freq l w s); assumption.
Qed.
Lemma flat_length {G} (n_freq n_rest : nat) (l : list (list (list G))) :
  Forall (fun s => length s = n_freq /\ Forall (fun b => length b = n_rest) s) l -> length (concat (concat l)) = length l * n_freq * n_rest.
Proof.
  intros F. assert (F1 : Forall (fun s : list (list G) => length s = n_freq) l) by (eapply Forall_impl; [|exact F]; intros y [A _]; exact A).
  assert (F2 : Forall (fun b : list G => length b = n_rest) (concat l)).
  { apply Forall_forall. intros x I. apply in_concat in I as (y & Iy & Ix). rewrite Forall_forall in F. destruct (F y Iy) as [_ G2]. rewrite Forall_forall in G2. auto. }
  rewrite (concat_length n_rest) by assumption. now rewrite (concat_length n_freq).
Qed.
Lemma nth_error_firstn {X} (l : list X) k i : i < k -> nth_error (firstn k l) i = nth_error l i.
Proof. revert k i. induction l as [|x l IH]; intros [|k] [|i] H; cbn; try easy; try lia. apply IH. lia. Qed.
Lemma Forall_firstn' {X} (P : X -> Prop) l k : Forall P l -> Forall P (firstn k l).
Proof. intros F. apply Forall_forall. intros x I. rewrite Forall_forall in F. apply F. rewrite <- (firstn_skipn k l). apply in_or_app. now left. Qed.

Lemma half_double : (half + half = 1)%Qc. Proof. apply Qc_is_canon; reflexivity. Qed.

(** * The file *)
(** With exact arithmetic: for data of [n] regular time slots and any accepted numbers of solutions per direction, the file has for every time slot an entry of the time
    axis that has all of the slot, and the values of this entry are, for every channel block, antenna, direction and polarization, those of the part of the solution
    interval that the slot is in.  All entries start within the data. *)
Theorem C73_written {G} (solutions : list (list (list G))) first dt solint requested sub n_blocks n_ant n_pol n n_dir :
  prepare solint n_dir requested = Ok sub -> 0 < n -> (0 < dt)%Qc ->
  let size := if solint =? 0 then n else solint in
  length solutions = intervals n size ->
  Forall (fun s => length s = n_blocks /\ Forall (fun b => length b = n_ant * list_sum sub * n_pol) s) solutions ->
  exists times values width,
    write_solutions_qc solutions first (first + qn (n - 1) * dt)%Qc dt size sub n_ant n_pol = Ok (times, values) /\
    length values = length times * n_blocks * (n_ant * (n_dir * n_pol)) /\
    (forall t, t < n -> exists w center, nth_error times w = Some center /\
      covers center width (first - half * dt + qn t * dt) (first - half * dt + qn (t + 1) * dt) /\
      forall cb a d p m j, cb < n_blocks -> a < n_ant -> nth_error sub d = Some m -> p < n_pol -> in_part size m (t mod size) j ->
        exists s b x, nth_error solutions (t / size) = Some s /\ nth_error s cb = Some b /\
          nth_error b (at3 (list_sum sub) n_pol a (list_sum (firstn d sub) + j) p) = Some x /\
          nth_error values (at5 n_blocks n_ant n_dir n_pol w cb a d p) = Some x) /\
    (forall w center, nth_error times w = Some center -> center - half * width < first - half * dt + qn n * dt)%Qc.
Proof.
  intros Ep Hn Hd size Ls shape. destruct (prepare_ok _ _ _ _ Ep) as (Ld & Ns & Pos & Zero).
  assert (Hs : 0 < size) by (unfold size; destruct (Nat.eqb_spec solint 0); lia).
  assert (Div : forall m, In m sub -> 0 < m /\ Nat.divide m size).
  { intros m I. unfold size. destruct (Nat.eqb_spec solint 0) as [Z|]; [|now apply Pos]. rewrite (Zero Z m I). split; [lia|]. apply Nat.divide_1_l. }
  clearbody size. clear Pos Zero Ep requested.
  assert (Full : n <= length solutions * size).
  { rewrite Ls. unfold intervals. pose proof (Nat.div_mod (n + size - 1) size ltac:(lia)). pose proof (Nat.mod_upper_bound (n + size - 1) size ltac:(lia)). lia. }
  assert (Non : solutions <> []) by (intros E; rewrite E in Full; cbn in Full; lia).
  (* the steps in an interval *)
  assert (K : exists steps r up, 0 < steps /\ 0 < r /\ size = steps * r /\ (forall m, In m sub -> Nat.divide m steps) /\ length up = length solutions * steps /\
     Forall (fun s => length s = n_blocks /\ Forall (fun b => length b = n_ant * (length sub * n_pol)) s) up /\
     (forall w cb a d p m, w < length up -> cb < n_blocks -> a < n_ant -> nth_error sub d = Some m -> p < n_pol ->
       exists s b x s' b', nth_error up w = Some s /\ nth_error s cb = Some b /\ nth_error b (at3 (length sub) n_pol a d p) = Some x /\
       nth_error solutions (w / steps) = Some s' /\ nth_error s' cb = Some b' /\
       nth_error b' (at3 (list_sum sub) n_pol a (list_sum (firstn d sub) + w mod steps / (steps / m)) p) = Some x) /\
     write_solutions_qc solutions first (first + qn (n - 1) * dt)%Qc dt size sub n_ant n_pol =
       Ok (write_direct Qcplus Qcminus Qcmult half qn qltb up (first - half * dt)%Qc (first + qn (n - 1) * dt)%Qc dt (dt * qn r)%Qc)).
  { unfold write_solutions, write. destruct (Nat.eqb_spec (list_sum sub) (length sub)) as [E|E].
    - assert (O : forall m, In m sub -> m = 1) by (apply ones_list_sum; [intros m I; now apply Div|assumption]).
      exists 1, size, solutions. split; [lia|]. split; [assumption|]. split; [lia|]. split; [intros m I; rewrite (O m I); apply Nat.divide_refl|].
      split; [lia|]. split; [rewrite E in shape; eapply Forall_impl; [|exact shape]; intros s [A B]; split; [assumption|]; now rewrite Nat.mul_assoc|].
      split; [|reflexivity]. intros w cb a d p m Hw Hcb Ha Em Hp.
      destruct (nth_error solutions w) as [s|] eqn:Es; [|apply nth_error_None in Es; lia].
      rewrite Forall_forall in shape. destruct (shape s (nth_error_In _ _ Es)) as [Lsb Fb].
      destruct (nth_error s cb) as [b|] eqn:Eb; [|apply nth_error_None in Eb; lia].
      rewrite Forall_forall in Fb. pose proof (Fb b (nth_error_In _ _ Eb)) as Lb.
      assert (Hdd : d < length sub) by (apply nth_error_Some; congruence).
      assert (Dd : list_sum (firstn d sub) = d).
      { rewrite list_sum_ones; [apply firstn_length_le; lia|]. intros k I. apply O. rewrite <- (firstn_skipn d sub). apply in_or_app. now left. }
      assert (Lt : at3 (length sub) n_pol a d p < length b).
      { rewrite Lb, E. unfold at3. assert (a * length sub + d < n_ant * length sub) by (clear - Ha Hdd; nia). clear - H Hp. nia. }
      destruct (nth_error b (at3 (length sub) n_pol a d p)) as [x|] eqn:Ex; [|apply nth_error_None in Ex; lia].
      exists s, b, x, s, b. rewrite Nat.div_1_r. repeat split; try assumption.
      rewrite Dd, E, Nat.mod_1_r. rewrite Nat.div_0_l. 2: { rewrite (O m (nth_error_In _ _ Em)). easy. } now rewrite Nat.add_0_r.
    - destruct (n_substeps_ok sub size Ns Div Hs) as (steps & Es & P & [r Er] & Ds). rewrite Es. cbn [bind].
      replace (steps =? 0) with false by (symmetry; apply Nat.eqb_neq; lia).
      destruct (upsample_ok sub steps n_ant n_pol n_blocks solutions) as (up & Eu & Lu & Fu & Hu); try assumption.
      { intros m I. now apply Div. }
      exists steps, r, up. rewrite Eu. cbn [bind]. rewrite Er at 2. rewrite Nat.div_mul by lia.
      assert (0 < r) by (destruct r; lia). repeat split; try assumption; lia. }
  destruct K as (steps & r & up & Psteps & Pr & Esize & Dsteps & Lu & Fu & Hu & Ew). rewrite Ew. unfold write_direct.
  rewrite times_exact; try assumption. 2: { rewrite Lu. rewrite Esize in Full. lia. }
  set (times := map _ _). assert (Lt : length times = S ((n - 1) / r)) by (unfold times; now rewrite map_length, seq_length).
  assert (Gt : forall w, w < S ((n - 1) / r) -> nth_error times w = Some (first - half * dt + (qn w + half) * (dt * qn r))%Qc).
  { intros w Hw. unfold times. apply (map_nth_error (fun w => first - half * dt + (qn w + half) * (dt * qn r))%Qc w (seq 0 (S ((n - 1) / r)))).
    rewrite (nth_error_nth' _ 0) by (rewrite seq_length; lia). now rewrite seq_nth by lia. }
  assert (Le : S ((n - 1) / r) <= length up).
  { rewrite Lu. assert ((n - 1) / r < length solutions * steps); [|lia]. apply Nat.div_lt_upper_bound; [lia|]. rewrite Esize in Full. lia. }
  clearbody times.
  exists times, (concat (concat (firstn (length times) up))), (dt * qn r)%Qc. split; [reflexivity|]. split; [|split].
  - rewrite (flat_length n_blocks (n_ant * (length sub * n_pol))) by now apply Forall_firstn'. rewrite firstn_length_le by lia. now rewrite Ld.
  - intros t Ht.
    assert (Hw : t / r < S ((n - 1) / r)) by (pose proof (Nat.div_le_mono t (n - 1) r ltac:(lia) ltac:(lia)); lia).
    exists (t / r), (first - half * dt + (qn (t / r) + half) * (dt * qn r))%Qc. split; [now apply Gt|].
    pose proof (Nat.div_mod t r ltac:(lia)) as D. pose proof (Nat.mod_upper_bound t r ltac:(lia)) as M.
    split.
    { set (w := t / r) in *. clearbody w. unfold covers. split.
      - assert (E : (first - half * dt + (qn w + half) * (dt * qn r) - half * (dt * qn r) = first - half * dt + qn (w * r) * dt)%Qc) by (rewrite qn_mult; ring). rewrite E.
        assert (qn (w * r) * dt <= qn t * dt)%Qc by (apply Qcmult_le_compat_r; [apply qn_le; lia|now apply Qclt_le_weak]). qclra.
      - assert (E : (first - half * dt + (qn w + half) * (dt * qn r) + half * (dt * qn r) = first - half * dt + qn ((w + 1) * r) * dt)%Qc).
        { rewrite qn_mult, qn_plus. change (qn 1) with 1%Qc. rewrite <- half_double. ring. } rewrite E.
        assert (qn (t + 1) * dt <= qn ((w + 1) * r) * dt)%Qc by (apply Qcmult_le_compat_r; [apply qn_le; lia|now apply Qclt_le_weak]). qclra. }
    intros cb a d p m j Hcb Ha Em Hp Hj. apply in_part_iff in Hj; [|assumption]. subst j.
    destruct (Hu (t / r) cb a d p m) as (s & b & x & s' & b' & Es & Eb & Ex & Es' & Eb' & Ex'); try assumption; [lia|].
    assert (Td : t / r / steps = t / size) by (rewrite Nat.div_div by lia; now rewrite Esize, (Nat.mul_comm r)).
    assert (Tm : t / r mod steps = t mod size / r).
    { rewrite Esize, (Nat.mul_comm steps r), Nat.mod_mul_r by lia. rewrite Nat.mul_comm, Nat.div_add by lia. rewrite (Nat.div_small (t mod r)) by lia. reflexivity. }
    pose proof (nth_error_In _ _ Em) as Im.
    destruct (same_part m steps r (t mod size)) as (S1 & _); try assumption; [now apply Div|now apply Dsteps|rewrite <- Esize; apply Nat.mod_upper_bound; lia|].
    exists s', b', x. rewrite <- Td. split; [assumption|]. split; [assumption|]. split.
    { rewrite <- Ex'. rewrite Tm, S1, <- Esize. reflexivity. }
    assert (Hdd : d < length sub) by (apply nth_error_Some; congruence).
    assert (E5 : at5 n_blocks n_ant n_dir n_pol (t / r) cb a d p = (t / r * n_blocks + cb) * (n_ant * (length sub * n_pol)) + at3 (length sub) n_pol a d p).
    { unfold at5, at3. rewrite Ld. lia. } rewrite E5.
    rewrite (flat_get n_blocks (n_ant * (length sub * n_pol)) _ _ s cb b).
    + assumption.
    + now apply Forall_firstn'.
    + rewrite nth_error_firstn by lia. assumption.
    + assumption.
    + unfold at3. assert (a * length sub + d < n_ant * length sub) by (clear - Ha Hdd; nia). clear - H Hp. nia.
  - intros w center Ec. assert (Hw : w < S ((n - 1) / r)) by (rewrite <- Lt; apply nth_error_Some; congruence). rewrite Gt in Ec by assumption. injection Ec as <-.
    assert (E : (first - half * dt + (qn w + half) * (dt * qn r) - half * (dt * qn r) = first - half * dt + qn (w * r) * dt)%Qc) by (rewrite qn_mult; ring). rewrite E.
    pose proof (Nat.div_mod (n - 1) r ltac:(lia)) as D.
    assert (w * r <= (n - 1) / r * r) by (apply Nat.mul_le_mono_r; lia).
    assert (qn (w * r) * dt < qn n * dt)%Qc by (apply Qcmult_lt_compat_r; [assumption|apply qn_lt; lia]). qclra.
Qed.
Print Assumptions C73_written.
(** The file for three slots of two seconds, solution intervals of two slots, and one and two solutions per direction *)
Example C73_written_example : prepare 2 2 [1; 2] = Ok [1; 2] /\ length [[[10; 20; 21]]; [[30; 40; 41]]] = intervals 3 2 /\
  exists times, write_solutions_qc [[[10; 20; 21]]; [[30; 40; 41]]] (qn 1) (qn 1 + qn 2 * qn 2)%Qc (qn 2) 2 [1; 2] 1 1 = Ok (times, [10; 20; 10; 21; 30; 40]) /\
    map this times = map this [qn 1; qn 3; qn 5].
Proof. repeat split. eexists. split; reflexivity. Qed.

(** * The solver *)
(** The part of the solution interval is the one that the solver has fitted to the data of the slot. *)
Theorem C73_solver {X M W} (to_matrix : X -> M) n_channels size sub t (buf : @buffer X W) baseline ants ch d m j :
  0 < size -> (forall n, In n sub -> 0 < n /\ Nat.divide n size) -> nth_error sub d = Some m -> in_part size m (t mod size) j ->
  nth_error (vis_solutions (stored (regular_sample to_matrix n_channels size (limit sub size) (t mod size) buf baseline ants) ch)) d =
    Some (list_sum (firstn d sub) + j).
Proof.
  intros Hs Div Em Hj. apply in_part_iff in Hj; [|assumption]. subst j.
  assert (L : limit sub size = sub).
  { unfold limit. rewrite <- (map_id sub) at 2. apply map_ext_in. intros n I. destruct (Div n I) as [_ D]. apply Nat.divide_pos_le in D; [lia|assumption]. }
  rewrite L. unfold regular_sample. cbn [stored vis_solutions]. assert (Hd : d < length sub) by (apply nth_error_Some; congruence).
  rewrite (map_nth_error (fun d => t mod size * nth d sub 0 / size + nth d (start_indices 0 sub) 0) d (seq 0 (length sub)) (d := d)).
  - f_equal. rewrite start_indices_spec by assumption. rewrite (nth_error_nth sub d 0 Em). unfold SolveDataSpec.first_solution. lia.
  - rewrite (nth_error_nth' _ 0) by now rewrite seq_length. now rewrite seq_nth.
Qed.
Print Assumptions C73_solver.
Example C73_solver_example : in_part 6 3 (10 mod 6) 2 /\
  nth_error (vis_solutions (stored (regular_sample (fun x : nat => x) 1 6 (limit [2; 3] 6) (10 mod 6) (Buffer (fun _ _ => 0) (fun _ _ => @nil nat) (fun _ _ _ => 0)) 0 (0, 1)) 0)) 1 = Some (2 + 2).
Proof. split; [unfold in_part; cbn; lia|reflexivity]. Qed.

(** * Results of constraints *)
(** The values of a constraint are resampled in the same way: substep [o / r] of an interval of [steps * r] slots has the values of the part that slot [o] is in. *)
Theorem C73_constraint {G} sub steps r dim0 residual (l : list G) o :
  0 < steps -> 0 < r -> 0 < dim0 -> sub <> [] -> (forall n, In n sub -> 0 < n /\ Nat.divide n steps) -> length l = dim0 * list_sum sub * residual -> o < steps * r ->
  exists l', upsample_result sub steps dim0 (o / r) l = Ok l' /\ length l' = dim0 * (length sub * residual) /\
    forall i d m q j, i < dim0 -> nth_error sub d = Some m -> q < residual -> in_part (steps * r) m o j ->
      exists x, nth_error l (at3 (list_sum sub) residual i (list_sum (firstn d sub) + j) q) = Some x /\ nth_error l' (at3 (length sub) residual i d q) = Some x.
Proof.
  intros Ps Pr Pd Ns Div Ll Ho. unfold upsample_result.
  assert (Sp : 0 < list_sum sub).
  { destruct sub as [|x q]; [easy|]. change (list_sum (x :: q)) with (x + list_sum q). pose proof (proj1 (Div x ltac:(now left))). lia. }
  assert (D0 : dim0 * list_sum sub <> 0) by (clear - Sp Pd; nia).
  replace (dim0 * list_sum sub =? 0) with false by (symmetry; now apply Nat.eqb_neq).
  replace (steps =? 0) with false by (symmetry; apply Nat.eqb_neq; lia). cbn [orb].
  cbv zeta. replace (length l / (dim0 * list_sum sub)) with residual by (rewrite Ll, (Nat.mul_comm (dim0 * list_sum sub)), Nat.div_mul; [reflexivity|assumption]).
  pose (V := fun i d (y : list G) => length y = residual /\ forall q m, q < residual -> nth_error sub d = Some m ->
     exists x, nth_error y q = Some x /\ nth_error l (at3 (list_sum sub) residual i (list_sum (firstn d sub) + o * m / (steps * r)) q) = Some x).
  pose (Vi := fun i (y : list G) => length y = length sub * residual /\ forall d q m, q < residual -> nth_error sub d = Some m ->
     exists x, nth_error y (d * residual + q) = Some x /\ nth_error l (at3 (list_sum sub) residual i (list_sum (firstn d sub) + o * m / (steps * r)) q) = Some x).
  match goal with |- context [bind (collect ?f dim0) _] => destruct (collect_ok Vi f dim0) as (li & Ei & Li & Hi) end.
  { intros i Hi.
    match goal with |- context [bind (collect ?f (length sub)) _] => destruct (collect_ok (V i) f (length sub)) as (ld & Ed & Lld & Hld) end.
    { intros d Hd. destruct (nth_error sub d) as [m|] eqn:Em; [|apply nth_error_None in Em; lia]. unfold get at 1. rewrite Em. cbn [bind].
      destruct (Div m (nth_error_In _ _ Em)) as [Pm Dm]. destruct (same_part m steps r o) as (_ & S2 & S3); try assumption. rewrite S2.
      match goal with |- context [collect ?f residual] => destruct (collect_ok (fun q x => nth_error l (at3 (list_sum sub) residual i (list_sum (firstn d sub) + o * m / (steps * r)) q) = Some x) f residual) as (lq & Eq & Lq & Hq) end.
      { intros q Hq. unfold get. fold (at3 (list_sum sub) residual i (list_sum (firstn d sub) + o * m / (steps * r)) q).
        assert (Lt : at3 (list_sum sub) residual i (list_sum (firstn d sub) + o * m / (steps * r)) q < length l).
        { rewrite Ll. unfold at3. pose proof (sum_firstn_le sub (S d)) as Q. rewrite (sum_firstn_S _ _ _ Em) in Q.
          set (s0 := list_sum (firstn d sub) + o * m / (steps * r)). assert (Hs0 : s0 < list_sum sub) by (unfold s0; lia). clearbody s0.
          assert (H : i * list_sum sub + s0 < dim0 * list_sum sub) by (clear - Hi Hs0; nia). clear - H Hq. nia. }
        destruct (nth_error l _) as [x|] eqn:Ex; [|apply nth_error_None in Ex; lia]. now exists x. }
      exists lq. split; [assumption|]. split; [assumption|]. intros q m' Hq' Em'. assert (m' = m) by congruence. subst m'.
      destruct (Hq q Hq') as (x & E1 & E2). now exists x. }
    rewrite Ed. cbn [bind].
    assert (F : Forall (fun y : list G => length y = residual) ld).
    { apply forall_get. intros k0 Hk0. destruct (Hld k0) as (y & Ey & Ly & _); [lia|]. now exists y. }
    exists (concat ld). split; [reflexivity|]. split; [rewrite (concat_length residual) by assumption; lia|].
    intros d q m Hq Em. assert (Hd : d < length sub) by (apply nth_error_Some; congruence).
    destruct (Hld d Hd) as (y & Ey & Ly & Hy). destruct (Hy q m Hq Em) as (x & E1 & E2). exists x. split; [|assumption]. now rewrite (concat_get residual ld d y q). }
  rewrite Ei. cbn [bind].
  assert (F : Forall (fun y : list G => length y = length sub * residual) li).
  { apply forall_get. intros k0 Hk0. destruct (Hi k0) as (y & Ey & Ly & _); [lia|]. now exists y. }
  exists (concat li). split; [reflexivity|]. split; [rewrite (concat_length (length sub * residual)) by assumption; lia|].
  intros i d m q j Hii Em Hq Hj. apply in_part_iff in Hj; [|clear - Ps Pr; nia]. subst j.
  destruct (Hi i Hii) as (y & Ey & Ly & Hy). destruct (Hy d q m Hq Em) as (x & E1 & E2). exists x. split; [assumption|].
  assert (Hd : d < length sub) by (apply nth_error_Some; congruence).
  replace (at3 (length sub) residual i d q) with (i * (length sub * residual) + (d * residual + q)) by (unfold at3; lia).
  rewrite (concat_get (length sub * residual) li i y); try assumption. clear - Hd Hq. nia.
Qed.
Print Assumptions C73_constraint.
Example C73_constraint_example : upsample_result [1; 2] 2 2 1 [10; 20; 21; 30; 40; 41] = Ok [10; 21; 30; 41].
Proof. reflexivity. Qed.

(** The file of a constraint may have a time axis and weights of another size than its values and times: the axis and the weights have all resampled intervals, but
    the values and the times only those that start within the data.  Here three slots, intervals of two slots, and one and two solutions per direction: two intervals
    are resampled to four, of which three are within the data. *)
Theorem C73_constraint_refuted : exists (results up : list (list nat * list nat)) steps axis values weights times,
  prepare 2 2 [1; 2] = Ok [1; 2] /\ length results = intervals 3 2 /\ n_substeps [1; 2] 2 = Ok steps /\ length up = length results * steps /\
  write_constraint Qcplus Qcminus Qcmult half qn qltb (length up) up (1 - half)%Qc (1 + qn 2)%Qc 1%Qc (1 * qn (2 / steps))%Qc = (axis, values, weights, times) /\
  length times = 3 /\ length values = 6 /\ axis = 4 /\ length weights = 8.
Proof. exists (repeat ([1; 2; 3], [1; 2; 3]) 2), (repeat ([1; 2], [1; 2]) 4), 2. do 4 eexists. repeat split; reflexivity. Qed.
Print Assumptions C73_constraint_refuted.

(** With a solution interval of zero slots, which means all slots, BdaDdeCal gives the zero to the writer (steps/BdaDdeCal.cc:845-852): the time of the solution is then
    the start of the data and not its middle. *)
Theorem C73_bda_refuted : exists first dt n times values, prepare 0 1 [] = Ok [1] /\ 1 < n /\ (0 < dt)%Qc /\
  write_solutions_qc [[[7]]] first (first + qn (n - 1) * dt)%Qc dt 0 [1] 1 1 = Ok (times, values) /\
  map this times = [this (first - half * dt)%Qc] /\ this (first - half * dt)%Qc <> this (first - half * dt + half * (qn n * dt))%Qc.
Proof.
  exists (qn 5), (qn 2), 10. do 2 eexists. split; [reflexivity|]. split; [lia|]. split; [apply qltb_true; reflexivity|]. split; [reflexivity|].
  split; [reflexivity|]. vm_compute. discriminate.
Qed.
Print Assumptions C73_bda_refuted.
