(** Properties C13, C14, C48 and C49: channel, antenna and time bookkeeping. *)
From Coq Require Import QArith Qround Qcanon List Bool Arith ZArith Lia.
From Verif Require Import QcUtil AverageModel AverageSpec AverageProofs BdaExpandSpec InfoModel InfoSpec InfoProofs.
Import ListNotations.
Open Scope Qc_scope.

(** C13, the part that holds: after a successful selection the metadata of the
    channels is that range of the original, and a range outside the channels is
    refused as long as start + count does not wrap.  Missing: total bandwidth,
    and the wrapping case; see the refutations. *)
Theorem C13_select_partial : forall inf start n inf', info_ok inf -> (0 <= start)%Z -> (0 <= n)%Z ->
  select_channels inf start n = Ok inf' ->
  let s := Z.to_nat start in let k := Z.to_nat n in
  (s + k <= i_nchan inf)%nat /\
  i_nchan inf' = k /\ part_of s k (i_freqs inf) (i_freqs inf') /\ part_of s k (i_widths inf) (i_widths inf') /\
  part_of s k (i_resol inf) (i_resol inf') /\ part_of s k (i_effbw inf) (i_effbw inf') /\
  i_startchan inf' = (i_startchan inf + s)%nat.
Proof. exact select_ok. Qed.
Print Assumptions C13_select_partial.

Theorem C13_refusal_partial : forall inf start n, (0 <= start)%Z -> (0 <= n)%Z -> (start + n < 2 ^ 32)%Z ->
  info_ok inf -> (Z.of_nat (i_nchan inf) < start + n)%Z -> select_channels inf start n = Throw.
Proof. exact select_refuses. Qed.
Print Assumptions C13_refusal_partial.

(** Selecting twice is selecting once, also for the channel numbers in the input. *)
Theorem C13_select_twice : forall inf s1 n1 s2 n2 i1 i2, info_ok inf ->
  (0 <= s1)%Z -> (0 <= n1)%Z -> (0 <= s2)%Z -> (0 <= n2)%Z ->
  select_channels inf s1 n1 = Ok i1 -> select_channels i1 s2 n2 = Ok i2 ->
  exists i3, select_channels inf (s1 + s2) n2 = Ok i3 /\
  i_freqs i3 = i_freqs i2 /\ i_widths i3 = i_widths i2 /\ i_effbw i3 = i_effbw i2 /\
  i_resol i3 = i_resol i2 /\ i_nchan i3 = i_nchan i2 /\ i_startchan i3 = i_startchan i2.
Proof.
  intros inf s1 n1 s2 n2 i1 i2 HI H1 H2 H3 H4 E1 E2.
  pose proof HI as ((L1 & L2 & L3 & L4) & _).
  destruct (select_ok _ _ _ _ HI H1 H2 E1) as (A1 & A2 & _).
  (* normal form of a successful selection *)
  assert (NF : forall inf s n i, (length (i_widths inf) = length (i_freqs inf))%nat ->
     (length (i_resol inf) = length (i_freqs inf))%nat -> (length (i_effbw inf) = length (i_freqs inf))%nat ->
     length (i_freqs inf) = i_nchan inf -> (0 <= s)%Z -> (0 <= n)%Z ->
     select_channels inf s n = Ok i ->
     i_freqs i = range (Z.to_nat s) (Z.to_nat n) (i_freqs inf) /\
     i_widths i = range (Z.to_nat s) (Z.to_nat n) (i_widths inf) /\
     i_resol i = range (Z.to_nat s) (Z.to_nat n) (i_resol inf) /\
     i_effbw i = range (Z.to_nat s) (Z.to_nat n) (i_effbw inf) /\
     i_nchan i = Z.to_nat n /\ i_startchan i = (i_startchan inf + Z.to_nat s)%nat /\
     (Z.to_nat s + Z.to_nat n <= i_nchan inf)%nat).
  { clear. intros inf s n i W1 W2 W3 W4 Hs Hn. unfold select_channels.
    destruct ((s =? 0)%Z && (n =? Z.of_nat (i_nchan inf))%Z) eqn:E0.
    - intros E. assert (i = inf) by congruence. subst i.
      apply andb_true_iff in E0. destruct E0 as [E1 E2]. apply Z.eqb_eq in E1, E2. subst s n.
      rewrite Nat2Z.id. change (Z.to_nat 0) with 0%nat. unfold range. simpl.
      rewrite !firstn_all2 by lia. repeat split; auto; lia.
    - destruct (Z.ltb_spec (Z.of_nat (length (i_freqs inf))) ((s + n) mod 2 ^ 32)); [discriminate|].
      destruct (Z.ltb_spec (Z.of_nat (length (i_freqs inf))) (s + n)); [discriminate|].
      intros E. match type of E with Ok ?x = _ => assert (i = x) by congruence end. subst i.
      cbn [i_nchan i_freqs i_widths i_resol i_effbw i_startchan]. repeat split; auto. lia. }
  assert (RL : forall l : list Qc, length l = i_nchan inf -> length (range (Z.to_nat s1) (Z.to_nat n1) l) = Z.to_nat n1).
  { intros l Hl. unfold range. rewrite firstn_length, skipn_length. lia. }
  destruct (NF inf s1 n1 i1) as (B1 & B2 & B3 & B4 & B5 & B6 & B7); auto; try lia.
  destruct (NF i1 s2 n2 i2) as (C1 & C2 & C3 & C4 & C5 & C6 & C7); auto.
  { rewrite B2, B1, !RL; auto; lia. } { rewrite B3, B1, !RL; auto; lia. } { rewrite B4, B1, !RL; auto; lia. }
  { rewrite B1, RL; auto. }
  assert (EX : exists i3, select_channels inf (s1 + s2) n2 = Ok i3).
  { unfold select_channels. destruct ((s1 + s2 =? 0)%Z && (n2 =? Z.of_nat (i_nchan inf))%Z); [eauto|].
    destruct (Z.ltb_spec (Z.of_nat (length (i_freqs inf))) ((s1 + s2 + n2) mod 2 ^ 32)) as [M|M].
    - pose proof (Z.mod_le (s1 + s2 + n2) (2 ^ 32) ltac:(lia) ltac:(lia)). lia.
    - destruct (Z.ltb_spec (Z.of_nat (length (i_freqs inf))) (s1 + s2 + n2)); [lia|eauto]. }
  destruct EX as [i3 E3]. exists i3. split; auto.
  destruct (NF inf (s1 + s2)%Z n2 i3) as (D1 & D2 & D3 & D4 & D5 & D6 & D7); auto; try lia.
  rewrite Z2Nat.inj_add in * by lia.
  rewrite D1, D2, D3, D4, D5, D6, C1, C2, C3, C4, C5, C6, B1, B2, B3, B4, B6.
  rewrite !range_range by lia. repeat split; auto; lia.
Qed.
Print Assumptions C13_select_twice.

Definition ex13_info : info :=
  let f := map (fun i => Q2Qc 100 + qn i * Q2Qc 4) (seq 0 6) in
  let wd := map (fun _ => Q2Qc 4) (seq 0 6) in
  MkInfo f wd wd wd 6 (Q2Qc 24) (Q2Qc 110) 0 5 (Q2Qc 50) (Q2Qc 58) (Q2Qc 2) 1 1.

Lemma ex13_ok : info_ok ex13_info.
Proof.
  split; [repeat split|split].
  - apply qc_eq. vm_compute. reflexivity.
  - apply qc_eq. vm_compute. reflexivity.
Qed.

Example C13_example :
  match select_channels ex13_info 2 3 with
  | Ok i => (i_nchan i, i_startchan i, map this (i_freqs i)) = (3%nat, 2%nat, [108%Q; 112%Q; 116%Q])
  | _ => False
  end /\ select_channels ex13_info 4 3 = Throw.
Proof. vm_compute. split; reflexivity. Qed.

(** The total bandwidth is that of all channels still; it is written to the
    output by the writer steps. *)
Theorem C13_bandwidth_refuted : exists inf start n inf', info_ok inf /\
  select_channels inf start n = Ok inf' /\ i_totbw inf' <> qsum (i_effbw inf') /\ ~ info_ok inf'.
Proof.
  exists ex13_info, 2%Z, 3%Z. eexists. split; [exact ex13_ok|]. split; [vm_compute; reflexivity|].
  assert (N : forall i : info, qleb (i_totbw i) (qsum (i_effbw i)) = false -> i_totbw i <> qsum (i_effbw i)).
  { intros i H E. rewrite E in H. apply qleb_false in H. revert H. apply Qcle_not_lt. apply Qcle_refl. }
  match goal with |- _ /\ ~ info_ok ?i => assert (M : i_totbw i <> qsum (i_effbw i)) end.
  { apply N. vm_compute. reflexivity. }
  split; auto. intros (_ & T & _). contradiction.
Qed.
Print Assumptions C13_bandwidth_refuted.

(** With start + count beyond 2^32 the check passes although the range is far
    outside the channels (undefined behaviour). *)
Theorem C13_wrap_refuted : exists inf start n, info_ok inf /\ (0 <= start < 2 ^ 32)%Z /\ (0 <= n < 2 ^ 32)%Z /\
  (Z.of_nat (i_nchan inf) < start + n)%Z /\ select_channels inf start n = Undefined.
Proof.
  exists ex13_info, 4294967295%Z, 4%Z. split; [exact ex13_ok|]. repeat split; try (vm_compute; congruence).
Qed.
Print Assumptions C13_wrap_refuted.

(** C14 *)
Theorem C14_renumbering : forall A (d : ants A), reachable d ->
  exists d', remove_unused d = Some d' /\ renumbered d d' /\
  (forall k, (k < length (d_ants d'))%nat -> takes_part d' k) /\
  remove_unused d' = Some d'.
Proof.
  intros A d H. apply reachable_tables in H. destruct (remove_unused_defined d H) as [d' E].
  exists d'. split; auto. destruct (remove_unused_spec d d' H E) as (_ & R & U).
  repeat split; auto. now apply (remove_idempotent d).
Qed.
Print Assumptions C14_renumbering.

(** In any reachable state the table of used antennas lists, in order, exactly
    the antennas that take part in a baseline. *)
Theorem C14_used_table : forall A (d : ants A), reachable d ->
  (forall a, In a (d_used d) <-> takes_part d a) /\
  (forall k k' x x', nth_error (d_used d) k = Some x -> nth_error (d_used d) k' = Some x' -> (k < k')%nat -> (x < x')%nat) /\
  (forall a k, nth a (d_map d) None = Some k <-> nth_error (d_used d) k = Some a).
Proof.
  intros A d H. apply reachable_tables in H. destruct H as (T1 & T2 & T3 & T4 & T5 & T6).
  split; [|split; auto]. intros a. split.
  - intros Hin. apply In_nth_error in Hin. destruct Hin as [k Hk]. now apply (T5 k).
  - intros Ha. destruct (T3 a Ha) as [_ Tn]. destruct (nth a (d_map d) None) as [k|] eqn:Ek; [|congruence].
    apply T4 in Ek. eapply nth_error_In; eauto.
Qed.
Print Assumptions C14_used_table.

Example C14_example :
  match set_antennas [10; 11; 12; 13; 14]%nat [1; 1; 3]%nat [3; 4; 4]%nat with
  | Some d => match remove_unused d with
              | Some d' => (d_ants d', d_ant1 d', d_ant2 d') = ([11; 13; 14], [0; 0; 1], [1; 2; 2])%nat
              | None => False
              end
  | None => False
  end.
Proof. reflexivity. Qed.

(** C48: table of autocorrelations. *)
Theorem C48_autocorrelations : forall ant1 ant2 t, length ant1 = length ant2 ->
  auto_corr_index ant1 ant2 = Some t -> forall a, auto_entry ant1 ant2 a (nth a t None).
Proof. exact auto_corr_spec. Qed.
Print Assumptions C48_autocorrelations.

Example C48_example : auto_corr_index [0; 0; 1; 2; 2]%nat [0; 1; 2; 2; 2]%nat = Some [Some 0; None; Some 4]%nat.
Proof. reflexivity. Qed.

(** Without any baseline the function reads outside the vector. *)
Theorem C48_no_baselines_refuted : exists ant1 ant2, length ant1 = length ant2 /\ auto_corr_index ant1 ant2 = None.
Proof. exists [], []. auto. Qed.
Print Assumptions C48_no_baselines_refuted.

(** C49: the number of time slots; the last time may be off by less than half an
    interval. *)
Theorem C49_time_count : forall inf first interval n last inf', 0 < interval ->
  about interval (last - first) (Z.of_nat n) ->
  set_times inf first last interval = Ok inf' -> i_ntime inf' = S n.
Proof. exact set_times_count. Qed.
Print Assumptions C49_time_count.

Example C49_example :
  match set_times ex13_info (Q2Qc 10) (Q2Qc (201 # 10)) (Q2Qc 5) with
  | Ok i => i_ntime i = 3%nat
  | _ => False
  end.
Proof. vm_compute. reflexivity. Qed.

(** It throws exactly when the last time is before the first or the interval is not
    positive, it stores what it is given, and it is defined below 2^32 slots. *)
Theorem C49_set_times_total : forall inf first last interval,
  (set_times inf first last interval = Throw <-> last < first \/ interval <= 0) /\
  (forall inf', set_times inf first last interval = Ok inf' ->
     i_first inf' = first /\ i_last inf' = last /\ i_interval inf' = interval /\
     i_freqs inf' = i_freqs inf /\ i_nchan inf' = i_nchan inf) /\
  (forall n, 0 < interval -> first <= last -> about interval (last - first) (Z.of_nat n) -> (Z.of_nat (S n) < 2 ^ 32)%Z ->
     exists inf', set_times inf first last interval = Ok inf' /\ i_ntime inf' = S n).
Proof. exact set_times_total. Qed.
Print Assumptions C49_set_times_total.

(** C52: setting the channels; the reference frequency that is derived is the middle one. *)
Theorem C52_set_channels : forall inf freqs widths resol effbw ref,
  let res := set_channels inf freqs widths resol effbw ref in
  (res = Throw <-> length widths <> length freqs \/ (resol <> [] /\ length resol <> length freqs) \/ (effbw <> [] /\ length effbw <> length freqs)) /\
  (res = Undefined -> freqs = [] /\ ref = 0) /\
  (forall inf', res = Ok inf' ->
     i_freqs inf' = freqs /\ i_widths inf' = widths /\
     i_resol inf' = (match resol with [] => widths | _ => resol end) /\
     i_effbw inf' = (match effbw with [] => widths | _ => effbw end) /\
     i_nchan inf' = length freqs /\ i_totbw inf' = qsum (i_effbw inf') /\
     (ref <> 0 -> i_reffreq inf' = ref) /\
     (ref = 0 -> forall m, (length freqs = S (2 * m)%nat -> i_reffreq inf' = nth m freqs 0) /\
                           (length freqs = (2 * S m)%nat -> i_reffreq inf' * (1 + 1) = nth m freqs 0 + nth (S m) freqs 0)) /\
     (ref = 0 -> regular freqs -> i_reffreq inf' * qn (length freqs) = qsum freqs)).
Proof. exact set_channels_spec. Qed.
Print Assumptions C52_set_channels.

Example C52_example :
  match set_channels ex13_info [Q2Qc 10; Q2Qc 20; Q2Qc 30; Q2Qc 40] (repeat (Q2Qc 10) 4) [] (repeat (Q2Qc 8) 4) 0 with
  | Ok i => (i_nchan i, this (i_totbw i), this (i_reffreq i), map this (i_resol i)) = (4%nat, 32%Q, 25%Q, [10%Q; 10%Q; 10%Q; 10%Q])
  | _ => False
  end.
Proof. vm_compute. reflexivity. Qed.

(** Without channels and without a reference frequency it reads outside the vector. *)
Theorem C52_no_channels_refuted : exists inf, set_channels inf [] [] [] [] 0 = Undefined.
Proof. exists ex13_info. vm_compute. reflexivity. Qed.
Print Assumptions C52_no_channels_refuted.
