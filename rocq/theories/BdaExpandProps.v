(** Property C10: expanding baseline dependent averaged data. *)
From Coq Require Import QArith Qround Qcanon List Bool Arith ZArith Lia.
From Verif Require Import QcUtil BdaAverageModel BdaAverageSpec BdaAverageProofs
  BdaExpandModel BdaExpandSpec BdaExpandProofs.
Import ListNotations.
Open Scope Qc_scope.

(** For rows arriving in any order and in any division over buffers: the slots
    written are 0, 1, 2, ... in order, each once, each with data for each
    baseline from a row covering it, and writing stops exactly at the first slot
    for which a baseline has no data. *)
Theorem C10_slots_ordered_complete : forall V U nbl nchan dt t0 mapping, 0 < dt -> (0 < nbl)%nat ->
  (forall b, (b < nbl)%nat -> length (mapping b) = nchan) ->
  forall batches : list (list (row V U)),
  (forall r, In r (concat batches) -> valid_row nbl dt t0 r) ->
  expanded nbl nchan dt t0 mapping (concat batches) (run nbl dt t0 mapping batches).
Proof. intros V U nbl nchan dt t0 mapping H1 H2 H3 batches H4. now apply run_expanded. Qed.
Print Assumptions C10_slots_ordered_complete.

(** Slot [k] carries the time of the middle of the [k]-th interval. *)
Theorem C10_slot_times : forall V U nbl dt t0 mapping, 0 < dt -> (0 < nbl)%nat ->
  forall (batches : list (list (row V U))) k e,
  (forall r, In r (concat batches) -> valid_row nbl dt t0 r /\ exact_row dt t0 r) ->
  nth_error (run nbl dt t0 mapping batches) k = Some e -> e_time e = slot_centre dt t0 k.
Proof. intros V U nbl dt t0 mapping H1 H2. now apply run_times. Qed.
Print Assumptions C10_slot_times.

(** The weights of the samples made from one averaged sample add up to its
    weight, when no two rows of a baseline overlap. *)
Theorem C10_weights_conserved : forall V U nbl nchan dt t0 mapping, 0 < dt -> (0 < nbl)%nat ->
  (forall b, (b < nbl)%nat -> length (mapping b) = nchan) ->
  forall (batches : list (list (row V U))) r s f i corr,
  (forall r, In r (concat batches) -> valid_row nbl dt t0 r) ->
  (forall r1 r2 k, In r1 (concat batches) -> In r2 (concat batches) -> r_bl r1 = r_bl r2 ->
     covers dt t0 r1 k -> covers dt t0 r2 k -> r1 = r2) ->
  In r (concat batches) -> spans dt t0 r s f ->
  (s + f <= Z.of_nat (length (run nbl dt t0 mapping batches)))%Z ->
  In i (mapping (r_bl r)) ->
  qsum (map (fun k => match nth_error (run nbl dt t0 mapping batches) k with
                      | Some e => match e_bl e (r_bl r) with
                                  | Some c => qsum (map (fun ch => c_weight c ch corr)
                                                        (filter (fun ch => (nth ch (mapping (r_bl r)) 0 =? i)%nat) (seq 0 nchan)))
                                  | None => 0
                                  end
                      | None => 0
                      end) (seq (Z.to_nat s) (Z.to_nat f))) = r_weight r i corr.
Proof. intros V U nbl nchan dt t0 mapping H1 H2 H3. now apply weights_conserved. Qed.
Print Assumptions C10_weights_conserved.

Lemma firstn_seq' j : forall a n, (j <= n)%nat -> firstn j (seq a n) = seq a j.
Proof.
  induction j as [|j IH]; intros a n H; auto. destruct n; [lia|]. simpl. rewrite IH; auto. lia.
Qed.

(** Channels: when [nin] channels of equal width [w] were averaged to [nout]
    channels by the averager, the expander sends each regular channel to the
    averaged channel it took part in. *)
Theorem C10_channels_restored : forall nin nout w, (0 < nout <= nin)%nat -> 0 < w ->
  let widths := map (out_width (fun _ => w) nin nout) (seq 0 nout) in
  let m := channel_mapping (single_bw widths nin) widths in
  length m = nin /\
  forall o ch, (o < nout)%nat -> In ch (in_channels nin nout o) -> nth ch m 0%nat = o.
Proof.
  intros nin nout w H Hw widths m.
  set (ms := map (fun o => chan_index nin nout (S o) - chan_index nin nout o)%nat (seq 0 nout)).
  assert (EW : widths = map (fun k => qn k * w) ms).
  { unfold widths, ms. rewrite map_map. apply map_ext. intros o. unfold out_width.
    rewrite qsum_fold_left, qsum_const, seq_length. ring. }
  assert (EB : single_bw widths nin = w).
  { unfold single_bw, widths. rewrite widths_conserved by lia. rewrite qsum_const, seq_length.
    field. apply qn_neq0. lia. }
  assert (pre : forall j, (j <= nout)%nat -> fold_right Nat.add 0%nat (firstn j ms) = chan_index nin nout j).
  { assert (gen : forall n a, fold_right Nat.add 0%nat
               (map (fun o => chan_index nin nout (S o) - chan_index nin nout o)%nat (seq a n))
               = (chan_index nin nout (a + n) - chan_index nin nout a)%nat).
    { induction n as [|n IHn]; intros a; cbn [seq map fold_right].
      - rewrite Nat.add_0_r. lia.
      - rewrite IHn. replace (S a + n)%nat with (a + S n)%nat by lia.
        pose proof (chan_index_mono nin nout a (S a) ltac:(lia) ltac:(lia)).
        pose proof (chan_index_mono nin nout (S a) (a + S n) ltac:(lia) ltac:(lia)). lia. }
    intros j Hj. unfold ms. rewrite firstn_map, firstn_seq' by lia. rewrite gen.
    rewrite chan_index_0. simpl. lia. }
  unfold m, channel_mapping. rewrite EB, EW.
  destruct (mapping_from_nth w ms Hw 0) as [L N]. split.
  - rewrite L. replace ms with (firstn nout ms).
    + rewrite pre by lia. apply chan_index_end. lia.
    + apply firstn_all2. unfold ms. now rewrite map_length, seq_length.
  - intros o ch Ho Hch. unfold in_channels in Hch. apply filter_In in Hch. destruct Hch as [_ Hch].
    apply andb_true_iff in Hch. destruct Hch as [A B]. apply Nat.leb_le in A. apply Nat.ltb_lt in B.
    apply (N o); [unfold ms; now rewrite map_length, seq_length|].
    rewrite !pre by lia. unfold chan_index. split; auto.
Qed.
Print Assumptions C10_channels_restored.

(** The same when the widths are only known up to half a channel, as they are in
    floating point: averaged channel [j] gets as many regular channels as its
    width is nearest to. *)
Theorem C10_channels_rounded : forall bw ws ms, 0 < bw ->
  Forall2 (fun w m => (qn m - Q2Qc (1 # 2)) * bw <= w /\ w < (qn m + Q2Qc (1 # 2)) * bw) ws ms ->
  length (channel_mapping bw ws) = fold_right Nat.add 0%nat ms /\
  forall j, (j < length ms)%nat -> forall ch,
    (fold_right Nat.add 0 (firstn j ms) <= ch < fold_right Nat.add 0 (firstn (S j) ms))%nat ->
    nth ch (channel_mapping bw ws) 0%nat = j.
Proof.
  intros bw ws ms Hb H. unfold channel_mapping. rewrite (mapping_from_near bw ws ms Hb H). apply (mapping_from_nth bw ms Hb 0).
Qed.
Print Assumptions C10_channels_rounded.

Example C10_example_rounded : channel_mapping (Q2Qc 5) [Q2Qc (99 # 10); Q2Qc (51 # 10); Q2Qc (149 # 10)] = [0; 0; 1; 2; 2; 2]%nat.
Proof. vm_compute. reflexivity. Qed.

Example C10_example_channels :
  let widths := map (out_width (fun _ => Q2Qc 5) 8 3) (seq 0 3) in
  channel_mapping (single_bw widths 8) widths = [0; 0; 1; 1; 1; 2; 2; 2]%nat.
Proof. vm_compute. reflexivity. Qed.

(** Two baselines, interval 2, start 10: baseline 0 has slots of one interval,
    baseline 1 one row of two intervals; rows in an arbitrary order. *)
Definition ex_mk (time interval : Qc) (b : nat) (w : Qc) : row nat nat :=
  MkRow time interval interval b b (fun _ _ => b) (fun _ _ => w) (fun _ _ => false).
Definition ex_r0 := ex_mk (Q2Qc 11) (Q2Qc 2) 0 (Q2Qc 6).
Definition ex_r1 := ex_mk (Q2Qc 13) (Q2Qc 2) 0 (Q2Qc 6).
Definition ex_r2 := ex_mk (Q2Qc 12) (Q2Qc 4) 1 (Q2Qc 8).
Definition ex_r3 := ex_mk (Q2Qc 17) (Q2Qc 2) 0 (Q2Qc 6).
Definition ex_r4 := ex_mk (Q2Qc 17) (Q2Qc 2) 1 (Q2Qc 6).
Definition ex_r5 := ex_mk (Q2Qc 15) (Q2Qc 2) 0 (Q2Qc 6).
Definition ex_mapping (b : nat) : list nat := match b with 0%nat => [0; 1]%nat | _ => [0; 0]%nat end.
Definition ex_show (e : elem nat nat) :=
  (this (e_time e), map (fun b => match e_bl e b with
                                    | Some c => this (c_weight c 1 0)
                                    | None => (-1)%Q
                                    end) [0; 1]%nat).

Lemma ex_valid : forall r, In r [ex_r0; ex_r1; ex_r2; ex_r3; ex_r4; ex_r5] ->
  valid_row 2 (Q2Qc 2) (Q2Qc 10) r.
Proof.
  intros r H.
  assert (G : forall r s f, (r_bl r < 2)%nat -> (0 <= s)%Z -> (1 <= f)%Z -> (s + f < 2 ^ 31)%Z ->
    qleb ((qz s - Q2Qc (1 # 2)) * Q2Qc 2) (r_time r - r_interval r / (1 + 1) - Q2Qc 10)
    && qltb (r_time r - r_interval r / (1 + 1) - Q2Qc 10) ((qz s + Q2Qc (1 # 2)) * Q2Qc 2)
    && qleb ((qz f - Q2Qc (1 # 2)) * Q2Qc 2) (r_interval r)
    && qltb (r_interval r) ((qz f + Q2Qc (1 # 2)) * Q2Qc 2) = true ->
    valid_row (U:=nat) (V:=nat) 2 (Q2Qc 2) (Q2Qc 10) r).
  { intros x s f A B C D E. apply andb_true_iff in E. destruct E as [E E4].
    apply andb_true_iff in E. destruct E as [E E3]. apply andb_true_iff in E. destruct E as [E1 E2].
    apply qleb_true in E1, E3. apply qltb_true in E2, E4.
    split; auto. exists s, f. repeat split; auto. }
  destruct H as [<-|[<-|[<-|[<-|[<-|[<-|[]]]]]]];
    [apply (G ex_r0 0 1)%Z|apply (G ex_r1 1 1)%Z|apply (G ex_r2 0 2)%Z|apply (G ex_r3 3 1)%Z
     |apply (G ex_r4 3 1)%Z|apply (G ex_r5 2 1)%Z];
    try (vm_compute; reflexivity); try lia; unfold ex_r0, ex_r1, ex_r2, ex_r3, ex_r4, ex_r5; simpl; lia.
Qed.

Example C10_example :
  map ex_show (run 2 (Q2Qc 2) (Q2Qc 10) ex_mapping [[ex_r1]; [ex_r2; ex_r0]])
  = [(11%Q, [6%Q; 2%Q]); (13%Q, [6%Q; 2%Q])].
Proof. vm_compute. reflexivity. Qed.

(** One missing row blocks the output for good: here slot 3 is complete (rows r3
    and r4) but never written, since baseline 1 has no data for slot 2. *)
Theorem C10_gap_drops_rest_refuted : exists nbl nchan dt t0 mapping (batches : list (list (row nat nat))) k,
  0 < dt /\ (0 < nbl)%nat /\ (forall b, (b < nbl)%nat -> length (mapping b) = nchan) /\
  (forall r, In r (concat batches) -> valid_row nbl dt t0 r) /\
  (forall b, (b < nbl)%nat -> has dt t0 (concat batches) b (Z.of_nat k)) /\
  nth_error (run nbl dt t0 mapping batches) k = None.
Proof.
  exists 2%nat, 2%nat, (Q2Qc 2), (Q2Qc 10), ex_mapping, [[ex_r0; ex_r1]; [ex_r2; ex_r5]; [ex_r3; ex_r4]], 3%nat.
  split; [reflexivity|]. split; [lia|].
  split. { intros [|[|b]] H; auto; lia. }
  split. { intros r H. apply ex_valid. simpl in *. tauto. }
  split.
  2: { vm_compute. reflexivity. }
  intros b Hb.
  assert (C : forall r, r = ex_r3 \/ r = ex_r4 -> covers (Q2Qc 2) (Q2Qc 10) r (Z.of_nat 3)).
  { intros r H. exists 3%Z, 1%Z. split; [|lia].
    destruct H as [-> | ->]; split; split; try (now apply qleb_true; vm_compute); try (now apply qltb_true; vm_compute). }
  destruct b as [|[|b]]; [exists ex_r3|exists ex_r4|lia]; (split; [simpl; tauto|]); split; auto.
Qed.
Print Assumptions C10_gap_drops_rest_refuted.
