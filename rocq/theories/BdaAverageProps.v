(** Properties C07, C08, C09 and C47: baseline dependent averaging. *)
From Coq Require Import QArith Qround Qcanon List Bool Arith Lia.
From Verif Require Import QcUtil BdaAverageModel BdaAverageSpec BdaAverageProofs.
Import ListNotations.
Open Scope Qc_scope.

(** C07: the output channels take consecutive non-empty groups covering the input
    channels, exactly when there are at most as many output as input channels;
    group sizes differ by at most one, and the widths add up. *)
Theorem C07_channel_groups : forall nin nout, (0 < nout)%nat ->
  (channel_groups (chan_index nin nout) nin nout <-> (nout <= nin)%nat) /\
  (forall o, (nin / nout <= chan_index nin nout (S o) - chan_index nin nout o <= nin / nout + 1)%nat) /\
  (forall i, nth_error (chan_indices nin nout) i =
             if (i <=? nout)%nat then Some (chan_index nin nout i) else None) /\
  (forall widths, qsum (map (out_width widths nin nout) (seq 0 nout)) = qsum (map widths (seq 0 nin))).
Proof.
  intros nin nout H. split; [split; [now apply chan_groups_only_if|intros; apply chan_groups; lia]|].
  split; [intros; now apply chan_index_step|].
  split; [|intros; now apply widths_conserved].
  intros i. unfold chan_indices. destruct (Nat.leb_spec i nout).
  - rewrite nth_error_map, (nth_error_nth' _ 0%nat) by (rewrite seq_length; lia).
    rewrite seq_nth by lia. reflexivity.
  - apply nth_error_None. rewrite map_length, seq_length. lia.
Qed.
Print Assumptions C07_channel_groups.

Example C07_example : chan_indices 8 3 = [0; 2; 5; 8]%nat.
Proof. reflexivity. Qed.

(** C47: averaging factors respect the limits given by the user, and are the largest (smallest number of
    channels) that do. *)
Theorem C47_time_factor_limits : forall thr max_interval dt len f, 0 < dt ->
  time_factor thr max_interval dt len = Some f ->
  (1 <= f)%nat /\
  ((1 < f)%nat -> qn f * (if qltb len (Q2Qc (1 # 10)) then Q2Qc (1 # 10) else len) <= thr) /\
  (0 < max_interval -> dt <= max_interval -> qn f * dt <= max_interval) /\
  (forall g, qn g * (if qltb len (Q2Qc (1 # 10)) then Q2Qc (1 # 10) else len) <= thr ->
             (0 < max_interval -> qn g * dt <= max_interval) -> (g <= f)%nat).
Proof.
  intros thr mi dt len f Hdt E. destruct (time_factor_spec thr mi dt len f Hdt E) as (A & B & C). repeat (split; [assumption|]).
  intros g. exact (time_factor_max thr mi dt len f g Hdt E).
Qed.
Print Assumptions C47_time_factor_limits.

Theorem C47_out_channels_limits : forall thr len nchan minch, 0 < len ->
  (0 < nchan)%nat -> (minch <= nchan)%nat ->
  (1 <= out_channels thr len nchan minch <= nchan)%nat /\
  (thr <= 0 -> out_channels thr len nchan minch = nchan) /\
  (0 < thr -> (minch <= out_channels thr len nchan minch)%nat /\
     (forall n, (minch <= n)%nat -> len * qn nchan <= qn n * thr -> (out_channels thr len nchan minch <= n)%nat) /\
     ((out_channels thr len nchan minch < nchan)%nat -> len * qn nchan <= qn (out_channels thr len nchan minch) * thr)).
Proof.
  intros thr len nchan minch H1 H2 H3. destruct (out_channels_spec thr len nchan minch H1 H2 H3) as [A B].
  destruct (out_channels_min thr len nchan minch H1 H2 H3) as [C D]. split; [exact A|]. split; [exact C|]. intros Ht. split; [now apply B|now apply D].
Qed.
Print Assumptions C47_out_channels_limits.

Example C47_example :
  time_factor (Q2Qc 1000) (Q2Qc 12) (Q2Qc 4) (Q2Qc 100) = Some 3%nat /\
  time_factor (Q2Qc 1000) 0 (Q2Qc 4) (Q2Qc 100) = Some 10%nat /\
  out_channels (Q2Qc 1000) (Q2Qc 100) 64 4 = 7%nat.
Proof. repeat split. Qed.

(** A minimum above the number of input channels gives more output than input
    channels, so by C07 some output channels are empty. *)
Theorem C47_minchannels_refuted : exists thr len nchan minch, 0 < len /\ (0 < nchan)%nat /\
  (nchan < out_channels thr len nchan minch)%nat /\
  ~ channel_groups (chan_index nchan (out_channels thr len nchan minch)) nchan (out_channels thr len nchan minch).
Proof.
  exists (Q2Qc 1000), (Q2Qc 10), 4%nat, 6%nat.
  split; [reflexivity|]. split; [lia|].
  assert (E : out_channels (Q2Qc 1000) (Q2Qc 10) 4 6 = 6%nat) by reflexivity.
  rewrite E. split; [lia|]. intros H. apply chan_groups_only_if in H; lia.
Qed.
Print Assumptions C47_minchannels_refuted.

(** C08: for every regular series of time slots, the rows leaving the step are,
    in order, exactly the averages named by [schedule], numbered 0, 1, 2, ...,
    and no buffer sent is empty.  Premises: there are baselines, correlations
    and output channels, time factors are not 0, the buffer size and all size
    requests can hold one row, and the time interval is not below the tolerance
    used to compare times. *)
Theorem C08_rows_are_averages :
  forall name nbl nin ncorr dt use_wf tf nout pool eps reqs t0 (slots : list (slot name)),
  (forall b, (b < nbl)%nat -> (0 < nout b)%nat) -> (0 < nbl)%nat -> (0 < ncorr)%nat ->
  (forall b, (b < nbl)%nat -> (0 < tf b)%nat) ->
  (forall b, (b < nbl)%nat -> (nout b * ncorr <= pool)%nat) ->
  (forall r b, In r reqs -> (b < nbl)%nat -> (nout b * ncorr <= r)%nat) ->
  eps <= dt -> 0 <= dt -> regular dt t0 slots ->
  exists bufs, run name nbl nin ncorr dt use_wf tf nout pool eps reqs slots = Some bufs /\
    Forall (fun l => l <> []) bufs /\
    map o_rownr (concat bufs) = seq 0 (List.length (schedule nbl tf slots)) /\
    Forall2 (fun r bw => row_is_average nin ncorr dt use_wf nout (fst bw) (snd bw) r)
      (concat bufs) (schedule nbl tf slots).
Proof.
  intros * H1 H2 H3 H4 H5 H6 H7 H8 H9.
  destruct (run_averages nbl nin ncorr dt use_wf tf nout pool eps reqs H1 H2 H3 H4 H5 H6 H7 H8 t0 slots H9)
    as (bufs & A & B & C & D & _). eauto.
Qed.
Print Assumptions C08_rows_are_averages.

(** The windows of the schedule partition the input of every baseline. *)
Theorem C08_windows_partition : forall name nbl tf (slots : list (slot name)) b,
  (forall b, (b < nbl)%nat -> (0 < tf b)%nat) -> (b < nbl)%nat ->
  concat (map snd (filter (fun bw => fst bw =? b)%nat (schedule nbl tf slots))) = slots /\
  (forall w, In (b, w) (schedule nbl tf slots) -> (0 < List.length w <= tf b)%nat).
Proof.
  intros * H Hb. split.
  - apply (schedule_cover nbl 1 tf); auto; lia.
  - intros w. apply (schedule_windows nbl 1 tf); auto; lia.
Qed.
Print Assumptions C08_windows_partition.

(** The total weight of a baseline is conserved. *)
Theorem C08_weight_conserved :
  forall name nbl nin ncorr dt use_wf tf nout pool eps reqs t0 (slots : list (slot name)) b,
  (forall b, (b < nbl)%nat -> (0 < nout b)%nat) -> (0 < nbl)%nat -> (0 < ncorr)%nat ->
  (forall b, (b < nbl)%nat -> (0 < tf b)%nat) ->
  (forall b, (b < nbl)%nat -> (nout b * ncorr <= pool)%nat) ->
  (forall r b, In r reqs -> (b < nbl)%nat -> (nout b * ncorr <= r)%nat) ->
  eps <= dt -> 0 <= dt -> regular dt t0 slots -> (b < nbl)%nat ->
  exists bufs, run name nbl nin ncorr dt use_wf tf nout pool eps reqs slots = Some bufs /\
    qsum (flat_map (fun r => o_weights r) (filter (fun r => o_baseline r =? b)%nat (concat bufs)))
    = baseline_weight nin ncorr use_wf slots b.
Proof.
  intros * H1 H2 H3 H4 H5 H6 H7 H8 H9 H10.
  exact (run_conserves nbl nin ncorr dt use_wf tf nout pool eps reqs H1 H2 H3 H4 H5 H6 H7 H8 t0 slots b H9 H10).
Qed.
Print Assumptions C08_weight_conserved.

(** Without usable samples the averaged visibility is zero. *)
Theorem C08_flagged_sample_zero :
  forall name nin use_wf nout n (win : list (slot name)) b o corr,
  (forall s ch, In s win -> 0 <= eff_weight use_wf s b ch corr) ->
  weight_sum nin use_wf nout win b o corr = 0 -> vis_sum nin use_wf nout n win b o corr = 0.
Proof. intros *. exact (zero_weight_zero_vis 0 nin use_wf nout nout n win b o corr). Qed.
Print Assumptions C08_flagged_sample_zero.

(** A concrete run: two baselines, time factors 2 and 1, three slots. *)
Definition ex_slot (t : Qc) (fl : bool) : slot unit :=
  MkSlot t 1 (fun _ b ch _ => qn (b + ch)) (fun _ _ _ => 1 + 1) (fun b ch _ => fl && (b =? 0)%nat) (fun b i => qn (b + i)).
Definition ex_slots := [ex_slot 1 false; ex_slot (1 + 1) true; ex_slot (1 + 1 + 1) false].
Definition ex_tf (b : nat) := if (b =? 0)%nat then 2%nat else 1%nat.
Definition ex_nout (b : nat) := if (b =? 0)%nat then 1%nat else 2%nat.
Definition ex_run := run unit 2 4 1 1 true ex_tf ex_nout 4 (Q2Qc (1 # 100)) [] ex_slots.

Example C08_example :
  regular 1 1 ex_slots /\
  option_map (fun bufs => map (fun r => (o_baseline r, map this (o_weights r))) (concat bufs)) ex_run =
  Some (map (fun p => (fst p, map inject_Z (snd p)))
     [(1%nat, [4; 4]); (0%nat, [8]); (1%nat, [4; 4]); (1%nat, [4; 4]); (0%nat, [8])]%Z).
Proof.
  split.
  - intros i s. destruct i as [|[|[|i]]]; simpl; intros H; try discriminate.
    + injection H as <-. reflexivity.
    + injection H as <-. reflexivity.
    + injection H as <-. reflexivity.
    + destruct i; discriminate.
  - vm_compute. reflexivity.
Qed.

(** C09: the uvw of a row with some weight is the mean of the uvw of its slots. *)
Theorem C09_uvw_mean_partial :
  forall name nbl nin ncorr dt use_wf tf nout pool eps reqs t0 (slots : list (slot name)),
  (forall b, (b < nbl)%nat -> (0 < nout b)%nat) -> (0 < nbl)%nat -> (0 < ncorr)%nat ->
  (forall b, (b < nbl)%nat -> (0 < tf b)%nat) ->
  (forall b, (b < nbl)%nat -> (nout b * ncorr <= pool)%nat) ->
  (forall r b, In r reqs -> (b < nbl)%nat -> (nout b * ncorr <= r)%nat) ->
  eps <= dt -> 0 <= dt -> regular dt t0 slots ->
  exists bufs, run name nbl nin ncorr dt use_wf tf nout pool eps reqs slots = Some bufs /\
    Forall2 (fun r bw => 0 < baseline_weight nin ncorr use_wf (snd bw) (fst bw) ->
                         uvw_is_mean (fst bw) (snd bw) r)
      (concat bufs) (schedule nbl tf slots).
Proof.
  intros * H1 H2 H3 H4 H5 H6 H7 H8 H9.
  destruct (run_averages nbl nin ncorr dt use_wf tf nout pool eps reqs H1 H2 H3 H4 H5 H6 H7 H8 t0 slots H9)
    as (bufs & A & B & C & D & E). exists bufs. split; [exact A|].
  clear -E. induction E as [|x y l l' H E IH]; constructor; auto. apply H.
Qed.
Print Assumptions C09_uvw_mean_partial.

(** For a fully flagged row the uvw is the sum instead of the mean. *)
Theorem C09_uvw_flagged_refuted :
  exists (slots : list (slot unit)), regular 1 1 slots /\
    forall bufs, run unit 1 1 1 1 true (fun _ => 2%nat) (fun _ => 1%nat) 1 0 [] slots = Some bufs ->
    Exists (fun r => ~ uvw_is_mean 0 slots r) (concat bufs).
Proof.
  exists [ex_slot 1 true; ex_slot (1 + 1) true]. split.
  - intros i s. destruct i as [|[|i]]; simpl; intros H; try discriminate.
    + injection H as <-. reflexivity.
    + injection H as <-. reflexivity.
    + destruct i; discriminate.
  - set (slots := [ex_slot 1 true; ex_slot (1 + 1) true]).
    intros bufs H.
    assert (E : option_map (fun bufs => map (fun r => this (o_uvw r 1%nat)) (concat bufs))
       (run unit 1 1 1 1 true (fun _ => 2%nat) (fun _ => 1%nat) 1 0 [] slots) = Some [2%Q])
      by (vm_compute; reflexivity).
    rewrite H in E. cbn [option_map] in E. injection E as E.
    destruct (concat bufs) as [|r [|r' l]]; try discriminate. constructor. intros Hm.
    specialize (Hm 1%nat). apply (f_equal this) in Hm.
    injection E as E. rewrite E in Hm. vm_compute in Hm. discriminate.
Qed.
Print Assumptions C09_uvw_flagged_refuted.

(** The rows of two baselines finished in the same slot are rejected as out of
    order (exception) when the time interval is below the tolerance (two
    microseconds), so the premise [eps <= dt] is needed. *)
Theorem C08_short_interval_refuted :
  exists (slots : list (slot unit)) dt eps, 0 < dt /\ dt < eps /\ regular dt 1 slots /\
    run unit 2 1 1 dt true (fun _ => 1%nat) (fun _ => 1%nat) 2 eps [] slots = None.
Proof.
  exists [ex_slot 1 false], (Q2Qc (1 # 1000000)), (Q2Qc (2 # 1000000)).
  split; [reflexivity|]. split; [reflexivity|]. split; [|vm_compute; reflexivity].
  intros i s. destruct i as [|i]; simpl; intros H; try discriminate.
  - injection H as <-. reflexivity.
  - destruct i; discriminate.
Qed.
Print Assumptions C08_short_interval_refuted.
