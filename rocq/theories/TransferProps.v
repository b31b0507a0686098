(** Properties of copying visibilities and flags from an averaged measurement set (steps/Transfer.cc, steps/FlagTransfer.cc). *)
From Coq Require Import QArith Qround Qcanon List Bool Arith ZArith Lia Sorted.
From Verif Require Import QcUtil AverageModel InfoModel TransferModel TransferSpec TransferProofs.
Import ListNotations.
Open Scope nat_scope.

(** * C43: every sample is copied from the right time slot, baseline and channel *)

(** Everything that a run needs: the step is configured, the source has time slots of its shape, and the target delivers
    time slots of its shape with row numbers one after the other. *)
Definition usable {D F} (c : config) (nt : nat) (slots : list (grid D * grid F)) (bufs : list (buf D F)) : Prop :=
  (0 < factor c < 2 ^ 64)%Z /\ 0 < nt /\ StronglySorted lt (selected c) /\ Forall (fun r => r < nt) (selected c) /\
  length (baselines (selected c) nt) = source_rows c /\
  length (target_freqs c) = chans c /\ length (source_edges c) = source_chans c /\ ascending (target_freqs c) /\
  slots <> [] /\
  Forall (fun s => rectangle (source_rows c) (source_chans c) (fst s) /\ rectangle (source_rows c) (source_chans c) (snd s)) slots /\
  Forall (fun b => rectangle nt (chans c) (b_data b) /\ rectangle nt (chans c) (b_flags b) /\ consecutive nt (b_rows b)) bufs.

Theorem C43_transfer : forall D F (no_data : D) (no_flag : F) beyond c nt slots uninitialised bufs,
  usable c nt slots bufs ->
  exists outs, run no_data no_flag beyond c (start slots uninitialised) bufs = Ok outs /\ length outs = length bufs /\
    forall k b, nth_error bufs k = Some b -> exists b' s,
      nth_error outs k = Some b' /\
      nth_error slots (slot_of k (Z.to_nat (factor c)) (length slots)) = Some s /\
      b_rows b' = b_rows b /\
      (if with_data c then transferred (chans c) (source_chans c) (target_freqs c) (source_edges c) (baselines (selected c) nt) (fst s) (b_data b) (b_data b')
       else b_data b' = b_data b) /\
      (if with_flags c then transferred (chans c) (source_chans c) (target_freqs c) (source_edges c) (baselines (selected c) nt) (snd s) (b_flags b) (b_flags b')
       else b_flags b' = b_flags b).
Proof.
  intros D F no_data no_flag beyond c nt slots un bufs (H1 & H2 & H3 & H4 & H5 & H6 & H7 & H8 & H9 & H10 & H11).
  assert (Hn : 0 < length slots) by (destruct slots; [congruence|cbn; lia]).
  destruct (run_ok D F no_data no_flag beyond c nt slots H1 H2 H3 H4 H5 H6 H7 H8 H10 Hn bufs H11 0 0 (start slots un))
    as (outs & O1 & O2 & O3).
  { lia. } { left. cbn. auto. }
  exists outs. split; auto. split; auto. intros k b Hk. destruct (O3 k b Hk) as (b' & E1 & (E2 & E3 & E4)).
  cbn [Nat.mul Nat.add] in *. exists b', (nth (slot_of k (Z.to_nat (factor c)) (length slots)) slots ([], [])).
  repeat split; auto. apply nth_error_nth'. unfold slot_of. lia.
Qed.
Print Assumptions C43_transfer.

(** The channel that is chosen is the one that contains the frequency, if the channels of the source do not overlap. *)
Theorem C43_frequency : forall freqs widths tfreqs c b,
  length widths = length freqs -> b < length freqs ->
  (forall b1 b2, b1 < b2 < length freqs -> (nth b1 freqs 0 + half * nth b1 widths 0 <= nth b2 freqs 0 - half * nth b2 widths 0)%Qc) ->
  contains freqs widths b (nth c tfreqs 0%Qc) ->
  ends_above tfreqs (upper_edges freqs widths) c b.
Proof.
  intros freqs widths tfreqs c b Hw Hb Hno [C1 C2].
  assert (E : forall i, i < length freqs -> nth i (upper_edges freqs widths) 0%Qc = (nth i freqs 0 + half * nth i widths 0)%Qc).
  { intros i Hi. unfold upper_edges. rewrite (nth_indep _ 0%Qc (nth 0 freqs 0 + half * nth 0 widths 0)%Qc) by (rewrite map_length, seq_length; lia).
    rewrite (map_nth (fun i => nth i freqs 0 + half * nth i widths 0)%Qc). now rewrite seq_nth by lia. }
  unfold ends_above. split; [unfold upper_edges; rewrite map_length, seq_length; auto|]. split.
  - rewrite E by auto. exact C2.
  - intros b' Hb'. rewrite E by lia. eapply Qcle_trans; [apply (Hno b' b); lia|]. exact C1.
Qed.
Print Assumptions C43_frequency.

(** A source with another number of baselines than selected is refused. *)
Theorem C43_refused : forall D F (no_data : D) (no_flag : F) beyond c nt st b,
  Forall (fun r => r < nt) (selected c) -> 0 < nt -> consecutive nt (b_rows b) ->
  length (baselines (selected c) nt) <> source_rows c ->
  process no_data no_flag beyond c st b = Throw.
Proof.
  intros D F no_data no_flag beyond c nt st b Hr Hn Hc Hl. unfold process. destruct (current (advance c st)) as [sd sf].
  pose proof (target_rows_ok c nt (b_rows b) Hr Hc Hn) as E.
  assert (Hne : b_rows b <> []). { destruct Hc as (r0 & _ & ->). destruct nt; [lia|discriminate]. }
  destruct (b_rows b) as [|z zs]; [contradiction|]. rewrite E, map_length.
  destruct (_ || _); auto. apply Nat.eqb_neq in Hl. now rewrite Hl.
Qed.
Print Assumptions C43_refused.

(** The factor is a whole number that fits the intervals. *)
Theorem C43_factor : forall si ti ss ts n, (0 < ti)%Qc -> time_factor si ti ss ts = Ok n ->
  let tolerance := Q2Qc (1 # 100000) in
  (Q2Qc (inject_Z n) * ti - tolerance * ti <= si)%Qc /\ (si <= Q2Qc (inject_Z n) * ti + tolerance * ti)%Qc /\
  (ss - tolerance <= ts)%Qc /\ (ts <= ss + tolerance)%Qc.
Proof.
  intros si ti ss ts n Hti H tol. unfold time_factor in H. fold tol in H.
  destruct (qltb_spec tol (si / ti - Q2Qc (inject_Z (round_up (si / ti))))%Qc) as [|G1]; [discriminate|].
  destruct (qltb_spec (si / ti - Q2Qc (inject_Z (round_up (si / ti))))%Qc (- tol)%Qc) as [|G2]; [discriminate|]. cbn [orb] in H.
  destruct (qltb_spec tol (ts - ss)%Qc) as [|G3]; [discriminate|].
  destruct (qltb_spec (ts - ss)%Qc (- tol)%Qc) as [|G4]; [discriminate|]. cbn [orb] in H.
  injection H as <-. apply Qcnot_lt_le in G1, G2, G3, G4.
  set (N := Q2Qc (inject_Z (round_up (si / ti)))) in *.
  assert (E : (si = si / ti * ti)%Qc). { field. intros ->. now apply Qclt_not_eq in Hti. }
  assert (L : forall x y, (x <= y)%Qc -> (x * ti <= y * ti)%Qc) by (intros; apply Qcmult_le_compat_r; auto using Qclt_le_weak).
  apply L in G1, G2. clearbody N. set (q := (si / ti)%Qc) in *. clearbody q. subst si.
  replace ((q - N) * ti)%Qc with (q * ti - N * ti)%Qc in * by ring. replace (- tol * ti)%Qc with (- (tol * ti))%Qc in * by ring.
  generalize dependent (q * ti)%Qc. generalize dependent (N * ti)%Qc. generalize dependent (tol * ti)%Qc. intros.
  repeat split; qclra.
Qed.
Print Assumptions C43_factor.

(** The case: two baselines of three, two channels of four, every two time slots. *)
Definition q (z : Z) : Qc := Q2Qc (inject_Z z).
Definition case_config : config :=
  MkConfig true true [0; 2] 4 2 2 [q 1; q 2; q 3; q 4] (upper_edges [Q2Qc (3 # 2); Q2Qc (7 # 2)] [q 2; q 2]) 2.
Definition case_slots : list (grid nat * grid nat) := [([[10; 11]; [12; 13]], [[1; 0]; [0; 1]]); ([[20; 21]; [22; 23]], [[0; 0]; [1; 1]])].
Definition case_buf (r : Z) : buf nat nat := MkBuf (repeat [1; 2; 3; 4] 3) (repeat [0; 0; 0; 0] 3) [r; r + 1; r + 2]%Z.

Example C43_case_usable : usable case_config 3 case_slots (map case_buf [0; 3; 6; 9; 12]%Z).
Proof.
  unfold usable. cbn [factor case_config]. split; [lia|]. split; [lia|].
  split; [repeat constructor|]. split; [repeat constructor|]. repeat (split; [reflexivity|]).
  split; [|split; [discriminate|split]].
  - intros i j Hij. cbn [length target_freqs case_config] in Hij.
    assert (J : (i = 0 \/ i = 1 \/ i = 2) /\ (j = 1 \/ j = 2 \/ j = 3)) by lia.
    apply qleb_true. destruct J as [[ -> |[ -> | -> ]] [ -> |[ -> | -> ]]]; (lia || vm_compute; reflexivity).
  - repeat constructor.
  - assert (G : forall r, (0 <= r < 100)%Z -> consecutive 3 (b_rows (case_buf r))).
    { intros r Hr. exists r. split; [lia|]. cbn [case_buf b_rows map seq]. rewrite Z.add_0_r. reflexivity. }
    cbn [map]. repeat constructor; apply G; lia.
Qed.
Example C43_case_run : run 0 0 0%Qc case_config (start case_slots ([], [])) (map case_buf [0; 3; 6; 9; 12]%Z) =
  Ok [MkBuf [[10; 10; 11; 11]; [1; 2; 3; 4]; [12; 12; 13; 13]] [[1; 1; 0; 0]; [0; 0; 0; 0]; [0; 0; 1; 1]] [0; 1; 2]%Z;
      MkBuf [[10; 10; 11; 11]; [1; 2; 3; 4]; [12; 12; 13; 13]] [[1; 1; 0; 0]; [0; 0; 0; 0]; [0; 0; 1; 1]] [3; 4; 5]%Z;
      MkBuf [[20; 20; 21; 21]; [1; 2; 3; 4]; [22; 22; 23; 23]] [[0; 0; 0; 0]; [0; 0; 0; 0]; [1; 1; 1; 1]] [6; 7; 8]%Z;
      MkBuf [[20; 20; 21; 21]; [1; 2; 3; 4]; [22; 22; 23; 23]] [[0; 0; 0; 0]; [0; 0; 0; 0]; [1; 1; 1; 1]] [9; 10; 11]%Z;
      MkBuf [[20; 20; 21; 21]; [1; 2; 3; 4]; [22; 22; 23; 23]] [[0; 0; 0; 0]; [0; 0; 0; 0]; [1; 1; 1; 1]] [12; 13; 14]%Z].
Proof. vm_compute. reflexivity. Qed.
Example C43_case_contains : contains [Q2Qc (3 # 2); Q2Qc (7 # 2)] [q 2; q 2] 1 (q 3).
Proof. split; vm_compute; intuition discriminate. Qed.
Example C43_case_factor : time_factor (q 8) (q 2) (q 100) (q 100) = Ok 4%Z.
Proof. vm_compute. reflexivity. Qed.
Example C43_case_not_whole : time_factor (q 7) (q 2) (q 100) (q 100) = Throw.
Proof. vm_compute. reflexivity. Qed.
Example C43_case_refused : process 0 0 0%Qc (MkConfig true true [0; 2] 4 2 3 [] [] 2) (start case_slots ([], [])) (case_buf 0) = Throw.
Proof. vm_compute. reflexivity. Qed.

(** * C57: what goes wrong outside of those conditions *)

(** The frequency behind the last one is read exactly if the last channel of the target is below the end of a channel of the
    source, which is so for every source that covers the band of the target. *)
Theorem C57_reads_behind_iff : forall A (none : A) beyond freqs edges n nsource nt rows source target,
  Forall (fun r => r < nt) rows -> NoDup rows -> length rows = length source ->
  rectangle (length source) nsource source -> rectangle nt n target ->
  length freqs = n -> length edges = nsource -> ascending freqs -> n <> nsource -> 0 < n -> 0 < nsource ->
  bad_read (transfer_slot none freqs edges beyond n nsource (map Z.of_nat rows) source target) = true <->
  exists b, b < nsource /\ (nth (n - 1) freqs 0 < nth b edges 0)%Qc.
Proof. intros. eapply bad_read_iff; eauto. Qed.
Print Assumptions C57_reads_behind_iff.

Theorem C57_reads_behind_refuted : exists freqs edges (source target : grid nat),
  ascending freqs /\ ascending edges /\
  bad_read (transfer_slot 0 freqs edges 0%Qc 4 2 [0%Z; 2%Z] source target) = true.
Proof.
  exists (target_freqs case_config), (source_edges case_config), [[10; 11]; [12; 13]], (repeat [1; 2; 3; 4] 3).
  split; [apply C43_case_usable|]. split; [|vm_compute; reflexivity].
  intros i j Hij. cbn in Hij. assert (i = 0 /\ j = 1) as [-> ->] by lia. apply qleb_true. vm_compute. reflexivity.
Qed.
Print Assumptions C57_reads_behind_refuted.

(** Row numbers with gaps, as when the reader selects baselines: the step writes outside of the array of the target. *)
Theorem C57_writes_outside_refuted : exists (c : config) (rows : list Z),
  StronglySorted Z.lt rows /\ length rows = 2 /\ selected c = [] /\ source_rows c = 2 /\
  process 0 0 0%Qc c (start case_slots ([], [])) (MkBuf (repeat [1; 2; 3; 4] 2) (repeat [0; 0; 0; 0] 2) rows) = Undefined.
Proof.
  exists (MkConfig true true [] 4 2 2 (target_freqs case_config) (source_edges case_config) 2), [0; 2]%Z.
  split; [repeat constructor|]. repeat split. 
Qed.
Print Assumptions C57_writes_outside_refuted.

(** A channel of the target below all channels of the source is overwritten all the same. *)
Theorem C57_below_the_band_refuted : exists freqs widths tfreqs (source target : grid nat),
  ascending tfreqs /\ (forall b, b < 2 -> ~ contains freqs widths b (nth 0 tfreqs 0%Qc)) /\
  at_cell (cells (transfer_slot 0 tfreqs (upper_edges freqs widths) 0%Qc 3 2 [0%Z] source target)) 0 0 <> at_cell target 0 0.
Proof.
  exists [q 11; q 13], [q 2; q 2], [q 1; q 11; q 13], [[5; 6]], [[0; 0; 0]]. split; [|split].
  - intros i j Hij. cbn [length] in Hij. assert (J : (i = 0 /\ j = 1) \/ (i = 0 /\ j = 2) \/ (i = 1 /\ j = 2)) by lia.
    apply qleb_true. destruct J as [[-> ->]|[[-> ->]|[-> ->]]]; vm_compute; reflexivity.
  - intros b Hb [C _]. assert (J : b = 0 \/ b = 1) by lia. destruct J as [-> | ->]; vm_compute in C; congruence.
  - vm_compute. discriminate.
Qed.
Print Assumptions C57_below_the_band_refuted.

(** Frequencies in descending order: a channel is copied that does not contain the frequency, though another one does. *)
Theorem C57_descending_refuted : exists freqs widths tfreqs (source target : grid nat) v,
  contains freqs widths 1 (nth 2 tfreqs 0%Qc) /\ ~ contains freqs widths 0 (nth 2 tfreqs 0%Qc) /\
  at_cell source 0 0 = Some v /\ at_cell source 0 1 <> Some v /\
  at_cell (cells (transfer_slot 0 tfreqs (upper_edges freqs widths) 0%Qc 4 2 [0%Z] source target)) 0 2 = Some v.
Proof.
  exists [Q2Qc (7 # 2); Q2Qc (3 # 2)], [q 2; q 2], [q 4; q 3; q 2; q 1], [[5; 6]], [[0; 0; 0; 0]], 5. split; [|split; [|split; [|split]]].
  - split; vm_compute; congruence.
  - intros [C _]. vm_compute in C. congruence.
  - reflexivity.
  - discriminate.
  - vm_compute. reflexivity.
Qed.
Print Assumptions C57_descending_refuted.

(** A source with much shorter intervals is accepted with factor zero; the counter then wraps around and all time slots of
    the target get the first one of the source. *)
Theorem C57_factor_zero_refuted : exists si ti, (0 < si)%Qc /\ time_factor si ti 0 0 = Ok 0%Z /\
  exists (c : config) (bufs outs : list (buf nat nat)) b, factor c = 0%Z /\
    run 0 0 0%Qc c (start case_slots ([], [])) bufs = Ok outs /\ nth_error outs 1 = Some b /\ at_cell (b_data b) 0 0 = Some 10 /\
    at_cell (fst (nth 1 case_slots ([], []))) 0 0 = Some 20.
Proof.
  exists (Q2Qc (1 # 1000000)), (q 1). split; [reflexivity|]. split; [vm_compute; reflexivity|].
  eexists (MkConfig true true [0; 2] 4 2 2 (target_freqs case_config) (source_edges case_config) 0), (map case_buf [0; 3]%Z), _, _.
  split; [reflexivity|]. split; [vm_compute; reflexivity|]. split; [reflexivity|]. split; vm_compute; reflexivity.
Qed.
Print Assumptions C57_factor_zero_refuted.
