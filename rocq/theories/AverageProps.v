(** Properties C11 and C12: averaging in time and frequency. *)
From Coq Require Import QArith Qround Qcanon List Bool Arith Lia.
From Verif Require Import QcUtil AverageModel AverageSpec AverageProofs.
Import ListNotations.
Open Scope Qc_scope.

(** C11: the output slots are the averages of consecutive blocks of [tavg] input
    slots (the last block may be shorter). *)
Theorem C11_blocks_averaged : forall nchan cavg tavg int_in int_out minpts minperc slots,
  (0 < cavg)%nat -> (0 < tavg)%nat -> exists blocks,
  divides_into tavg slots blocks /\
  Forall2 (is_average nchan cavg int_in int_out minpts minperc) blocks
          (run nchan cavg tavg int_in int_out minpts minperc false slots).
Proof. intros. now apply run_spec. Qed.
Print Assumptions C11_blocks_averaged.

Theorem C11_slot_count : forall nchan cavg tavg int_in int_out minpts minperc slots,
  (0 < cavg)%nat -> (0 < tavg)%nat ->
  length (run nchan cavg tavg int_in int_out minpts minperc false slots) = ((length slots + tavg - 1) / tavg)%nat.
Proof.
  intros. destruct (run_spec nchan cavg tavg int_in int_out minpts minperc ltac:(auto) ltac:(auto) slots) as (bl & D & R).
  apply Forall2_length' in R. rewrite <- R. now apply divides_into_count.
Qed.
Print Assumptions C11_slot_count.

(** Three slots, three channels, blocks of two: second channel of the first slot
    is flagged. *)
Definition ex_slot (t : Z) : tslot :=
  MkTslot (Q2Qc (inject_Z t)) 1 (fun _ c _ => Q2Qc (inject_Z t) + qn c) (fun _ c _ => qn (c + 1))
          (fun _ c _ => ((t =? 10)%Z && (c =? 1)%nat)) (fun _ _ => Q2Qc (inject_Z t)).
Definition ex_show (s : tslot) :=
  (this (t_time s), map (fun c => (this (t_vis s 0 c 0), this (t_weight s 0 c 0), t_flag s 0 c 0)%nat) [0; 1]%nat).

Example C11_example :
  map ex_show (run 3 2 2 1 (1 + 1) 3 0 false [ex_slot 10; ex_slot 11; ex_slot 12])
  = [((21 # 2)%Q, [((45 # 4)%Q, 4%Q, false); ((25 # 2)%Q, 6%Q, true)]);
     ((25 # 2)%Q, [((38 # 3)%Q, 3%Q, true); (14%Q, 3%Q, true)])].
Proof. vm_compute. reflexivity. Qed.

(** C12: the new metadata against the old. *)
Theorem C12_metadata : forall inf ca ta inf' c, info_ok inf -> update inf ca ta = Ok (inf', c) ->
  (0 < c)%nat /\ c = Nat.min ca (i_nchan inf) /\ (i_nchan inf mod c = 0)%nat /\
  info_ok inf' /\
  i_nchan inf' = nchan_out (i_nchan inf) c /\ (i_nchan inf' * c)%nat = i_nchan inf /\
  block_sums c (i_widths inf) (i_widths inf') /\
  block_sums c (i_resol inf) (i_resol inf') /\
  block_sums c (i_effbw inf) (i_effbw inf') /\
  i_totbw inf' = i_totbw inf /\
  (regular (i_freqs inf) -> block_means c (i_freqs inf) (i_freqs inf') /\ regular (i_freqs inf')) /\
  let t := Nat.min ta (i_ntime inf) in
  (0 < t)%nat /\
  i_ntime inf' = ((i_ntime inf + t - 1) / t)%nat /\ i_interval inf' = qn t * i_interval inf /\
  i_first inf' - half * i_interval inf' = i_first inf - half * i_interval inf.
Proof. exact update_ok. Qed.
Print Assumptions C12_metadata.

(** Metadata announced by the step against the slots it delivers. *)
Theorem C12_announced_is_delivered : forall inf ca ta fr tr inf' c t noavg slots minpts minperc,
  info_ok inf -> (0 < i_ntime inf)%nat ->
  update_info inf ca ta fr tr = Ok (inf', c, t, noavg) ->
  length slots = i_ntime inf ->
  (forall k s, nth_error slots k = Some s -> t_time s = i_first inf + qn k * i_interval inf) ->
  let out := run (i_nchan inf) c t (i_interval inf) (i_interval inf') minpts minperc noavg slots in
  length out = i_ntime inf' /\
  (forall j o, nth_error out j = Some o -> t_time o = i_first inf' + qn j * i_interval inf') /\
  i_last inf' = i_first inf' + (qn (i_ntime inf') - 1) * i_interval inf'.
Proof. exact announced_delivered. Qed.
Print Assumptions C12_announced_is_delivered.

(** The update fails exactly when the channels do not divide; it is undefined
    only for a zero factor or empty data, which the step excludes. *)
Theorem C12_refusal : forall inf ca ta fr tr, (0 < i_nchan inf)%nat -> (0 < i_ntime inf)%nat ->
  update_info inf ca ta fr tr <> Undefined /\
  (update_info inf ca ta fr tr = Throw <->
   (i_nchan inf mod Nat.min (factor_from ca fr (nth 0 (i_widths inf) (0%Qc))) (i_nchan inf) <> 0)%nat).
Proof.
  intros inf ca ta fr tr Hc Ht. unfold update_info. cbv zeta.
  pose proof (factor_from_pos ca fr (nth 0 (i_widths inf) 0)) as Pc.
  pose proof (factor_from_pos ta tr (i_interval inf)) as Pt.
  set (c1 := factor_from ca fr _) in *. set (t1 := factor_from ta tr _) in *. clearbody c1 t1.
  pose proof (update_outcome inf c1 (Nat.min t1 (i_ntime inf))) as H.
  destruct (update inf c1 (Nat.min t1 (i_ntime inf))) as [[i c]| |] eqn:E.
  - split; [discriminate|]. split; [discriminate|]. intros N. exfalso. unfold update in E.
    replace (if (i_nchan inf <? c1)%nat then i_nchan inf else c1) with (Nat.min c1 (i_nchan inf)) in E
      by (destruct (Nat.ltb_spec (i_nchan inf) c1); lia).
    cbv zeta in E. destruct (Nat.eqb_spec (Nat.min c1 (i_nchan inf)) 0); [lia|].
    destruct (Nat.eqb_spec (i_nchan inf mod Nat.min c1 (i_nchan inf)) 0); [contradiction|discriminate].
  - split; [discriminate|]. tauto.
  - lia.
Qed.
Print Assumptions C12_refusal.

(** The factors used: as given, or nearest to the wanted resolutions, limited by
    the size of the data. *)
Theorem C12_factors : forall inf ca ta fr tr inf' c t noavg,
  0 < nth 0 (i_widths inf) (0%Qc) -> 0 < i_interval inf -> info_ok inf ->
  update_info inf ca ta fr tr = Ok (inf', c, t, noavg) ->
  exists fc ft, wanted_factor ca fr (nth 0 (i_widths inf) (0%Qc)) fc /\ wanted_factor ta tr (i_interval inf) ft /\
    c = Nat.min fc (i_nchan inf) /\ t = Nat.min ft (i_ntime inf) /\ (noavg = true <-> fc = 1%nat /\ ft = 1%nat).
Proof. exact update_factors. Qed.
Print Assumptions C12_factors.

Definition ex_info : info :=
  let f := map (fun i => Q2Qc 100 + qn i * Q2Qc 4) (seq 0 6) in
  let wd := map (fun _ => Q2Qc 4) (seq 0 6) in
  MkInfo f wd wd wd 6 (Q2Qc 24) (Q2Qc 110) 0 5 (Q2Qc 50) (Q2Qc 58) (Q2Qc 2) 1 1.

Example C12_example :
  match update_info ex_info 0 2 (Q2Qc 11) 0 with
  | Ok (i, c, t, noavg) =>
      (i_nchan i, c, t, noavg, map this (i_freqs i), map this (i_widths i), this (i_totbw i)) =
        (2, 3, 2, false, [104%Q; 116%Q], [12%Q; 12%Q], 24%Q)%nat /\
      (i_ntime i, this (i_first i), this (i_last i), this (i_interval i)) = (3%nat, 51%Q, 59%Q, 4%Q)
  | _ => False
  end.
Proof. vm_compute. split; reflexivity. Qed.
Example C12_example_throw : update_info ex_info 4 1 0 0 = Throw.
Proof. vm_compute. reflexivity. Qed.
