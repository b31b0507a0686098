(** What baseline dependent averaging should do. *)
From Coq Require Import QArith Qcanon List Bool Arith.
From Verif Require Import QcUtil BdaAverageModel.
Import ListNotations.
Open Scope Qc_scope.

(** The output channels [0 .. nout-1] take consecutive, non-empty groups of input
    channels that cover [0 .. nin-1]: group [o] is [lo o .. lo (o+1) - 1]. *)
Definition channel_groups (lo : nat -> nat) (nin nout : nat) : Prop :=
  lo 0%nat = 0%nat /\ lo nout = nin /\ (forall o, (o < nout)%nat -> (lo o < lo (S o))%nat).

(** The input channels of output channel [o]. *)
Definition in_channels (nin nout o : nat) : list nat :=
  filter (fun i => (o * nin / nout <=? i)%nat && (i <? S o * nin / nout)%nat) (seq 0 nin).

Section Spec.
Context {name : Type}.
Variables (nbl nin ncorr : nat) (dt : Qc) (use_wf : bool) (tf nout : nat -> nat).

(** Weight with which a sample takes part. *)
Definition eff_weight (s : slot name) (b ch corr : nat) : Qc :=
  if use_wf then if s_flag s b ch corr then 0 else s_weight s b ch corr else 1.

(** Sum of [f] over the samples averaged into one output sample. *)
Definition group_sum (win : list (slot name)) (b o : nat) (f : slot name -> nat -> Qc) : Qc :=
  qsum (map (fun s => qsum (map (f s) (in_channels nin (nout b) o))) win).

Definition weight_sum win b o corr : Qc := group_sum win b o (fun s ch => eff_weight s b ch corr).
Definition vis_sum n win b o corr : Qc :=
  group_sum win b o (fun s ch => eff_weight s b ch corr * s_vis s n b ch corr).

(** Total weight of the samples of a baseline in a window. *)
Definition baseline_weight (win : list (slot name)) (b : nat) : Qc :=
  qsum (map (fun s => qsum (map (fun ch => qsum (map (eff_weight s b ch) (seq 0 ncorr))) (seq 0 nin))) win).

(** The row is the average of the slots of [win] for baseline [b]. *)
Definition row_is_average (b : nat) (win : list (slot name)) (r : orow name) : Prop :=
  let len := qn (List.length win) in
  o_baseline r = b /\ o_nchan r = nout b /\ o_ncorr r = ncorr /\
  o_interval r = len * dt /\
  (forall s0, hd_error win = Some s0 -> o_time r - o_interval r / (1 + 1) = s_time s0 - dt / (1 + 1)) /\
  o_exposure r = qsum (map s_exposure win) /\
  List.length (o_weights r) = (nout b * ncorr)%nat /\
  (forall n, List.length (o_data r n) = (nout b * ncorr)%nat) /\
  (forall o corr, (o < nout b)%nat -> (corr < ncorr)%nat ->
     nth (o * ncorr + corr) (o_weights r) 0 = weight_sum win b o corr /\
     forall n, (0 < weight_sum win b o corr ->
                nth (o * ncorr + corr) (o_data r n) 0 = vis_sum n win b o corr / weight_sum win b o corr) /\
               (weight_sum win b o corr <= 0 ->
                nth (o * ncorr + corr) (o_data r n) 0 = vis_sum n win b o corr)).

Definition uvw_is_mean (b : nat) (win : list (slot name)) (r : orow name) : Prop :=
  forall i, o_uvw r i = qsum (map (fun s => s_uvw s b i) win) / qn (List.length win).

(** Which averages appear, in order: after slot number [t] (from 1) those
    baselines whose time factor divides [t], and at the end the incomplete ones. *)
Definition last_n {A} (n : nat) (l : list A) : list A := skipn (List.length l - n) l.

Definition schedule (slots : list (slot name)) : list (nat * list (slot name)) :=
  flat_map (fun t => map (fun b => (b, last_n (tf b) (firstn (S t) slots)))
                       (filter (fun b => S t mod tf b =? 0)%nat (seq 0 nbl)))
           (seq 0 (List.length slots))
  ++ map (fun b => (b, last_n (List.length slots mod tf b) slots))
         (filter (fun b => negb (List.length slots mod tf b =? 0)%nat) (seq 0 nbl)).

(** The input is a regular series of time slots. *)
Definition regular (t0 : Qc) (slots : list (slot name)) : Prop :=
  forall i s, nth_error slots i = Some s -> s_time s = t0 + qn i * dt.
End Spec.
