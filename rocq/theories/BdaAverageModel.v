(** Model of steps/BDAAverager.cc.

    Numbers (float, double) are exact rationals; a visibility is one component
    (real or imaginary) of the complex number, since the code only adds
    visibilities and multiplies or divides them by a real weight.  Arrays
    indexed by position are functions [nat -> Qc]. *)
From Coq Require Import QArith Qround Qcanon List Bool Arith.
From Verif Require Import QcUtil.
Import ListNotations.
Open Scope Qc_scope.

(** BDAAverager.cc:40-43: first input channel of output channel [i]. *)
Definition chan_index (n_in n_out i : nat) : nat := (i * n_in / n_out)%nat.

(** BDAAverager.cc:41-43, the whole list. *)
Definition chan_indices (n_in n_out : nat) : list nat :=
  map (chan_index n_in n_out) (seq 0 (S n_out)).

(** BDAAverager.cc:143-150: time averaging factor of a baseline of length [len];
    [thr] is timebase, [max_interval] is maxinterval.  A negative quotient (a
    negative timebase) is undefined behaviour in the conversion to size_t. *)
Definition time_factor (thr max_interval dt len : Qc) : option nat :=
  let floor q := Qround.Qfloor (this q) in
  let len' := if qltb len (Q2Qc (1 # 10)) then Q2Qc (1 # 10) else len in
  let f := floor (thr / len') in
  if (f <? 0)%Z then None
  else
    let f1 := if qltb 0 max_interval && qltb max_interval (Q2Qc (inject_Z f) * dt)
              then floor (max_interval / dt) else f in
    Some (Nat.max (Z.to_nat f1) 1).

(** BDAAverager.cc:155-163: number of output channels; [thr] is frequencybase,
    [min_channels] is minchannels. *)
Definition out_channels (thr len : Qc) (nchan min_channels : nat) : nat :=
  if qltb 0 thr then
    let n := Z.to_nat (Qround.Qceiling (this (len / thr * qn nchan))) in
    if (nchan <? n)%nat then nchan
    else if (n <? min_channels)%nat then min_channels else n
  else nchan.

(** BDAAverager.cc:187-189: width of an averaged channel. *)
Definition out_width (widths : nat -> Qc) (nin nout o : nat) : Qc :=
  fold_left Qcplus
    (map widths (seq (chan_index nin nout o) (chan_index nin nout (S o) - chan_index nin nout o))) 0.

Section Averager.
Variable name : Type.            (* names of data buffers, process:218 *)

(** One regular time slot, base/DPBuffer.h, indexed by baseline, channel and
    correlation (uvw: baseline and axis). *)
Record slot := MkSlot {
  s_time : Qc; s_exposure : Qc;
  s_vis : name -> nat -> nat -> nat -> Qc;
  s_weight : nat -> nat -> nat -> Qc;
  s_flag : nat -> nat -> nat -> bool;
  s_uvw : nat -> nat -> Qc }.

(** BDAAverager.h:97-116, BaselineBuffer (time_factor and
    input_channel_indices, which never change, are parameters below). *)
Record bbuf := MkBbuf {
  times_added : nat; starttime : Qc; interval : Qc; exposure : Qc;
  bdata : name -> nat -> Qc; bweights : nat -> Qc; buvw : nat -> Qc }.

(** BDAAverager.cc:26-34 (constructor) and 48-59 (Clear): both give this state. *)
Definition bb_clear : bbuf := MkBbuf 0 0 0 0 (fun _ _ => 0) (fun _ => 0) (fun _ => 0).

(** A row of the output, base/BdaBuffer.h Row together with its samples.  Only
    the fields written by AddRow, BDAAverager.cc:364-372. *)
Record orow := MkOrow {
  o_time : Qc; o_interval : Qc; o_exposure : Qc; o_baseline : nat;
  o_nchan : nat; o_ncorr : nat; o_rownr : nat;
  o_data : name -> list Qc; o_weights : list Qc; o_uvw : nat -> Qc }.

Variable nbl : nat.              (* number of baselines *)
Variable nin : nat.              (* number of input channels *)
Variable ncorr : nat.
Variable dt : Qc.                (* getInfoOut().timeInterval() *)
Variable use_wf : bool.          (* use_weights_and_flags_ *)
Variable tf : nat -> nat.        (* time_factor of a baseline *)
Variable nout : nat -> nat.      (* number of output channels of a baseline *)
Variable pool : nat.             (* bda_pool_size_ *)
Variable eps : Qc.               (* kTimeTolerance, base/BdaBuffer.h:212-214 and 227 *)

(** x[i] += v *)
(** BDAAverager.cc:266-270, 281-288: the += on the sums *)
Definition upd (f : nat -> Qc) (i : nat) (v : Qc) : nat -> Qc :=
  fun k => if k =? i then f k + v else f k.

(** The body of the innermost loops, BDAAverager.cc:266-270 and 281-288. *)
Definition add_sample (b : nat) (s : slot) (offset ich corr : nat) (bb : bbuf) : bbuf :=
  if use_wf then
    if s_flag s b ich corr then bb
    else
      let w := s_weight s b ich corr in
      MkBbuf (times_added bb) (starttime bb) (interval bb) (exposure bb)
        (fun n => upd (bdata bb n) (offset + corr) (s_vis s n b ich corr * w))
        (upd (bweights bb) (offset + corr) w) (buvw bb)
  else
    MkBbuf (times_added bb) (starttime bb) (interval bb) (exposure bb)
      (fun n => upd (bdata bb n) (offset + corr) (s_vis s n b ich corr))
      (upd (bweights bb) (offset + corr) 1) (buvw bb).

(** BDAAverager.cc:261-274 and 276-292: the three nested loops.  [offset] is
    [och * ncorr] because it grows by [n_correlations] each output channel. *)
Definition add_samples (b : nat) (s : slot) (bb : bbuf) : bbuf :=
  fold_left (fun bb och =>
    fold_left (fun bb ich =>
      fold_left (fun bb corr => add_sample b s (och * ncorr) ich corr bb) (seq 0 ncorr) bb)
      (seq (chan_index nin (nout b) och)
           (chan_index nin (nout b) (S och) - chan_index nin (nout b) och)) bb)
    (seq 0 (nout b)) bb.

(** BDAAverager.cc:249-296: adding one time slot to a baseline buffer. *)
Definition add_slot (b : nat) (s : slot) (bb : bbuf) : bbuf :=
  let n := S (times_added bb) in
  let st := if n =? 1 then s_time s - dt / (1 + 1) else starttime bb in
  let bb1 := MkBbuf n st (interval bb + dt) (exposure bb + s_exposure s)
               (bdata bb) (bweights bb) (buvw bb) in
  let bb2 := add_samples b s bb1 in
  MkBbuf (times_added bb2) (starttime bb2) (interval bb2) (exposure bb2)
    (bdata bb2) (bweights bb2) (fun i => buvw bb2 i + s_uvw s b i).

(** The BDA buffer being filled: remaining capacity and rows. *)
(** BDAAverager.h: bda_buffer_; base/BdaBuffer.h:229-240 *)
Record obuf := MkObuf { ob_remaining : nat; ob_rows : list orow }.

(** State of the step: baseline buffers, current BDA buffer, size requests,
    row counter, and the buffers already sent to the next step. *)
(** BDAAverager.h:142-150 *)
Record state := MkState {
  st_bbs : nat -> bbuf; st_cur : option obuf; st_requests : list nat;
  st_rownr : nat; st_sent : list (list orow) }.

(** BDAAverager.cc:381-392, InitializeBdaBuffer. *)
Definition init_buffer (st : state) : state :=
  match st_requests st with
  | [] => MkState (st_bbs st) (Some (MkObuf pool [])) [] (st_rownr st) (st_sent st)
  | r :: rs => MkState (st_bbs st) (Some (MkObuf r [])) rs (st_rownr st) (st_sent st)
  end.

(** BDAAverager.cc:340-349: total weight, all positions of the buffer. *)
Definition total_weight (b : nat) (bb : bbuf) : Qc :=
  fold_left (fun t i => t + bweights bb i) (seq 0 (nout b * ncorr)) 0.

(** BDAAverager.cc:341-356 and 364-372: the row made from a baseline buffer. *)
Definition make_row (b : nat) (bb : bbuf) (rownr : nat) : orow :=
  let norm n i := if qltb 0 (bweights bb i) then bdata bb n i / bweights bb i else bdata bb n i in
  let uvw i := if qltb 0 (total_weight b bb) then buvw bb i * (1 / qn (times_added bb)) else buvw bb i in
  MkOrow (starttime bb + interval bb / (1 + 1)) (interval bb) (exposure bb) b (nout b) ncorr rownr
    (fun n => map (norm n) (seq 0 (nout b * ncorr)))
    (map (bweights bb) (seq 0 (nout b * ncorr))) uvw.

(** BDAAverager.cc:334-375, AddBaseline.  [None]: AddRow throws because of the
    order of the rows (BdaBuffer.cc:108-112), or refuses the row, in which case
    GetData is called with the number of a row that does not exist. *)
Definition add_baseline (b : nat) (st : state) : option state :=
  match st_cur st with
  | None => None
  | Some cur =>
    let bb := st_bbs st b in
    let row := make_row b bb (st_rownr st) in
    let need := (nout b * ncorr)%nat in
    let st1 := if ob_remaining cur <? need
               then init_buffer (MkState (st_bbs st) None (st_requests st) (st_rownr st)
                                   (st_sent st ++ [ob_rows cur]))
               else st in
    match st_cur st1 with
    | None => None
    | Some cur1 =>
      let bad := match rev (ob_rows cur1) with
                 | [] => false
                 | back :: _ =>
                     qltb (o_time row + o_interval row / (1 + 1)) (o_time back - o_interval back / (1 + 1) + eps)
                 end in
      if bad then None
      else if ob_remaining cur1 <? need then None
      else Some (MkState (fun b' => if b' =? b then bb_clear else st_bbs st1 b')
                   (Some (MkObuf (ob_remaining cur1 - need) (ob_rows cur1 ++ [row])))
                   (st_requests st1) (S (st_rownr st1)) (st_sent st1))
    end
  end.

(** BDAAverager.cc:248-301: an exception ends the run *)
Definition bind {A B} (o : option A) (f : A -> option B) : option B :=
  match o with Some a => f a | None => None end.

(** BDAAverager.cc:248-301: one iteration of the loop over baselines. *)
Definition process_baseline (s : slot) (st : option state) (b : nat) : option state :=
  bind st (fun st =>
    let bb := add_slot b s (st_bbs st b) in
    let st1 := MkState (fun b' => if b' =? b then bb else st_bbs st b')
                 (st_cur st) (st_requests st) (st_rownr st) (st_sent st) in
    if times_added bb =? tf b then add_baseline b st1 else Some st1).

(** BDAAverager.cc:214-314, process.  The checks of the buffer shapes are left
    out: the input has the expected shape. *)
Definition process (st : option state) (s : slot) : option state :=
  bind st (fun st =>
    let st0 := match st_cur st with None => init_buffer st | Some _ => st end in
    bind (fold_left (process_baseline s) (seq 0 nbl) (Some st0)) (fun st1 =>
      match st_cur st1 with
      | Some cur =>
          if ob_remaining cur =? 0
          then Some (MkState (st_bbs st1) None (st_requests st1) (st_rownr st1) (st_sent st1 ++ [ob_rows cur]))
          else Some st1
      | None => Some st1
      end)).

(** BDAAverager.cc:316-332, finish. *)
Definition finish_baseline (st : option state) (b : nat) : option state :=
  bind st (fun st =>
    if times_added (st_bbs st b) =? 0 then Some st
    else add_baseline b (match st_cur st with None => init_buffer st | Some _ => st end)).

(** base/BdaBuffer.h:31 (GetDataSize) *)
Definition row_size (r : orow) : nat := (o_nchan r * o_ncorr r)%nat.

(** BDAAverager.cc:316-332 (finish) *)
Definition finish (st : option state) : option state :=
  bind (fold_left finish_baseline (seq 0 nbl) st) (fun st1 =>
    match st_cur st1 with
    | Some cur =>
        if (0 <? list_sum (map row_size (ob_rows cur)))%nat
        then Some (MkState (st_bbs st1) None (st_requests st1) (st_rownr st1) (st_sent st1 ++ [ob_rows cur]))
        else Some (MkState (st_bbs st1) None (st_requests st1) (st_rownr st1) (st_sent st1))
    | None => Some st1
    end).

(** BDAAverager.cc:101-212, 377-379: the state after updateInfo *)
Definition init (requests : list nat) : state :=
  MkState (fun _ => bb_clear) None requests 0 [].

(** A complete run: the buffers sent to the next step. *)
(** BDAAverager.cc:214-332: process for each slot, then finish *)
Definition run (requests : list nat) (slots : list slot) : option (list (list orow)) :=
  match finish (fold_left process slots (Some (init requests))) with
  | Some st => Some (st_sent st)
  | None => None
  end.
End Averager.

Arguments MkSlot {name}. Arguments s_time {name}. Arguments s_exposure {name}.
Arguments s_vis {name}. Arguments s_weight {name}. Arguments s_flag {name}. Arguments s_uvw {name}.
Arguments o_time {name}. Arguments o_interval {name}. Arguments o_exposure {name}.
Arguments o_baseline {name}. Arguments o_nchan {name}. Arguments o_ncorr {name}.
Arguments o_rownr {name}. Arguments o_data {name}. Arguments o_weights {name}. Arguments o_uvw {name}.
Arguments MkOrow {name}.
Arguments times_added {name}. Arguments starttime {name}. Arguments interval {name}.
Arguments exposure {name}. Arguments bdata {name}. Arguments bweights {name}. Arguments buvw {name}.
