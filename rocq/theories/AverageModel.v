(** Model of steps/Averager.cc and base/DPInfo.cc update.

    Numbers are exact rationals; a visibility is one component of the complex
    number (the code only adds visibilities and multiplies or divides them by a
    weight).  Counters are natural numbers: 32-bit wrap-around of counts is not
    modelled. *)
From Coq Require Import QArith Qround Qcanon List Bool Arith.
From Verif Require Import QcUtil.
Import ListNotations.
Open Scope Qc_scope.

(** Averager.cc:91, 101: the 0.5 of the rounding *)
Definition half : Qc := Q2Qc (1 # 2).

(** base/DPBuffer.h: a time slot indexed by baseline, channel, correlation. *)
Record tslot := MkTslot {
  t_time : Qc; t_exposure : Qc;
  t_vis : nat -> nat -> nat -> Qc; t_weight : nat -> nat -> nat -> Qc;
  t_flag : nat -> nat -> nat -> bool; t_uvw : nat -> nat -> Qc }.

Section Averager.
Variables (nchan cavg tavg : nat).          (* channels, itsNChanAvg, itsNTimeAvg *)
Variables (int_in int_out : Qc).            (* itsOriginalTimeInterval, getInfoOut().timeInterval() *)
Variables (minpts : nat) (minperc : Qc).    (* itsMinNPoint, itsMinPerc (a fraction) *)

(** Averager.h:88-98: itsBuf, itsNPoints, itsAvgAll, itsWeightAll, itsNTimes. *)
Record acc := MkAcc {
  k_n : nat; k_time : Qc; k_exposure : Qc;
  k_data : nat -> nat -> nat -> Qc; k_weight : nat -> nat -> nat -> Qc;
  k_all : nat -> nat -> nat -> Qc; k_wall : nat -> nat -> nat -> Qc;
  k_pts : nat -> nat -> nat -> nat; k_uvw : nat -> nat -> Qc }.

(** Averager.cc:147-182 and 220: the first slot of a block. *)
Definition first_slot (s : tslot) : acc :=
  MkAcc 1 (t_time s + half * (int_out - int_in)) int_out
    (fun b c p => if t_flag s b c p then 0 else t_vis s b c p * t_weight s b c p)
    (fun b c p => if t_flag s b c p then 0 else t_weight s b c p)
    (fun b c p => t_vis s b c p * t_weight s b c p)
    (fun b c p => t_weight s b c p)
    (fun b c p => if t_flag s b c p then 0%nat else 1%nat)
    (t_uvw s).

(** Averager.cc:183-218 and 220: a later slot.  Slots are taken to have equal
    shapes (line 188 throws otherwise). *)
Definition next_slot (a : acc) (s : tslot) : acc :=
  MkAcc (S (k_n a)) (k_time a) (k_exposure a)
    (fun b c p => if t_flag s b c p then k_data a b c p
                  else k_data a b c p + t_vis s b c p * t_weight s b c p)
    (fun b c p => if t_flag s b c p then k_weight a b c p else k_weight a b c p + t_weight s b c p)
    (fun b c p => k_all a b c p + t_vis s b c p * t_weight s b c p)
    (fun b c p => k_wall a b c p + t_weight s b c p)
    (fun b c p => if t_flag s b c p then k_pts a b c p else S (k_pts a b c p))
    (fun b i => k_uvw a b i + t_uvw s b i).

(** Averager.cc:255: number of output channels of the data. *)
Definition nchan_out : nat := (nchan + cavg - 1) / cavg.

(** Averager.cc:272-275: input channels of an output channel. *)
Definition chan_range (o : nat) : list nat := seq (o * cavg) (Nat.min cavg (nchan - o * cavg)).

(** Averager.cc:284-292: sum over the channels. *)
Definition chan_sum (f : nat -> Qc) (o : nat) : Qc := fold_left (fun x c => x + f c) (chan_range o) 0.
(** Averager.cc:284-292: the number of points over the channels *)
Definition chan_count (f : nat -> nat) (o : nat) : nat := fold_left (fun x c => (x + f c)%nat) (chan_range o) 0%nat.

(** Averager.cc:294: wght == 0, exact *)
Definition is_zero (x : Qc) : bool := if Qc_eq_dec x 0 then true else false.

(** Averager.cc:294-296. *)
Definition out_flagged (a : acc) (b o p : nat) : bool :=
  let n := chan_count (fun c => k_pts a b c p) o in
  is_zero (chan_sum (fun c => k_weight a b c p) o)
  || (n <? minpts)%nat
  || qltb (qn n) (qn (length (chan_range o) * k_n a) * minperc).

(** Averager.cc:246-314 average. *)
Definition average (a : acc) : tslot :=
  MkTslot (k_time a) (k_exposure a)
    (fun b o p =>
       let w := chan_sum (fun c => k_weight a b c p) o in
       let wall := chan_sum (fun c => k_wall a b c p) o in
       if out_flagged a b o p
       then if is_zero wall then 0 else chan_sum (fun c => k_all a b c p) o / wall
       else chan_sum (fun c => k_data a b c p) o / w)
    (fun b o p => if out_flagged a b o p then chan_sum (fun c => k_wall a b c p) o
                  else chan_sum (fun c => k_weight a b c p) o)
    (fun b o p => out_flagged a b o p)
    (fun b i => k_uvw a b i / qn (k_n a)).

(** Averager.cc:136-231 process: state and output so far. *)
Definition process (st : option acc * list tslot) (s : tslot) : option acc * list tslot :=
  let '(cur, out) := st in
  let a := match cur with None => first_slot s | Some a => next_slot a s end in
  if (tavg <=? k_n a)%nat then (None, out ++ [average a]) else (Some a, out).

(** Averager.cc:233-244 finish. *)
Definition finish (st : option acc * list tslot) : list tslot :=
  let '(cur, out) := st in
  match cur with None => out | Some a => out ++ [average a] end.

(** A whole run; [noavg] is itsNoAvg (lines 108 and 140-143). *)
(** Averager.cc:136-244: process for each slot, then finish *)
Definition run (noavg : bool) (slots : list tslot) : list tslot :=
  if noavg then slots else finish (fold_left process slots (None, [])).
End Averager.

(** Averager.cc:89-96 and 99-106: factor from a resolution; [f] is the given
    factor, [res] the resolution, [unit] the channel width or time interval.  The
    conversion to int truncates; the quotient is non-negative here. *)
Definition factor_from (f : nat) (res unit : Qc) : nat :=
  if (f =? 0)%nat then
    if qltb 0 res then Nat.max 1 (Z.to_nat (Qfloor (this (res / unit + half)))) else 1%nat
  else f.

(** base/DPInfo.h: channel and time metadata (not BDA: one list per kind). *)
Record info := MkInfo {
  i_freqs : list Qc; i_widths : list Qc; i_resol : list Qc; i_effbw : list Qc;
  i_nchan : nat; i_totbw : Qc; i_reffreq : Qc; i_startchan : nat;
  i_ntime : nat; i_first : Qc; i_last : Qc; i_interval : Qc;
  i_chanavg : nat; i_timeavg : nat }.

(** Result of a call: a value, an exception, or undefined behaviour (used for base/DPInfo.cc:305-358) *)
Inductive outcome (A : Type) := Ok (a : A) | Throw | Undefined.
Arguments Ok {A}. Arguments Throw {A}. Arguments Undefined {A}.

(** DPInfo.cc:345-349: sum of block [i] of [c] elements. *)
Definition block_sum (l : list Qc) (c i : nat) : Qc :=
  fold_left (fun x j => x + nth (i * c + j) l 0) (seq 0 c) 0.

(** DPInfo.cc:305-358 update.  Division or modulo by zero is undefined. *)
Definition update (inf : info) (chan_avg time_avg : nat) : outcome (info * nat) :=
  let c := if (i_nchan inf <? chan_avg)%nat then i_nchan inf else chan_avg in
  let t := if (i_ntime inf <? time_avg)%nat then i_ntime inf else time_avg in
  if (c =? 0)%nat then Undefined
  else if negb (i_nchan inf mod c =? 0)%nat then Throw
  else if (t =? 0)%nat then Undefined
  else
    let n := ((i_nchan inf + c - 1) / c)%nat in
    let nt := ((i_ntime inf + t - 1) / t)%nat in
    let first := i_first inf + half * (qn t - 1) * i_interval inf in
    let interval := i_interval inf * qn t in
    let last := first + (qn nt - 1) * interval in
    let freqs := map (fun i => half * (nth (i * c) (i_freqs inf) 0 + nth ((i + 1) * c - 1) (i_freqs inf) 0)) (seq 0 n) in
    let widths := map (block_sum (i_widths inf) c) (seq 0 n) in
    let resol := map (block_sum (i_resol inf) c) (seq 0 n) in
    let effbw := map (block_sum (i_effbw inf) c) (seq 0 n) in
    let tot := fold_left Qcplus effbw 0 in
    Ok (MkInfo freqs widths resol effbw n tot (i_reffreq inf) (i_startchan inf)
          nt first last interval (i_chanavg inf * c) (i_timeavg inf * t), c).

(** Averager.cc:85-113 updateInfo: output info and the factors used. *)
Definition update_info (inf : info) (cavg tavg : nat) (freq_res time_res : Qc)
  : outcome (info * nat * nat * bool) :=
  let c := factor_from cavg freq_res (nth 0 (i_widths inf) 0) in
  let t := factor_from tavg time_res (i_interval inf) in
  let noavg := ((c =? 1) && (t =? 1))%nat in
  let t' := Nat.min t (i_ntime inf) in
  match update inf c t' with
  | Ok (inf', c') => Ok (inf', c', t', noavg)
  | Throw => Throw
  | Undefined => Undefined
  end.
