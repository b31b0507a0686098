(** Model of how steps/MsReader.cc walks over the time slots of a measurement set: which ones it delivers, which ones it
    inserts, and the selection of times.  Times are exact numbers. *)
From Coq Require Import QArith Qround Qcanon List Bool Arith ZArith.
From Verif Require Import QcUtil AverageModel InfoModel.
Import ListNotations.
Open Scope nat_scope.

Section Times.
(** A time slot of the measurement set: the rows with the same time, as the table iterator delivers them *)
Variables (S : Type) (time : S -> Qc).
(** casacore::near on doubles (relative tolerance of 1e-13) *)
Variable near : Qc -> Qc -> bool.

(** steps/MsReader.h:240, base/DPInfo.h: time_tolerance_, firstTime(), lastTime(), timeInterval() *)
Record times := MkTimes { tolerance : Qc; first : Qc; last : Qc; interval : Qc }.
(** steps/MsReader.h:242-246: time_correction_, next_time_, previous_time_, n_read_ + n_inserted_ (32 bits in the code), and the
    time slots that ms_iterator_ still has *)
Record state := MkState { correction : Qc; next : Qc; previous : Qc; count : nat; pending : list S }.

(** casacore::nearAbs *)
(** steps/MsReader.cc:207 *)
Definition near_abs (x y tol : Qc) : bool := qleb (x - y)%Qc tol && qleb (y - x)%Qc tol.

(** steps/MsReader.cc:196-226: the search for the next time slot; the time slot to use, if any *)
Fixpoint search (c : times) (corr nxt prev : Qc) (k : nat) (l : list S) : state * option S :=
  match l with
  | [] => (MkState corr nxt prev k [], None)
  | s :: rest =>
    let t := time s in
    if qltb t prev then search c corr nxt t k rest
    else if near_abs t nxt (tolerance c) then (MkState corr nxt prev k l, Some s)
    else if qltb (first c + corr)%Qc t && qltb t nxt then (MkState (corr - (nxt - t))%Qc t prev k l, Some s)
    else if qltb nxt t then (MkState corr nxt prev k l, None)
    else search c corr nxt t k rest
  end.
(** steps/MsReader.cc:230-232: past the end *)
Definition ended (c : times) (nxt : Qc) : bool := (qltb (last c) nxt && negb (near nxt (last c))) || Qc_eq_bool nxt 0.
(** steps/MsReader.cc:169-369 (process): the state, the time and the time slot, [None] for one that is inserted; no result at
    the end *)
Definition process (c : times) (st : state) : option (state * (Qc * option S)) :=
  let (st1, use) := search c (correction st) (next st) (previous st) (count st) (pending st) in
  if ended c (next st1) then None
  else
    let k := count st1 + 1 in
    let nxt := (first c + correction st1 + Q2Qc (inject_Z (Z.of_nat k)) * interval c)%Qc in
    Some (match use with
          | Some _ => MkState (correction st1) nxt (next st1) k (tl (pending st1))
          | None => MkState (correction st1) nxt (previous st1) k (pending st1)
          end, (next st1, use)).
(** base/DP3.cc:387-395: reading until the reader says that there is no more; [None]: more than [fuel] time slots *)
Fixpoint read_all (c : times) (fuel : nat) (st : state) : option (list (Qc * option S)) :=
  match fuel with
  | O => None
  | Datatypes.S fuel => match process c st with
              | None => Some []
              | Some (st', x) => match read_all c fuel st' with Some r => Some (x :: r) | None => None end
              end
  end.

(** * Selection of times *)

(** steps/MsReader.cc:865-895 (SkipFirstTimes): first_time, previous_time_ and the remaining time slots; int() of the quotient
    truncates (defined below 2^31) *)
Fixpoint skip_first_times (want ival prev : Qc) (l : list S) : Qc * Qc * list S :=
  match l with
  | [] => (want, prev, [])
  | s :: rest =>
    let t := time s in
    if qltb t prev then skip_first_times want ival t rest
    else if near t want then (t, prev, l)
    else if qltb want t then
      let t' := (t - Q2Qc (inject_Z (Qfloor (this ((t - want) / ival)%Qc))) * ival)%Qc in
      ((if near want (t' - ival)%Qc then t' - ival else t')%Qc, prev, l)
    else skip_first_times want ival t rest
  end.
(** What the user gives: starttime, starttimeslot, endtime, ntimes *)
(** steps/MsReader.cc:457-460 *)
Record selection := MkSelection { start_time : option Qc; start_slot : Z; end_time : option Qc; n_times : Z }.
(** steps/MsReader.cc:450-535 (ParseTimeSelection).  [ms_first], [ms_last] and [ival] are from the measurement set
    (steps/MsReader.cc:735-741).  ntimes is converted to unsigned. *)
Definition parse_times (sel : selection) (tol ms_first ms_last ival : Qc) (l : list S) : outcome (times * state) :=
  let started : outcome (Qc * Qc * list S) :=
    match start_time sel with
    | Some want =>
      if (0 <? start_slot sel)%Z then Throw
      else if qltb ms_last want then Throw
      else Ok (skip_first_times want ival 0 l)
    | None =>
      if (0 <? start_slot sel)%Z then
        let rest := skipn (Z.to_nat (start_slot sel)) l in
        Ok (match rest with [] => ms_first | s :: _ => time s end, 0%Qc, rest)
      else Ok ((ms_first + Q2Qc (inject_Z (start_slot sel)) * ival)%Qc, 0%Qc, l)
    end in
  match started with
  | Ok (fst_time, prev, []) => if qleb ival 0 then Throw else Ok (MkTimes tol 0 0 ival, MkState 0 0 prev 0 [])
  | Ok (fst_time, prev, rest) =>
    let ended : outcome Qc :=
      let n := (n_times sel mod 2 ^ 32)%Z in
      match end_time sel with
      | Some e =>
        if (0 <? n)%Z then Throw
        else if qltb e (ms_first - half * ival)%Qc then Throw
        else Ok (fst_time + Q2Qc (inject_Z (Qfloor (this ((e - fst_time) / ival)%Qc))) * ival)%Qc
      | None => if (0 <? n)%Z then Ok (fst_time + Q2Qc (inject_Z (n - 1)) * ival)%Qc else Ok ms_last
      end in
    match ended with
    | Ok lst => if qltb lst fst_time then Throw else if qleb ival 0 then Throw
                else Ok (MkTimes tol fst_time lst ival, MkState 0 fst_time prev 0 rest)
    | Throw => Throw
    | Undefined => Undefined
    end
  | Throw => Throw
  | Undefined => Undefined
  end.
End Times.
Arguments MkState {S}. Arguments correction {S}. Arguments next {S}. Arguments previous {S}. Arguments count {S}. Arguments pending {S}.
Arguments search {S}. Arguments process {S}. Arguments read_all {S}. Arguments skip_first_times {S}. Arguments parse_times {S}.
