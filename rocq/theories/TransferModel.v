(** Model of steps/Transfer.cc, and of the copy of it for flags only in steps/FlagTransfer.cc: copying the visibilities
    and the flags of an averaged measurement set (the source) into the buffers of the original one (the target). *)
From Coq Require Import QArith Qround Qcanon List Bool Arith ZArith.
From Verif Require Import QcUtil AverageModel InfoModel.
Import ListNotations.
Open Scope nat_scope.

(** steps/Transfer.cc:77-82: source_channel_upper_edges_; exact instead of rounded.  steps/FlagTransfer.cc:59, 75-78 uses
    the width of the first channel for all of them. *)
Definition upper_edges (freqs widths : list Qc) : list Qc :=
  map (fun i => nth i freqs 0 + half * nth i widths 0)%Qc (seq 0 (length freqs)).

(** * One array *)
Section Slot.
(** The correlations of a sample *)
Variable A : Type.
(** steps/Transfer.cc:127: an array of baselines and channels (and correlations) *)
Definition grid := list (list A).
Variables (none : A) (freqs edges : list Qc) (beyond : Qc).

(** The target array, the next channel of the target, and whether something was read or written outside an array *)
(** steps/Transfer.cc:143-159 *)
Record slot := MkSlot { cells : grid; next : nat; bad_read : bool; bad_write : bool }.

(** steps/Transfer.cc:153-154: one assignment to a view of the target; rows are 64-bit unsigned *)
Definition put (row : Z) (c : nat) (v : A) (x : slot) : slot :=
  if (row <? Z.of_nat (length (cells x)))%Z then
    let r := Z.to_nat row in MkSlot (set_nth (cells x) r (set_nth (nth r (cells x) []) c v)) (next x) (bad_read x) (bad_write x)
  else MkSlot (cells x) (next x) (bad_read x) true.
(** steps/Transfer.cc:136-141, one baseline *)
Definition put_row (row : Z) (l : list A) (x : slot) : slot :=
  if (row <? Z.of_nat (length (cells x)))%Z then MkSlot (set_nth (cells x) (Z.to_nat row) l) (next x) (bad_read x) (bad_write x)
  else MkSlot (cells x) (next x) (bad_read x) true.
(** steps/Transfer.cc:150-155: channel [c] of the target becomes channel [b] of the source *)
Definition copy_channel (source : grid) (rows : list Z) (b c : nat) (x : slot) : slot :=
  fold_left (fun x s => put (nth s rows 0%Z) c (nth b (nth s source []) none) x) (seq 0 (length source)) x.
(** steps/Transfer.cc:148-158: the while loop of channel [b] of the source, at most [fuel] rounds.  [beyond] is what the
    memory after the frequencies of the target contains. *)
Fixpoint block_loop (source : grid) (rows : list Z) (n b : nat) (edge : Qc) (fuel : nat) (x : slot) : slot :=
  match fuel with
  | O => x
  | S fuel =>
    let x1 := MkSlot (cells x) (next x) (bad_read x || (length freqs <=? next x)) (bad_write x) in
    if qltb (nth (next x) freqs beyond) edge && (next x <? n) then
      let x2 := copy_channel source rows b (next x) x1 in
      block_loop source rows n b edge fuel (MkSlot (cells x2) (next x2 + 1) (bad_read x2) (bad_write x2))
    else x1
  end.
(** steps/Transfer.cc:143-159; steps/FlagTransfer.cc:169-189.  No more than n + 1 rounds are needed. *)
Definition copy_blocks (source : grid) (rows : list Z) (n nsource : nat) (target : grid) : slot :=
  fold_left (fun x b => block_loop source rows n b (nth b edges 0%Qc) (S n) x) (seq 0 nsource) (MkSlot target 0 false false).
(** steps/Transfer.cc:125-161 (TransferSingleTimeSlot); [n] and [nsource] are the numbers of channels.
    steps/FlagTransfer.cc:155-189 *)
Definition transfer_slot (n nsource : nat) (rows : list Z) (source target : grid) : slot :=
  if (nsource =? n) && (length source =? length target) then MkSlot source 0 false false
  else if nsource =? n then
    fold_left (fun x s => put_row (nth s rows 0%Z) (nth s source []) x) (seq 0 (length source)) (MkSlot target 0 false false)
  else copy_blocks source rows n nsource target.
End Slot.
Arguments MkSlot {A}. Arguments cells {A}. Arguments next {A}. Arguments bad_read {A}. Arguments bad_write {A}.
Arguments put {A}. Arguments put_row {A}. Arguments copy_channel {A}. Arguments block_loop {A}. Arguments copy_blocks {A}.
Arguments transfer_slot {A}.

(** * The step *)
Section Step.
Variables (D F : Type) (no_data : D) (no_flag : F) (beyond : Qc).
(** steps/Transfer.h:90-105, base/DPInfo.h: transfer_data_, transfer_flags_, the baselines that the filter selects (all if
    empty), the number of channels of target and source, the baselines of the source, frequencies, edges and
    time_averaging_factor_ *)
Record config := MkConfig { with_data : bool; with_flags : bool; selected : list nat; chans : nat; source_chans : nat;
                            source_rows : nat; target_freqs : list Qc; source_edges : list Qc; factor : Z }.
(** steps/Transfer.cc:222, 237: the arrays of a buffer, and its row numbers *)
Record buf := MkBuf { b_data : grid D; b_flags : grid F; b_rows : list Z }.
(** steps/Transfer.h: timestep_counter_, the time slots that ms_iterator_ still has, data_ and flags_ *)
Record state := MkState { counter : Z; pending : list (grid D * grid F); current : grid D * grid F }.

(** steps/Transfer.cc:196-208: the row numbers that the filter lets through, from the first row number; 64 bits, unsigned *)
Definition target_rows (c : config) (rows : list Z) : list Z :=
  let sel := match selected c with [] => rows | sel => map (fun i => nth i rows 0%Z) sel end in
  map (fun r => ((r - nth 0 rows 0%Z) mod 2 ^ 64)%Z) sel.
(** steps/Transfer.cc:187-194: reading the next time slot of the source *)
Definition advance (c : config) (st : state) : state :=
  if (counter st <=? 0)%Z then
    match pending st with
    | [] => MkState (factor c) [] (current st)
    | (d, f) :: more => MkState (factor c) more (if with_data c then d else fst (current st), if with_flags c then f else snd (current st))
    end
  else st.
(** steps/Transfer.cc:184-254 (process), for the main data buffer.  Arrays in the target are not empty.  A source in which
    a time slot has another number of baselines than the first one makes the assignment of the column throw. *)
Definition process (c : config) (st : state) (b : buf) : outcome (state * buf) :=
  let st1 := advance c st in
  let (sd, sf) := current st1 in
  match b_rows b with
  | [] => Undefined
  | rows =>
    let tr := target_rows c rows in
    if (with_data c && negb (length sd =? source_rows c)) || (with_flags c && negb (length sf =? source_rows c)) then Throw
    else if negb (length tr =? source_rows c) then Throw
    else
      let xd := if with_data c then transfer_slot no_data (target_freqs c) (source_edges c) beyond (chans c) (source_chans c) tr sd (b_data b)
                else MkSlot (b_data b) 0 false false in
      let xf := if with_flags c then transfer_slot no_flag (target_freqs c) (source_edges c) beyond (chans c) (source_chans c) tr sf (b_flags b)
                else MkSlot (b_flags b) 0 false false in
      if bad_write xd || bad_write xf then Undefined
      else Ok (MkState ((counter st1 - 1) mod 2 ^ 64) (pending st1) (current st1), MkBuf (cells xd) (cells xf) rows)
  end.
(** steps/Transfer.cc:184-254: a sequence of buffers *)
Fixpoint run (c : config) (st : state) (bufs : list buf) : outcome (list buf) :=
  match bufs with
  | [] => Ok []
  | b :: more =>
    match process c st b with
    | Ok (st', b') => match run c st' more with Ok r => Ok (b' :: r) | Throw => Throw | Undefined => Undefined end
    | Throw => Throw
    | Undefined => Undefined
    end
  end.
(** steps/Transfer.cc:84-88, Transfer.h:102: the state after construction.  data_ and flags_ are not initialised. *)
Definition start (slots : list (grid D * grid F)) (uninitialised : grid D * grid F) : state := MkState 0 slots uninitialised.
End Step.
Arguments MkBuf {D F}. Arguments b_data {D F}. Arguments b_flags {D F}. Arguments b_rows {D F}.
Arguments MkState {D F}. Arguments counter {D F}. Arguments pending {D F}. Arguments current {D F}.
Arguments advance {D F}. Arguments process {D F}. Arguments run {D F}. Arguments start {D F}.

(** std::round *)
(** steps/Transfer.cc:292; half-way values go away from zero; a negative quotient is not modelled (undefined conversion) *)
Definition round_up (x : Qc) : Z := Qfloor (this (x + half)%Qc).
(** steps/Transfer.cc:289-308: the factor, if the intervals and the start times agree within 1e-5 *)
Definition time_factor (source_interval target_interval source_start target_start : Qc) : outcome Z :=
  let q := (source_interval / target_interval)%Qc in
  let tolerance := Q2Qc (1 # 100000) in
  let n := round_up q in
  let far (x : Qc) := qltb tolerance x || qltb x (- tolerance)%Qc in
  if far (q - Q2Qc (inject_Z n))%Qc then Throw
  else if far (target_start - source_start)%Qc then Throw
  else Ok n.
