(** Model of the AOFlagger step: steps/AOFlaggerStep.cc:227-256 and 269-436.  The detection of interference in a window of time slots of a baseline (the AOFlagger library) is a parameter.
    The buffers have the shape that the step was told.  Baselines are treated one by one, each reads and changes only its own values, so threads make no difference. *)
From Coq Require Import List Bool Arith.
From Verif Require Import AverageModel InfoModel GainModel.
Import ListNotations.
Open Scope nat_scope.

(** A loop over the elements of a list with their indices, as in steps/AOFlaggerStep.cc:398, 400 *)
Definition mapi {A B} (f : nat -> A -> B) (l : list A) : list B := map (fun p => f (fst p) (snd p)) (combine (seq 0 (length l)) l).

(** steps/AOFlaggerStep.cc:137-138 (updateInfo): the window size is changed if it was not given by the user and the number of time slots is known *)
Definition fit_window (n_time window : nat) : nat := let n_window := 1 + (n_time - 1) / window in 1 + (n_time - 1) / n_window.

Section Flagger.
(** The visibilities of a baseline and channel; times *)
Context {D T : Type}.
(** base/DPBuffer.h: the time, the data of every baseline and channel, and the flags of every baseline, channel and correlation *)
Record slot := Slot { time : T; data : list (list D); flags : list (list (list bool)) }.
(** steps/AOFlaggerStep.h: window_size_, overlap_ as updateInfo leaves them *)
Variables window overlap : nat.
(** The number of correlations and of baselines *)
Variables n_corr n_bl : nat.
(** steps/AOFlaggerStep.cc:315: the baselines that are to be flagged: all, or only cross correlations *)
Variable selected : nat -> bool.
(** steps/AOFlaggerStep.cc:394: the mask of the strategy for a baseline, from the times and the data of its channels; for the time and channel with these indices *)
Variable detect : nat -> list (T * list D) -> nat -> nat -> bool.

(** steps/AOFlaggerStep.h: buffer_ up to buffer_index_, the (baseline, channel) pairs for which flag_counter_ counted, the (baseline, values, original flags) that were given to qstats_, and what was sent on *)
Record state := State { held : list slot; counted : list (nat * nat); stats : list (nat * list (T * list D) * list (list bool)); sent : list slot }.
(** steps/AOFlaggerStep.cc:38-66 (constructor): at the start *)
Definition init : state := State [] [] [] [].

(** steps/AOFlaggerStep.cc:284-287, 377-390: the values that the strategy gets *)
Definition image (bl : nat) (l : list slot) : list (T * list D) := map (fun s => (time s, nth bl (data s) [])) l.
(** steps/AOFlaggerStep.cc:387: the flags as they were, of the first correlation *)
Definition orig_flags (bl : nat) (l : list slot) : list (list bool) := map (fun s => map (fun f => nth 0 f false) (nth bl (flags s) [])) l.
(** steps/AOFlaggerStep.cc:403-420: the flags of a channel *)
Definition set_channel (mask : bool) (f : list bool) : list bool := if negb (nth 0 f false) && mask then [true; true; true; true] else f.
(** steps/AOFlaggerStep.cc:399-422: the flags of a time slot *)
Definition set_slot (bl : nat) (mask : nat -> bool) (s : slot) : slot :=
  Slot (time s) (data s) (set_nth (flags s) bl (mapi (fun j f => set_channel (mask j) f) (nth bl (flags s) []))).
(** steps/AOFlaggerStep.cc:403-415: the channels that are counted *)
Definition count_slot (bl : nat) (mask : nat -> bool) (s : slot) : list (nat * nat) :=
  concat (mapi (fun j f => if negb (nth 0 f false) && mask j then [(bl, j)] else []) (nth bl (flags s) [])).
(** steps/AOFlaggerStep.cc:355-436 (flagBaseline) for all time slots that are held, and the condition at 315.  The statistics are kept. *)
Definition flag_baseline (st : state) (bl : nat) : state :=
  if selected bl then
    let im := image bl (held st) in
    State (mapi (fun i s => set_slot bl (detect bl im i) s) (held st)) (counted st ++ concat (mapi (fun i s => count_slot bl (detect bl im i) s) (held st)))
      (stats st ++ [(bl, im, orig_flags bl (held st))]) (sent st)
  else st.
(** steps/AOFlaggerStep.cc:269-353 (flag), when [n] of the slots that are held are to be sent *)
Definition flag (n : nat) (st : state) : outcome state :=
  if n_corr =? 4 then
    let st := fold_left flag_baseline (seq 0 n_bl) st in
    Ok (State (skipn n (held st)) (counted st) (stats st) (sent st ++ firstn n (held st)))
  else Throw.
(** steps/AOFlaggerStep.cc:227-240 (process) *)
Definition process (st : state) (s : slot) : outcome state :=
  let st := State (held st ++ [s]) (counted st) (stats st) (sent st) in
  if length (held st) =? window + 2 * overlap then flag window st else Ok st.
(** steps/AOFlaggerStep.cc:242-256 (finish) *)
Definition finish (st : state) : outcome state := match held st with [] => Ok st | _ => flag (length (held st)) st end.
(** base/DP3.cc:387-398: all time slots, and the end *)
Fixpoint process_all (st : state) (l : list slot) : outcome state :=
  match l with [] => Ok st | s :: l => let! st := process st s in process_all st l end.
(** base/DP3.cc:387-398 *)
Definition run (l : list slot) : outcome state := let! st := process_all init l in finish st.
End Flagger.
Arguments slot : clear implicits.
Arguments state : clear implicits.
