(** Model of steps/Clipper.cc (process).  The prediction of a slot is an oracle; so is the comparison of its amplitude with
    the maximum. *)
From Coq Require Import List Bool Arith.
Import ListNotations.
Open Scope nat_scope.

(** The settings (steps/Clipper.h:59-62), the shape of the buffers and the baselines kept by the filter substep *)
Record setup := { time_step : nat; frequency_step : nat; all_corr : bool; nchan : nat; ncorr : nat; sel : list nat }.

(** A time slot: its row numbers (empty for a slot inserted by the reader, steps/MsReader.cc:240) and flags per
    baseline, channel and correlation *)
Record slot := { rows : list nat; flags : nat -> nat -> nat -> bool }.

Section Clip.
Context {V : Type} (S : setup).
(** Oracles: abs(v) > max_amplitude_ (steps/Clipper.cc:149), the predicted visibility of a slot for a filtered baseline, a
    channel of the substep and a correlation (steps/Clipper.cc:113-114) *)
Variables (exceeds : V -> bool) (predict : slot -> nat -> nat -> nat -> V).

(** steps/Filter.cc:169-171, 187-189: the row numbers after the filter substep; [None]: baseline outside the slot *)
Fixpoint pick (l : list nat) (idx : list nat) : option (list nat) :=
  match idx with
  | [] => Some []
  | i :: r => match nth_error l i, pick l r with Some x, Some y => Some (x :: y) | _, _ => None end
  end.
(** steps/Filter.cc:187-189: only if there are row numbers *)
Definition filtered_rows (x : slot) : option (list nat) :=
  match rows x with [] => Some [] | _ => pick (rows x) (sel S) end.

(** steps/Clipper.cc:128-130: first position from [i] on whose row number is not below [r]; [None]: reads beyond the end *)
Fixpoint advance (l : list nat) (i r : nat) : option nat :=
  match l with
  | [] => None
  | x :: l' => if x <? r then advance l' (i + 1) r else Some i
  end.
(** steps/Clipper.cc:126-133: positions of the filtered rows in the slot, searching from position [i] on *)
Fixpoint row_indices (all : list nat) (i : nat) (filtered : list nat) : option (list nat) :=
  match filtered with
  | [] => Some []
  | r :: rest =>
    match advance (skipn i all) i r with
    | None => None
    | Some j => option_map (cons j) (row_indices all (j + 1) rest)
    end
  end.

(** steps/Clipper.cc:148-165: the flags of one channel of the substep, per filtered baseline and correlation *)
Definition result_flags (x : slot) (channel f p : nat) : bool :=
  if all_corr S then existsb (fun q => exceeds (predict x f channel q)) (seq 0 (ncorr S))
  else exceeds (predict x f channel p).

(** steps/Clipper.cc:167-171: row f of the result is assigned to row idx[f] of channel [i] *)
Definition assign (idx : list nat) (res : nat -> nat -> bool) (last : nat -> nat -> nat -> bool) (i : nat) : nat -> nat -> nat -> bool :=
  fold_left (fun l f b c p => if (b =? nth f idx 0) && (c =? i) then res f p else l b c p) (seq 0 (length idx)) last.

(** steps/Clipper.cc:138-173: the flags of the whole slot.  The numbers of rows of both sides of the assignment must be
    equal; a single row is broadcast (xtensor), for any other size it throws an exception: [None]. *)
Definition clip_flags (x : slot) (idx : list nat) : option (nat -> nat -> nat -> bool) :=
  let nout := (nchan S + frequency_step S - 1) / frequency_step S in
  let nf := length (sel S) in
  if negb (length idx =? nf) && negb (nf =? 1) && (0 <? nout) then None
  else Some (fold_left (fun last channel =>
    let start := channel * frequency_step S in
    let steps := Nat.min (frequency_step S) (nchan S - start) in
    fold_left (assign idx (fun f => result_flags x channel (if length idx =? nf then f else 0))) (seq start steps) last)
    (seq 0 nout) (fun _ _ _ => false)).

(** steps/Clipper.h:58, 67: the counter and the flags of the last prediction *)
Record state := { counter : nat; last_flags : nat -> nat -> nat -> bool }.
(** steps/Clipper.cc:22 *)
Definition init : state := {| counter := 0; last_flags := fun _ _ _ => false |}.

(** steps/Clipper.cc:104-182 (process): new state and the slot sent on; [None]: undefined behaviour or an exception; a time
    or frequency step of zero divides by zero *)
Definition process (s : state) (x : slot) : option (state * slot) :=
  if (time_step S =? 0) || (frequency_step S =? 0) then None
  else
    let send s' := Some (s', {| rows := rows x; flags := fun b c p => flags x b c p || last_flags s' b c p |}) in
    if counter s mod time_step S =? 0 then
      match filtered_rows x with
      | None => None
      | Some fr =>
        match row_indices (rows x) 0 fr with
        | None => None
        | Some idx => match clip_flags x idx with Some l => send {| counter := 1; last_flags := l |} | None => None end
        end
      end
    else send {| counter := counter s + 1; last_flags := last_flags s |}.

(** base/DP3.cc:387-398: a run over all slots *)
Fixpoint run (s : state) (xs : list slot) : option (list slot) :=
  match xs with
  | [] => Some []
  | x :: r => match process s x with Some (s', y) => option_map (cons y) (run s' r) | None => None end
  end.
End Clip.
