(** Model of steps/Interpolate.cc.  The complex and real floating point operations are parameters; so is the order in which
    the threads take the flagged samples of a time slot. *)
From Coq Require Import List Bool Arith ZArith.
From Verif Require Import InfoModel.
Import ListNotations.
Open Scope nat_scope.

(** Oracles: complex (V) and real (W) arithmetic, std::isfinite of both parts (steps/Interpolate.cc:96, 183-217), the
    kernel value exp(-d/2) rounded to float for a squared distance d (steps/Interpolate.cc:41-45) *)
Record arith (V W : Type) := {
  vzero : V; vnan : V; vadd : V -> V -> V; vscale : V -> W -> V; vdiv : V -> W -> V; finite : V -> bool;
  wzero : W; wadd : W -> W -> W; wis0 : W -> bool; gauss : Z -> W }.
Arguments vzero {V W}. Arguments vnan {V W}. Arguments vadd {V W}. Arguments vscale {V W}. Arguments vdiv {V W}.
Arguments finite {V W}. Arguments wzero {V W}. Arguments wadd {V W}. Arguments wis0 {V W}. Arguments gauss {V W}.

(** The number of baselines, channels and correlations (data_shape, steps/Interpolate.cc:132-136) and the window size (31) *)
Record shape := { nbl : nat; nch : nat; npol : nat; window : nat }.

(** One sample of a time slot: steps/Interpolate.h:58-69 (struct Sample) without the time step *)
Record sample := { bl : nat; ch : nat; pol : nat }.

(** A DPBuffer: data and flags in (baseline, channel, correlation) order (steps/Interpolate.cc:91-92, 187-192); the rest
    [meta] is passed on unchanged *)
Record buf (V M : Type) := { data : list V; flags : list bool; meta : M }.
Arguments data {V M}. Arguments flags {V M}. Arguments meta {V M}. Arguments Build_buf {V M}.

Section Interpolate.
Context {V W M : Type} (A : arith V W) (G : shape).
(** The order in which samples are taken from the lane by the threads (steps/Interpolate.cc:140-142, 160-167) *)
Variable sched : list (buf V M) -> list sample -> list sample.
(** Not in the code: the rest of a buffer outside the list; the loops stay inside (theorem C32_stream) *)
Variable m0 : M.
Notation buf := (buf V M).

(** steps/Interpolate.cc:32-34: even window sizes are rejected *)
Definition accepts : bool := window G mod 2 =? 1.

(** steps/Interpolate.cc:36-47: the table of kernel values, one row per time offset *)
Definition kernel_lookup : list W :=
  flat_map (fun t => map (fun c =>
    let y := (Z.of_nat t - Z.of_nat (window G / 2))%Z in let x := (Z.of_nat c - Z.of_nat (window G / 2))%Z in
    gauss A (x * x + y * y)%Z) (seq 0 (window G))) (seq 0 (window G)).

(** steps/Interpolate.cc:187-192, 209-212: position of a sample in a buffer *)
Definition index (b c p : nat) : nat := (b * nch G + c) * npol G + p.

(** steps/Interpolate.cc:174-175, 178-179: first of the window around [x] *)
Definition w_begin (x : nat) : nat := if window G / 2 <? x then x - window G / 2 else 0.
(** steps/Interpolate.cc:176-177, 180-181: one past the last of the window around [x], of [n] *)
Definition w_end (x n : nat) : nat := Nat.min (x + window G / 2 + 1) n.

(** steps/Interpolate.cc:172-204.  Not in the code: see [m0] above *)
Definition no_buf : buf := Build_buf [] [] m0.

(** steps/Interpolate.cc:196-204: one channel of the inner loop *)
Definition accumulate (bufs : list buf) (timestep channel b p t : nat) (acc : V * W) (c : nat) : V * W :=
  let x := nth t bufs no_buf in
  if nth (index b c p) (flags x) true then acc
  else let w := nth (window G * (t + window G / 2 - timestep) + (c + window G / 2 - channel)) kernel_lookup (wzero A) in
       (vadd A (fst acc) (vscale A (nth (index b c p) (data x) (vzero A)) w), wadd A (snd acc) w).

(** steps/Interpolate.cc:174-206: the sums over the window *)
Definition window_sums (bufs : list buf) (timestep b channel p : nat) : V * W :=
  let tb := w_begin timestep in let te := w_end timestep (length bufs) in
  let cb := w_begin channel in let ce := w_end channel (nch G) in
  fold_left (fun acc t => fold_left (accumulate bufs timestep channel b p t) (seq cb (ce - cb)) acc)
            (seq tb (te - tb)) (vzero A, wzero A).

(** steps/Interpolate.cc:213-217: the new value *)
Definition new_value (s : V * W) : V := if wis0 A (snd s) then vnan A else vdiv A (fst s) (snd s).

(** steps/Interpolate.cc:169-218 (interpolateSample) *)
Definition interpolate_sample (timestep : nat) (bufs : list buf) (s : sample) : list buf :=
  let x := nth timestep bufs no_buf in
  let v := new_value (window_sums bufs timestep (bl s) (ch s) (pol s)) in
  set_nth bufs timestep (Build_buf (set_nth (data x) (index (bl s) (ch s) (pol s)) v) (flags x) (meta x)).

(** steps/Interpolate.cc:144-154: the flagged samples of a time slot; the flag pointer goes through the buffer in order *)
Definition flagged_samples (x : buf) : list sample :=
  flat_map (fun b => flat_map (fun c => flat_map (fun p =>
    if nth (index b c p) (flags x) false then [{| bl := b; ch := c; pol := p |}] else [])
    (seq 0 (npol G))) (seq 0 (nch G))) (seq 0 (nbl G)).

(** steps/Interpolate.cc:131-158 (interpolateTimestep) *)
Definition interpolate_timestep (bufs : list buf) (timestep : nat) : list buf :=
  fold_left (interpolate_sample timestep) (sched bufs (flagged_samples (nth timestep bufs no_buf))) bufs.

(** steps/Interpolate.cc:90-102: flags cleared, values that are not finite set to zero and flagged *)
Definition clean (x : buf) : buf :=
  Build_buf (map (fun v => if finite A v then v else vzero A) (data x)) (map (fun v => negb (finite A v)) (data x)) (meta x).

(** steps/Interpolate.h:72-73: the buffers kept and the number of them interpolated; [sent] is what went to the next step *)
Record state := { bufs : list buf; pos : nat; sent : list buf }.
(** steps/Interpolate.cc:30 *)
Definition init : state := {| bufs := []; pos := 0; sent := [] |}.

(** steps/Interpolate.cc:69-72, 116-119: interpolate [n] slots from position [i] on *)
Definition interpolate_from (l : list buf) (i n : nat) : list buf := fold_left interpolate_timestep (seq i n) l.

(** steps/Interpolate.cc:83-110 (sendFrontBufferToNextStep); on an empty deque the code is undefined, it is not called then *)
Definition send_front (s : state) : state :=
  match bufs s with
  | [] => s
  | x :: r => {| bufs := r; pos := pos s - 1; sent := sent s ++ [clean x] |}
  end.

(** steps/Interpolate.cc:61-81 (process) *)
Definition process (s : state) (x : buf) : state :=
  let l := bufs s ++ [x] in
  if window G <=? length l then
    let n := window G / 2 + 1 - pos s in
    send_front {| bufs := interpolate_from l (pos s) n; pos := pos s + n; sent := sent s |}
  else {| bufs := l; pos := pos s; sent := sent s |}.

(** steps/Interpolate.cc:112-127 (finish) *)
Definition finish (s : state) : state :=
  let n := length (bufs s) - pos s in
  let s1 := {| bufs := interpolate_from (bufs s) (pos s) n; pos := pos s + n; sent := sent s |} in
  Nat.iter (length (bufs s1)) send_front s1.

(** base/DP3.cc:387-398: all time slots of a run through the step *)
Definition run (xs : list buf) : list buf := sent (finish (fold_left process xs init)).
End Interpolate.
