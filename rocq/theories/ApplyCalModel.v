(** Model of how ApplyCal corrects visibilities: steps/OneApplyCal.cc:397-590 and steps/ApplyCal.cc:112-147, 183-263.  Numbers are exact, but infinity and not-a-number are kept for weights
    and a gain that is not finite is [None].  The gains for given times, antennas and channels (schaapcommon's JonesParameters, which reads and interpolates the solutions) are a parameter. *)
From Coq Require Import List Bool Arith ZArith QArith Qround Qcanon.
From Verif Require Import QcUtil Cplx AverageModel GainModel.
Import ListNotations.
Open Scope nat_scope.

(** steps/ApplyCal.cc:231-263: numbers of weights; there are no negative ones *)
Inductive ext := Fin (x : Qc) | Inf | Nan.
(** steps/ApplyCal.cc:231-263: IEEE 754 product of numbers that are not negative *)
Definition emul (a b : ext) : ext :=
  match a, b with
  | Fin x, Fin y => Fin (x * y)%Qc
  | Fin x, Inf | Inf, Fin x => if Qc_eq_dec x 0 then Nan else Inf
  | Inf, Inf => Inf
  | _, _ => Nan
  end.
(** steps/ApplyCal.cc:231-263: IEEE 754 sum of numbers that are not negative *)
Definition eadd (a b : ext) : ext := match a, b with Fin x, Fin y => Fin (x + y)%Qc | Nan, _ | _, Nan => Nan | _, _ => Inf end.
(** steps/ApplyCal.cc:231-263: IEEE 754 inverse of a number that is not negative *)
Definition einv (a : ext) : ext := match a with Fin x => if Qc_eq_dec x 0 then Inf else Fin (/ x)%Qc | Inf => Fin 0%Qc | Nan => Nan end.
(** base/DPBuffer.h: the weights of a visibility *)
Record weights := Wt { w0 : ext; w1 : ext; w2 : ext; w3 : ext }.
(** base/DPBuffer.h: a visibility: its main data or its data for every direction, its weights and flags *)
Record sample := Sample { vis : list mat; weight : weights; flag : list bool }.

(** steps/ApplyCal.cc:136-147: the weights for diagonal gains *)
Definition diag_weights (a0 a1 b0 b1 : cplx) (w : weights) : weights :=
  let div w a b := emul w (einv (Fin (cnorm a * cnorm b)%Qc)) in
  Wt (div (w0 w) a0 b0) (div (w1 w) a0 b1) (div (w2 w) a1 b0) (div (w3 w) a1 b1).
(** steps/ApplyCal.cc:231-263 (ApplyWeights) *)
Definition full_weights (a b : mat) (w : weights) : weights :=
  let term c x y := emul (einv c) (Fin (cnorm x * cnorm y)%Qc) in
  let sum x0 x1 y0 y1 := einv (eadd (eadd (eadd (term (w0 w) x0 y0) (term (w1 w) x0 y1)) (term (w2 w) x1 y0)) (term (w3 w) x1 y1)) in
  Wt (sum (m0 a) (m1 a) (m0 b) (m1 b)) (sum (m0 a) (m1 a) (m2 b) (m3 b)) (sum (m2 a) (m3 a) (m0 b) (m1 b)) (sum (m2 a) (m3 a) (m2 b) (m3 b)).
(** steps/ApplyCal.cc:119-129, 205-220: a gain is not finite; the second result tells whether the flag counter counts *)
Definition flag_sample (s : sample) : sample * bool := (Sample (vis s) (weight s) (map (fun _ => true) (flag s)), negb (nth 0 (flag s) false)).
(** steps/ApplyCal.cc:131-134: replace an element, if it is there *)
Fixpoint replace {T} (l : list T) (i : nat) (x : T) : list T := match l, i with [], _ => [] | _ :: l, 0 => x :: l | y :: l, S i => y :: replace l i x end.
(** steps/ApplyCal.cc:131-134, 221-224 *)
Definition set_vis (d : nat) (a b : mat) (w : weights) (s : sample) : outcome (sample * bool) :=
  let! v := get (vis s) d in Ok (Sample (replace (vis s) d (mmul (mmul a v) (mherm b))) w (flag s), false).
(** steps/ApplyCal.cc:112-147 (ApplyDiag), for the data of direction [d] *)
Definition apply_diag (upd : bool) (d : nat) (ga gb : list (option cplx)) (s : sample) : outcome (sample * bool) :=
  match ga, gb with
  | a0 :: a1 :: _, b0 :: b1 :: _ =>
      match a0, a1, b0, b1 with
      | Some a0, Some a1, Some b0, Some b1 => set_vis d (mdiag a0 a1) (mdiag b0 b1) (if upd then diag_weights a0 a1 b0 b1 (weight s) else weight s) s
      | _, _, _, _ => Ok (flag_sample s)
      end
  | _, _ => Undefined
  end.
(** steps/ApplyCal.cc:196-229 (ApplyFull), for the data of direction [d] *)
Definition apply_full (upd : bool) (d : nat) (ga gb : list (option cplx)) (s : sample) : outcome (sample * bool) :=
  match ga, gb with
  | a0 :: a1 :: a2 :: a3 :: _, b0 :: b1 :: b2 :: b3 :: _ =>
      match a0, a1, a2, a3, b0, b1, b2, b3 with
      | Some a0, Some a1, Some a2, Some a3, Some b0, Some b1, Some b2, Some b3 =>
          set_vis d (Mat a0 a1 a2 a3) (Mat b0 b1 b2 b3) (if upd then full_weights (Mat a0 a1 a2 a3) (Mat b0 b1 b2 b3) (weight s) else weight s) s
      | _, _, _, _, _, _, _, _ => Ok (flag_sample s)
      end
  | _, _ => Undefined
  end.

Section Step.
(** The gains for a direction, time, antenna and channel: the values of GetParms() of JonesParameters made for that direction and a list with that time *)
Variable jones : nat -> Qc -> nat -> nat -> list (option cplx).
(** The number of antennas and of channels *)
Variables n_ant n_chan : nat.
(** itsTimeSlotsPerParmUpdate, the interval, and the centre of the last time slot *)
Variable per_update : nat.
Variables interval last_centre : Qc.
(** itsUpdateWeights; and the number of directions of model data, if these are corrected; else 1 *)
Variable upd : bool.
Variable n_dir : nat.

(** steps/OneApplyCal.h: itsLastTime, itsTimeStep, and the times for which the gains were made *)
Record state := State { last : Qc; step : nat; times : list Qc }.
(** steps/OneApplyCal.cc:66-69 *)
Definition init : state := State (- (1))%Qc 0 [].
(** steps/OneApplyCal.cc:562-590 (CalculateBufferTimes, for the centres of the time slots): the end of the chunk and its times.  A remainder below one makes the clamp undefined. *)
Definition buffer_times (start : Qc) : outcome (Qc * list Qc) :=
  let first := (start - half * interval)%Qc in
  let last := (first + qn per_update * interval)%Qc in
  let last_ms := (last_centre + half * interval)%Qc in
  let result l n := Ok (l, map (fun t => (start + qn t * interval)%Qc) (seq 0 n)) in
  if qltb last_ms last then
    let remaining := Qfloor (this ((last_ms - first) / interval + half)%Qc) in
    if (remaining <? 1)%Z then Undefined else result last_ms (if per_update <? 1 then 1 else Nat.min per_update (Z.to_nat remaining))
  else result last per_update.
(** steps/OneApplyCal.cc:411-479, 486-508: the gains are made for a new chunk of times, or the next time of the chunk is taken *)
Definition next_time (st : state) (time : Qc) : outcome state :=
  if qltb (last st) time then let! (l, ts) := buffer_times time in Ok (State l 0 ts) else Ok (State (last st) (step st + 1) (times st)).
(** steps/OneApplyCal.cc:529-530, 546-547: the gains of an antenna, for the place in the array of times and channels *)
Definition gains (st : state) (d ant offset : nat) : outcome (list (option cplx)) :=
  if ant <? n_ant then let! t := get (times st) (offset / n_chan) in Ok (jones d t ant (offset mod n_chan)) else Undefined.
(** steps/OneApplyCal.cc:543-557: a channel *)
Definition correct_sample (st : state) (d a b ch : nat) (s : sample) : outcome (sample * bool) :=
  let! ga := gains st d a (step st * n_chan + ch) in
  let! gb := gains st d b (step st * n_chan + ch) in
  if 2 <? length ga then apply_full upd d ga gb s else apply_diag upd d ga gb s.
(** steps/OneApplyCal.cc:543-557: the channels of a baseline from [ch]; the second result has the channels that were counted *)
Fixpoint correct_channels (st : state) (d a b ch : nat) (l : list sample) : outcome (list sample * list nat) :=
  match l with
  | [] => Ok ([], [])
  | s :: l =>
      let! (s, c) := correct_sample st d a b ch s in
      let! (l, cs) := correct_channels st d a b (S ch) l in
      Ok (s :: l, if c then ch :: cs else cs)
  end.
(** steps/OneApplyCal.cc:527-560 (CorrectionLoop): the baselines with their antennas.  Each is treated on its own, so threads make no difference, but for the counts of the channels:
    these are incremented by all threads without a lock. *)
Fixpoint correction_loop (st : state) (d : nat) (baselines : list (nat * nat)) (l : list (list sample)) : outcome (list (list sample) * list (list nat)) :=
  match baselines, l with
  | (a, b) :: baselines, r :: l =>
      let! (r, c) := correct_channels st d a b 0 r in
      let! (l, cs) := correction_loop st d baselines l in
      Ok (r :: l, c :: cs)
  | _, [] => Ok ([], [])
  | [], _ => Undefined
  end.
(** steps/OneApplyCal.cc:511-513: all directions from [d], [n] more *)
Fixpoint correct_all (st : state) (n d : nat) (baselines : list (nat * nat)) (l : list (list sample)) : outcome (list (list sample)) :=
  match n with
  | 0 => Ok l
  | S n => let! (l, _) := correction_loop st d baselines l in correct_all st n (S d) baselines l
  end.
(** steps/OneApplyCal.cc:397-520 (process) *)
Definition process (st : state) (baselines : list (nat * nat)) (time : Qc) (l : list (list sample)) : outcome (state * list (list sample)) :=
  let! st := next_time st time in let! l := correct_all st n_dir 0 baselines l in Ok (st, l).
(** base/DP3.cc:387-398: all time slots *)
Fixpoint process_all (st : state) (baselines : list (nat * nat)) (l : list (Qc * list (list sample))) : outcome (list (list (list sample))) :=
  match l with
  | [] => Ok []
  | (t, x) :: l => let! (st, x) := process st baselines t x in let! l := process_all st baselines l in Ok (x :: l)
  end.
End Step.
