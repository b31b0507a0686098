(** Model of steps/MadFlagger.cc: window sizes, the circular buffer of time slots, the channel window, the selection of
    correlations, the median factors and the flagging of one baseline.  Amplitudes and medians are exact numbers. *)
From Coq Require Import List Bool Arith ZArith QArith Qcanon.
From Verif Require Import QcUtil AverageModel MedianModel InfoModel.
Import ListNotations.
Open Scope nat_scope.

(** * Window sizes *)
(** steps/MadFlagger.cc:486-489: [r] is int(result + 0.5) *)
Definition freq_window (r maxnchan : Z) : Z :=
  let w := Z.min (Z.max 1 r) maxnchan in if (w mod 2 =? 0)%Z then (w - 1)%Z else w.
(** steps/MadFlagger.cc:494-500 *)
Definition time_window (r maxntime : Z) : Z :=
  let w := Z.max 1 r in
  let w := if ((0 <? maxntime) && (maxntime <? w))%Z then maxntime else w in
  if (w mod 2 =? 0)%Z then (w - 1)%Z else w.
(** steps/MadFlagger.cc:475, 491, 502: the largest of all baselines *)
Definition max_window (ws : list Z) : Z := fold_left Z.max ws 0%Z.

(** * Time slots *)
(** An entry of itsBuffers and itsAmplitudes: which time slot it holds, and whether its data are still there or have been
    sent on (steps/MadFlagger.cc:304-306) *)
Record cell := { slot : nat; has_data : bool }.
(** One call of flag (steps/MadFlagger.cc:296-395): the slot sent on, whether it had its data, and the slots of the time window, centre first *)
Record event := { sent : nat; complete : bool; used : list nat }.
(** itsBuffers, itsNTimes, itsNTimesDone (steps/MadFlagger.h:117-140); the events in order *)
Record state := { ring : list (option cell); ntimes : nat; ndone : nat; events : list event }.

(** steps/MadFlagger.cc:123, 51-52 *)
Definition init (window : nat) : state := {| ring := repeat None window; ntimes := 0; ndone := 0; events := [] |}.

(** reading entries of itsBuffers in steps/MadFlagger.cc:427; [None]: outside the vector or never filled *)
Fixpoint look (r : list (option cell)) (l : list nat) : option (list nat) :=
  match l with
  | [] => Some []
  | i :: l' => match nth_error r i, look r l' with Some (Some c), Some s => Some (slot c :: s) | _, _ => None end
  end.

(** steps/MadFlagger.cc:296-395 (flag), without the flags themselves *)
Definition flag (s : state) (index : nat) (entries : list nat) : option state :=
  match nth_error (ring s) index, look (ring s) entries with
  | Some (Some c), Some u =>
      Some {| ring := set_nth (ring s) index (Some {| slot := slot c; has_data := false |}); ntimes := ntimes s; ndone := ndone s;
              events := events s ++ [{| sent := slot c; complete := has_data c; used := u |}] |}
  | _, _ => None
  end.

(** steps/MadFlagger.cc:188, 215, 228: std::abs(int(done) - int(i)) *)
Definition absdiff (a b : nat) : nat := Z.to_nat (Z.abs (Z.of_nat a - Z.of_nat b)).

(** steps/MadFlagger.cc:184-191, 211-217 *)
Definition entries (window d : nat) : list nat :=
  d mod window :: flat_map (fun i => [absdiff d i mod window; (d + i) mod window]) (seq 1 (window / 2)).
(** steps/MadFlagger.cc:224-235: mirrored at the end *)
Definition entries_end (window n d : nat) : list nat :=
  d mod window :: flat_map (fun i => [absdiff d i mod window; (if n <=? d + i then 2 * (n - 1) - (d + i) else d + i) mod window])
                           (seq 1 (window / 2)).

(** steps/MadFlagger.cc:156-197 (process) *)
Definition process (window : nat) (s : state) : option state :=
  let index := ntimes s mod window in
  let s1 := {| ring := set_nth (ring s) index (Some {| slot := ntimes s; has_data := true |}); ntimes := ntimes s + 1;
               ndone := ndone s; events := events s |} in
  if window / 2 <? ntimes s1 then
    match flag s1 (ndone s mod window) (entries window (ndone s)) with
    | Some s2 => Some {| ring := ring s2; ntimes := ntimes s2; ndone := ndone s2 + 1; events := events s2 |}
    | None => None
    end
  else Some s1.

(** steps/MadFlagger.cc:209-220: leading entries, [k] of them; here the index is not taken modulo the window *)
Fixpoint leading (window k : nat) (s : state) : option state :=
  match k with
  | O => Some s
  | S k' => match flag s (ndone s) (entries window (ndone s)) with
            | Some s2 => leading window k' {| ring := ring s2; ntimes := ntimes s2; ndone := ndone s2 + 1; events := events s2 |}
            | None => None
            end
  end.
(** steps/MadFlagger.cc:223-238: the remaining entries, [k] of them *)
Fixpoint remaining (window k : nat) (s : state) : option state :=
  match k with
  | O => Some s
  | S k' => match flag s (ndone s mod window) (entries_end window (ntimes s) (ndone s)) with
            | Some s2 => remaining window k' {| ring := ring s2; ntimes := ntimes s2; ndone := ndone s2 + 1; events := events s2 |}
            | None => None
            end
  end.

(** steps/MadFlagger.cc:202-204: the window at the end; without any slot ntimes - 1 wraps and the code goes far out of range *)
Definition final_window (window n : nat) : nat := if n <? window then 1 + (n - 1) / 2 * 2 else window.
(** steps/MadFlagger.cc:199-242 (finish) *)
Definition finish (window : nat) (s : state) : option state :=
  if ntimes s =? 0 then None
  else
    let w := final_window window (ntimes s) in
    match leading w (ntimes s - w / 2 - ndone s) s with
    | Some s1 => remaining w (ntimes s1 - ndone s1) s1
    | None => None
    end.

(** base/DP3.cc:387-398: [n] slots *)
Fixpoint slots (window n : nat) : option state :=
  match n with
  | O => Some (init window)
  | S n' => match slots window n' with Some s => process window s | None => None end
  end.
(** base/DP3.cc:387-398: the events of [n] slots and the end *)
Definition run (window n : nat) : option (list event) :=
  match slots window n with
  | Some s => match finish window s with Some s' => Some (events s') | None => None end
  | None => None
  end.

(** * Channels *)
(** steps/MadFlagger.cc:434, 439: the channels from [s] up to but not including [e] *)
Definition zrange (s e : Z) : list Z := map (fun i => (s + Z.of_nat i)%Z) (seq 0 (Z.to_nat (e - s))).
(** steps/MadFlagger.cc:410-422, 434-443: the channels gathered for channel [chan], window [fw] *)
Definition channels (fw chan nchan : Z) : list Z :=
  let hw := (fw / 2)%Z in
  let s1 := (chan - hw)%Z in let e1 := (chan + hw + 1)%Z in
  if (s1 <? 0)%Z then zrange 0 e1 ++ zrange 1 (- s1 + 1)
  else if (nchan <? e1)%Z then zrange s1 nchan ++ zrange (nchan + nchan - e1 - 1) (nchan - 1)
  else zrange s1 e1 ++ zrange 1 1.

(** * Correlations *)
(** steps/MadFlagger.cc:138-143: reads itsFlagCorr[ip] where ip is itself a value of the list *)
Fixpoint valid_corrs (ncorr : nat) (all l : list nat) : outcome (list nat) :=
  match l with
  | [] => Ok []
  | ip :: r =>
    match nth_error all ip with
    | None => Undefined
    | Some c => match valid_corrs ncorr all r with
                | Ok v => Ok (if c <? ncorr then c :: v else v)
                | e => e
                end
    end
  end.
(** steps/MadFlagger.cc:129-151 *)
Definition flag_corr (ncorr : nat) (l : list nat) : outcome (list nat) :=
  match l with
  | [] => Ok (seq 0 ncorr)
  | _ => match valid_corrs ncorr l l with
         | Ok [] => Ok [0]
         | r => r
         end
  end.

(** * Medians *)
Section Factors.
(** std::nth_element; the amplitudes and flags of one baseline per time slot, channel and correlation *)
Variable sel : nat -> list Qc -> list Qc.
Variables (ampl : nat -> Z -> nat -> Qc) (flagged : nat -> Z -> nat -> bool).

(** steps/MadFlagger.cc:426-444: the unflagged values in the window; [slots_used] are the time slots in the order of the
    time entries, of which the baseline uses the first [tw]; [None]: reads outside the time entries *)
Definition gather (slots_used : list nat) (tw fw : nat) (chan nchan : Z) (corr : nat) : option (list Qc) :=
  if length slots_used <? tw then None
  else Some (flat_map (fun t => flat_map (fun c => if flagged t c corr then [] else [ampl t c corr])
                                         (channels (Z.of_nat fw) chan nchan)) (firstn tw slots_used)).

(** steps/MadFlagger.cc:397-460 (computeFactors): Z1, Z2 and the scratch vector afterwards; [None]: outside a vector.  The
    medians are over the whole scratch vector. *)
Definition compute_factors (slots_used : list nat) (tw fw : nat) (chan nchan : Z) (corr : nat) (scratch : list Qc)
  : option (Qc * Qc * list Qc) :=
  match gather slots_used tw fw chan nchan corr with
  | None => None
  | Some vals =>
    let np := length vals in
    if length scratch <? np then None
    else
      let v := vals ++ skipn np scratch in
      if np =? 0 then Some (Qcopp 1, 0%Qc, v)
      else
        let (z1, v1) := median sel v in
        let absq x := if qltb x 0 then Qcopp x else x in
        let v2 := map (fun x => absq (x - z1)%Qc) (firstn np v1) ++ skipn np v1 in
        let (z2, v3) := median sel v2 in
        Some (z1, z2, v3)
  end.

(** steps/MadFlagger.cc:267-286: the loop over the correlations of one channel of the slot [t] being flagged; [fac] is
    threshold times the constant 1.4826 *)
Fixpoint flag_channel (corrs : list nat) (slots_used : list nat) (tw fw : nat) (fac : Qc) (t : nat) (chan nchan : Z) (scratch : list Qc)
  : option (bool * list Qc) :=
  match corrs with
  | [] => Some (false, scratch)
  | ip :: r =>
    if flagged t chan ip then Some (true, scratch)
    else match compute_factors slots_used tw fw chan nchan ip scratch with
         | None => None
         | Some (z1, z2, scratch') =>
           if qltb (z1 + fac * z2)%Qc (ampl t chan ip) then Some (true, scratch')
           else flag_channel r slots_used tw fw fac t chan nchan scratch'
         end
  end.

(** steps/MadFlagger.cc:260-292: per channel whether all its correlations are set to flagged *)
Fixpoint flag_baseline (corrs : list nat) (slots_used : list nat) (tw fw : nat) (fac : Qc) (t : nat) (chans : list Z) (nchan : Z) (scratch : list Qc)
  : option (list bool * list Qc) :=
  match chans with
  | [] => Some ([], scratch)
  | c :: r =>
    match flag_channel corrs slots_used tw fw fac t c nchan scratch with
    | None => None
    | Some (b, s1) =>
      match flag_baseline corrs slots_used tw fw fac t r nchan s1 with
      | Some (bs, s2) => Some (b :: bs, s2)
      | None => None
      end
    end
  end.
End Factors.

(** * Autocorrelations *)
(** steps/MadFlagger.cc:359-388: one baseline; [auto a] is the baseline of the autocorrelation of an antenna (-1: none),
    [in_range] whether the length of a baseline is within the limits, [fl] the flags so far *)
Definition auto_baseline (auto : nat -> Z) (in_range : nat -> bool) (ant : nat -> nat * nat) (nchan ncorr : nat)
  (fl : nat -> nat -> nat -> bool) (b : nat) : nat -> nat -> nat -> bool :=
  let (a1, a2) := ant b in
  if negb (a1 =? a2) && in_range b then
    let i1 := auto a1 in let i2 := auto a2 in
    if ((0 <=? i1) || (0 <=? i2))%Z then
      let j1 := if (i1 <? 0)%Z then i2 else i1 in
      let j2 := if (i1 <? 0)%Z then i2 else if (i2 <? 0)%Z then i1 else i2 in
      fold_left (fun fl c =>
        if negb (fl b c 0) && (fl (Z.to_nat j1) c 0 || fl (Z.to_nat j2) c 0)
        then (fun b' c' p' => if (b' =? b) && (c' =? c) && (p' <? ncorr) then true else fl b' c' p') else fl)
        (seq 0 nchan) fl
    else fl
  else fl.
(** steps/MadFlagger.cc:357-390 *)
Definition auto_flags auto in_range ant (nbl nchan ncorr : nat) (fl : nat -> nat -> nat -> bool) : nat -> nat -> nat -> bool :=
  fold_left (auto_baseline auto in_range ant nchan ncorr) (seq 0 nbl) fl.
