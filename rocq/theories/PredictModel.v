(** Model of steps/OnePredict.cc: how the contributions of all sources are added, with the beam of each patch, by several threads (PredictSourceRange, PredictWithSourceParallelization,
    addBeamToData); what becomes of the input visibilities (process); and steps/H5ParmPredict.cc.  Numbers are exact.  The visibilities of a source (base/Simulator.cc, see SimulateModel.v) and the
    beam of a patch (ComputeBeam, see BeamModel.v) are parameters. *)
From Coq Require Import String List Bool Arith QArith Qcanon.
From Verif Require Import QcUtil Cplx InfoModel AverageModel GainModel BeamModel.
Import ListNotations.
Open Scope nat_scope.

Section Sum.
(** The value of a baseline and channel: one complex number if all sources are unpolarized, else four (OnePredict.cc:549-554) *)
Context {V B S : Type}.
(** xtensor: zero and sum *)
Variables (v0 : V) (vadd : V -> V -> V).
(** steps/ApplyBeam.cc:171-206 (ApplyBeamToDataAndAdd), 499-532 (ApplyArrayFactorAndAdd): a visibility with the beams of the two antennas *)
Variable seen : B -> V -> B -> V.
(** base/DPInfo.h: the antennas of the baselines *)
Variable antennas : nat -> nat * nat.
(** OnePredict.cc:681-714: ComputeBeam or ComputeArrayFactor for a time and the direction of the patch with the given index; for each antenna and channel *)
Variable response : Qc -> nat -> nat -> nat -> B.
(** OnePredict.h:184, parset: usebeammodel and beam_interval *)
Variables (use_beam : bool) (interval : Qc).
(** OnePredict.cc:173-174: the components with the indices of their patches, patch after patch *)
Variable sources : list (S * nat).

(** OnePredict.cc:549-562: visibilities for each baseline and channel; all arrays have the same shape *)
Definition values := nat -> nat -> V.
(** base/PredictBuffer.h:19-56: the beam values of a thread for its patches *)
Definition beams := list (nat -> nat -> B).

(** base/PredictBuffer.h:21-37 (Resize): the values of elements that are new do not matter *)
Definition resize (n : nat) (fill : nat -> nat -> B) (l : beams) : beams := firstn n l ++ repeat fill (n - length l).
(** OnePredict.cc:681-714 (addBeamToData): [time] is that for which the beam is to be made, if it is *)
Definition add_beam (time : option Qc) (b : beams) (k patch : nat) (model patch_model : values) : outcome (beams * values) :=
  let! old := get b k in
  let table := match time with Some t => response t patch | None => old end in
  Ok (set_nth b k table, fun bl ch => vadd (model bl ch) (seen (table (fst (antennas bl)) ch) (patch_model bl ch) (table (snd (antennas bl)) ch))).
(** OnePredict.cc:592-621: the sources of a range one after the other; [first] is the index of the first patch, [patch] that of the last source *)
Fixpoint source_loop (sim : S -> values) (time : option Qc) (first : nat) (l : list (S * nat)) (b : beams) (model patch_model : values) (patch : option nat) : outcome (beams * values) :=
  match l with
  | [] => match patch with Some p => if use_beam then add_beam time b (p - first) p model patch_model else Ok (b, model) | None => Ok (b, model) end
  | (s, p) :: l =>
      let! (b, model, patch_model) :=
        match patch with
        | Some p' => if use_beam && negb (p =? p') then let! (b, model) := add_beam time b (p' - first) p' model patch_model in Ok (b, model, fun _ _ => v0) else Ok (b, model, patch_model)
        | None => Ok (b, model, patch_model)
        end in
      let add (m : values) : values := fun bl ch => vadd (m bl ch) (sim s bl ch) in
      if use_beam then source_loop sim time first l b model (add patch_model) (Some p) else source_loop sim time first l b (add model) patch_model (Some p)
  end.
(** OnePredict.cc:543-626 (PredictSourceRange): the sources from [start], [n] of them *)
Definition source_range (start n : nat) : list (S * nat) := firstn n (skipn start sources).
(** OnePredict.cc:543-626 (PredictSourceRange): what is added to the result.  A new beam is made for all patches of the range; the size is that of the buffer then. *)
Definition predict_range (sim : S -> values) (time : option Qc) (start n : nat) (b : beams) : outcome (beams * values) :=
  match source_range start n with
  | [] => Undefined
  | (_, first) :: _ =>
      let l := source_range start n in
      let b := match time with Some t => if use_beam then resize (last (map snd l) first + 1 - first) (response t first) b else b | None => b end in
      source_loop sim time first l b (fun _ _ => v0) (fun _ _ => v0) None
  end.
(** schaapcommon::StaticFor: the ranges with their threads, in the order in which the threads add their sums (OnePredict.cc:623-625, 659-669) *)
Fixpoint predict_ranges (sim : S -> values) (time : option Qc) (ranges : list (nat * nat * nat)) (buffers : list beams) (result : values) : outcome (list beams * values) :=
  match ranges with
  | [] => Ok (buffers, result)
  | (start, n, thread) :: ranges =>
      let! b := get buffers thread in
      let! (b, v) := predict_range sim time start n b in
      predict_ranges sim time ranges (set_nth buffers thread b) (fun bl ch => vadd (result bl ch) (v bl ch))
  end.
(** OnePredict.cc:640-652: the beam is made anew if the last time is at least the interval away *)
Definition beam_time (previous time : Qc) : option Qc :=
  if use_beam && negb (qltb (qabs (time - previous)%Qc) interval) then Some (time + half * interval)%Qc else None.
(** OnePredict.cc:628-672 (PredictWithSourceParallelization); the state has the last time at which the beam was made (OnePredict.h:185) and the beams *)
Definition predict (state : Qc * list beams) (time : Qc) (sim : S -> values) (ranges : list (nat * nat * nat)) : outcome (Qc * list beams * values) :=
  let '(previous, buffers) := state in
  let t := beam_time previous time in
  let! (buffers, v) := predict_ranges sim t ranges buffers (fun _ _ => v0) in
  Ok (match t with Some _ => time | None => previous end, buffers, v).
(** base/DP3.cc:387-398: all time slots *)
Fixpoint predict_all (state : Qc * list beams) (slots : list (Qc * (S -> values) * list (nat * nat * nat))) : outcome (list values) :=
  match slots with
  | [] => Ok []
  | (time, sim, ranges) :: slots => let! (state, v) := predict state time sim ranges in let! l := predict_all state slots in Ok (v :: l)
  end.
End Sum.

(** OnePredict.cc:456-480 (CopyPredictBufferToData): the four correlations of an unpolarized value *)
Definition unpolarized (v : cplx) : mat := Mat v c0 c0 v.

(** * The step *)

(** OnePredict.h: Operation *)
Inductive operation := ReplaceBy | Add | Subtract.
(** OnePredict.cc:350-362 (SetOperation) *)
Definition parse_operation (s : string) : outcome operation :=
  if String.eqb s "replace" then Ok ReplaceBy else if String.eqb s "add" then Ok Add else if String.eqb s "subtract" then Ok Subtract else Throw.
(** Visibilities with a row for each baseline and a cell for each channel; an array without elements has no rows *)
Notation cube := (list (list mat)).
(** base/DPBuffer.h: main and named visibilities *)
Record buffer := Buf { b_main : cube; b_named : list (string * cube) }.
(** OnePredict.cc:529-533 with xtensor: sum and difference of arrays *)
Definition cube_op (f : mat -> mat -> mat) (a b : cube) : cube := map (fun x => map (fun y => f (fst y) (snd y)) (combine (fst x) (snd x))) (combine a b).
(** base/DPBuffer.cc:119-123 (AddData) and OnePredict.cc:513-518: named visibilities are made or made anew *)
Definition put (name : string) (c : cube) (b : buffer) : buffer := Buf (b_main b) ((name, c) :: filter (fun x => negb (String.eqb (fst x) name)) (b_named b)).
(** base/DPBuffer.h (GetData): the data with a name, or the main data *)
Definition take (name : string) (b : buffer) : cube :=
  if String.eqb name "" then b_main b else match find (fun x => String.eqb (fst x) name) (b_named b) with Some (_, c) => c | None => [] end.

(** steps/OneApplyCal.cc:527-560 (CorrectionLoop): the main visibilities are corrected, as many baselines and channels as there are.  The correction itself (see ApplyCalModel.v) is a parameter. *)
Definition correct_main (f : nat -> nat -> mat -> mat) (b : buffer) : buffer :=
  Buf (map (fun x => map (fun y => f (fst x) (fst y) (snd y)) (combine (seq 0 (length (snd x))) (snd x))) (combine (seq 0 (length (b_main b))) (b_main b))) (b_named b).
(** OnePredict.cc:482-541 (process): [predicted] are the visibilities made in lines 505-522, [cal] the step applycal, if there is one, [name] outputmodelname *)
Definition one_predict (op : operation) (name : string) (cal : option (nat -> nat -> mat -> mat)) (predicted : cube) (b : buffer) : buffer :=
  let named := negb (String.eqb name "") in
  let taken := match op with ReplaceBy => named | _ => true end in
  let input := b_main b in
  let b := if taken then Buf [] (b_named b) else b in
  let b := if named then put name predicted b else Buf predicted (b_named b) in
  let b := match cal with Some f => correct_main f b | None => b end in
  let data := match op with ReplaceBy => take name b | Add => cube_op madd (take name b) input | Subtract => cube_op msub input (take name b) end in
  if named then Buf input (b_named (put name data b)) else Buf data (b_named b).
(** steps/H5ParmPredict.cc:74-79: the operation of the step for direction [i] *)
Definition direction_operation (op : operation) (i : nat) : operation := match op with ReplaceBy => if 0 <? i then Add else ReplaceBy | _ => op end.
(** steps/H5ParmPredict.cc:60-87, 117-126: a step for each direction, one after the other *)
Fixpoint h5_predict (op : operation) (i : nat) (name : string) (l : list ((nat -> nat -> mat -> mat) * cube)) (b : buffer) : buffer :=
  match l with
  | [] => b
  | (f, predicted) :: l => h5_predict op (S i) name l (one_predict (direction_operation op i) name (Some f) predicted b)
  end.

(** steps/H5ParmPredict.cc:45-59: the directions that are asked for, or all; each has to be in the file *)
Definition h5_directions (in_file asked : list string) : outcome (list string) :=
  match in_file with
  | [] => Throw
  | _ => match asked with [] => Ok in_file | _ => if forallb (fun d => existsb (String.eqb d) in_file) asked then Ok asked else Throw end
  end.
(** common/ParameterSet.h: a parameter with a boolean value, if it is given *)
Definition parset := string -> option bool.
(** OnePredict.cc:167-171, 186-197 (SetApplyCal): [prefix] is that of the step; whether there is an exception *)
Definition refuses_weights (p : parset) (prefix : string) (op : operation) : bool :=
  let prefix := (prefix ++ "applycal.")%string in
  match op with ReplaceBy => false | _ => match p (prefix ++ "applycal.updateweights")%string with Some v => v | None => false end end.
(** steps/OneApplyCal.cc:61-63: the parameter of the step applycal, whose prefix is that of the step with "applycal." *)
Definition updates_weights (p : parset) (prefix : string) : bool :=
  match p (prefix ++ "applycal." ++ "updateweights")%string with Some v => v | None => false end.
