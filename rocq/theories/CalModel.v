(** Model of steps/GainCal.cc: from the buffers of a solution interval to the arrays of the estimation (StefModel), and from the gains to the solutions and the corrected data.
    Numbers are real numbers, as in StefModel. *)
From Coq Require Import Reals List Arith Bool.
From Verif Require Import RealCplx AverageModel StefModel.
Import ListNotations.
Open Scope R_scope.

(** steps/GainCal.h: the settings; the baselines are those of getAnt1() and getAnt2() after the antennaMap() of GainCal.cc:572-573 *)
Record setting := Setting { baselines : list (nat * nat); selected : nat -> bool; n_corr : nat; n_channels : nat; cell_chan : nat; stations : nat; interval : nat;
  s_mode : mode; s_scalar : bool; s_tolerance : R; s_detect : bool }.
(** base/DPBuffer.h: what is used of a buffer, by baseline, channel and correlation; only the flag of the first correlation is (GainCal.cc:579) *)
Record slot := Slot { data : nat -> nat -> nat -> rc; model : nat -> nat -> nat -> rc; weight : nat -> nat -> nat -> R; flag : nat -> nat -> bool }.

(** steps/GainCal.cc:214-218: itsNFreqCells *)
Definition n_cells (s : setting) : nat :=
  let n := (n_channels s / cell_chan s)%nat in if (cell_chan s * n <? n_channels s)%nat then S n else n.
(** steps/GainCal.cc:252-258: chMax for a cell; it is decreased for the last one only *)
Definition cell_size (s : setting) (f : nat) : nat :=
  if (n_channels s <? (f + 1) * cell_chan s)%nat then (cell_chan s - ((f + 1) * cell_chan s) mod n_channels s)%nat else cell_chan s.
(** steps/GainCal.cc:282-284 *)
Definition cell_config (s : setting) (f : nat) : config := Config (stations s) (interval s) (cell_size s f) (s_mode s) (s_scalar s) (s_tolerance s) (s_detect s).

(** * Filling the arrays *)

(** steps/GainCal.cc:596-610: the arrays of all cells, by cell and position: those of the data and of the model *)
Definition arrays := (nat -> nat -> rc * rc)%type.
(** steps/GainCal.cc:596-610: assignment to an element of both *)
Definition put (a : arrays) (f k : nat) (v : rc * rc) : arrays := fun f' k' => if ((f' =? f) && (k' =? k))%nat%bool then v else a f' k'.
(** steps/GainCal.cc:593: n_crDiv *)
Definition cr_div (s : setting) : nat := if (n_corr s =? 4)%nat then 2 else 1.
(** steps/GainCal.cc:589-610: one correlation.  The axes of the spans are in the reverse order of those of the casacore arrays *)
Definition fill_corr (s : setting) (b : slot) (time ch bl a1 a2 : nat) (a : arrays) (cr : nat) : arrays :=
  let c := cell_config s (ch / cell_chan s) in
  let w := sqrt (weight b bl ch cr) in
  let first := (cr / cr_div s)%nat in let second := (cr mod 2)%nat in
  let a := put a (ch / cell_chan s) (position c a1 first time (ch mod cell_chan s) second a2)
               (rscale w (data b bl ch cr), rscale w (model b bl ch cr)) in
  put a (ch / cell_chan s) (position c a2 second time (ch mod cell_chan s) first a1)
      (rscale w (rconj (data b bl ch cr)), rscale w (rconj (model b bl ch cr))).
(** steps/GainCal.cc:567-611: one baseline.  No station is flagged while an interval is being filled (GainCal.cc:444) *)
Definition fill_baseline (s : setting) (b : slot) (time ch : nat) (a : arrays) (bl : nat) : arrays :=
  if negb (selected s bl) then a
  else
    let '(a1, a2) := nth bl (baselines s) (0, 0)%nat in
    if ((a1 =? a2)%nat || flag b bl ch)%bool then a
    else fold_left (fill_corr s b time ch bl a1 a2) (seq 0 (n_corr s)) a.
(** steps/GainCal.cc:549-612 (fillMatrices); [order] is the order in which the threads come to the channels *)
Definition fill (s : setting) (order : list nat) (b : slot) (time : nat) (a : arrays) : arrays :=
  fold_left (fun a ch => fold_left (fill_baseline s b time ch) (seq 0 (length (baselines s))) a) order a.
(** steps/GainCal.cc:441-454: the time slots of an interval, one after the other; each has its own order *)
Definition fill_all (s : setting) (l : list (list nat * slot)) : arrays :=
  fst (fold_left (fun '(a, time) '(order, b) => (fill s order b time a, S time)) l (fun _ _ => (rc0, rc0), 0%nat)).

(** * Solutions *)

(** steps/GainCal.cc:799: the transpose of a matrix *)
Definition transposed (cr : nat) : nat := match cr with 1%nat => 2%nat | 2%nat => 1%nat | _ => cr end.
(** steps/GainCal.cc:796-817: the solution of a station for one cell; [None] is not a number *)
Definition solution (c : config) (st : state) (ant cr : nat) : option rc :=
  match c_mode c with
  | FullJones => option_map (fun g => rconj (g (transposed cr))) (get_solution c st ant)
  | _ => if scalar c then option_map (fun g => rconj (g 0%nat)) (get_solution c st ant)
         else option_map (fun g => rconj (g 0%nat)) (get_solution c st (ant + n_st c * cr)%nat)
  end.
(** steps/GainCal.cc:496-515, steps/ApplyCal.cc:182-192: a quotient; it is finite only if the divisor is not zero *)
Definition reciprocal (x : rc) : option rc := if Req_EM_T (rabs x) 0 then None else Some (rinv x).
(** steps/GainCal.cc:496-515 (invertSol), steps/ApplyCal.cc:182-192 (invert) *)
Definition invert (c : config) (sol : nat -> option rc) (cr : nat) : option rc :=
  match c_mode c with
  | FullJones =>
    match sol 0%nat, sol 1%nat, sol 2%nat, sol 3%nat with
    | Some v0, Some v1, Some v2, Some v3 =>
      match reciprocal (rsub (rmul v0 v3) (rmul v1 v2)) with
      | Some inv_det => Some (match cr with 0%nat => rmul v3 inv_det | 1%nat => rmul v1 (ropp inv_det) | 2%nat => rmul v2 (ropp inv_det) | _ => rmul v0 inv_det end)
      | None => None
      end
    | _, _, _, _ => None
    end
  | _ => match sol cr with Some x => reciprocal x | None => None end
  end.
(** aocommon/matrix2x2.h: the product of matrices, in the order of the rows *)
Definition times (a b : nat -> rc) (k : nat) : rc :=
  radd (rmul (a (2 * (k / 2))%nat) (b (k mod 2)%nat)) (rmul (a (2 * (k / 2) + 1)%nat) (b (2 + k mod 2)%nat)).
(** aocommon/matrix2x2.h: the conjugate transpose *)
Definition herm (a : nat -> rc) (k : nat) : rc := rconj (a (transposed k)).
(** aocommon/matrix2x2diag.h: a diagonal matrix *)
Definition diagonal (a : nat -> rc) (k : nat) : rc := match k with 0%nat => a 0%nat | 3%nat => a 1%nat | _ => rc0 end.
(** steps/GainCal.cc:517-545 (applySolution) for one sample, steps/ApplyCal.cc:112-229 (ApplyDiag, ApplyScalar, ApplyFull); [None] is a sample that is flagged and left as it is.
    The code always takes four correlations (asserted at ApplyCal.cc:34) *)
Definition apply_sample (s : setting) (ga gb : nat -> option rc) (v : nat -> rc) : outcome (option (nat -> rc)) :=
  if negb (n_corr s =? 4)%nat then Undefined
  else
    match s_mode s with
    | FullJones =>
      match ga 0%nat, ga 1%nat, ga 2%nat, ga 3%nat, gb 0%nat, gb 1%nat, gb 2%nat, gb 3%nat with
      | Some a0, Some a1, Some a2, Some a3, Some b0, Some b1, Some b2, Some b3 =>
        let a k := nth k [a0; a1; a2; a3] rc0 in let b k := nth k [b0; b1; b2; b3] rc0 in Ok (Some (times (times a v) (herm b)))
      | _, _, _, _, _, _, _, _ => Ok None
      end
    | _ =>
      if s_scalar s then
        match ga 0%nat, gb 0%nat with
        | Some a, Some b => Ok (Some (fun k => rmul (v k) (rmul a (rconj b))))
        | _, _ => Ok None
        end
      else
        match ga 0%nat, ga 1%nat, gb 0%nat, gb 1%nat with
        | Some a0, Some a1, Some b0, Some b1 =>
          let a k := nth k [a0; a1] rc0 in let b k := nth k [b0; b1] rc0 in Ok (Some (times (times (diagonal a) v) (herm (diagonal b))))
        | _, _, _, _ => Ok None
        end
    end.
(** steps/GainCal.cc:517-545: the correction of one sample with the states of the cells *)
Definition correct (s : setting) (states : nat -> state) (b : slot) (bl ch : nat) : outcome (option (nat -> rc)) :=
  let f := (ch / cell_chan s)%nat in let c := cell_config s f in
  let '(a1, a2) := nth bl (baselines s) (0, 0)%nat in
  apply_sample s (invert c (solution c (states f) a1)) (invert c (solution c (states f) a2)) (data b bl ch).

(** * Solution intervals *)
Section Step.
(** A buffer, a set of solutions and what stays in the algorithms from one interval to the next *)
Variables buf sols memory : Type.
(** steps/GainCal.cc:441-459: filling and calibrating *)
Variable calibrate : memory -> list buf -> memory * sols.
(** steps/GainCal.cc:517-545 *)
Variable apply_solution : buf -> sols -> buf.
(** itsApplySolution; the solution interval as it is in the parset, and the number of times *)
Variables (apply : bool) (asked n_times : nat).
(** steps/GainCal.cc:201-203: itsSolInt *)
Definition sol_interval : nat := if (asked =? 0)%nat then n_times else asked.

(** steps/GainCal.h:121-144: the memory (algorithms_), the buffers of this interval (itsBuffers), those that were handed to the next step, and all solutions (itsSols) *)
Record step_state := StepState { kept : memory; pending : list buf; out : list buf; all_sols : list sols }.
(** steps/GainCal.cc:462-474, 1310-1323: the end of an interval *)
Definition end_interval (st : step_state) : step_state :=
  let (m, sol) := calibrate (kept st) (pending st) in
  StepState m [] (out st ++ if apply then map (fun b => apply_solution b sol) (pending st) else []) (all_sols st ++ [sol]).
(** steps/GainCal.cc:381-494 (process).  The buffers are kept in a vector that is as long as the interval of the parset (GainCal.cc:165-167) *)
Definition process (st : step_state) (b : buf) : outcome step_state :=
  if (apply && (asked <=? length (pending st))%nat)%bool then Undefined
  else
    let st := StepState (kept st) (pending st ++ [b]) (out st) (all_sols st) in
    let st := if (length (pending st) =? sol_interval)%nat then end_interval st else st in
    Ok (if apply then st else StepState (kept st) (pending st) (out st ++ [b]) (all_sols st)).
(** steps/GainCal.cc:1307-1353 (finish) *)
Definition finish (st : step_state) : step_state := if (length (pending st) =? 0)%nat then st else end_interval st.
(** steps/GainCal.cc:381-494, 1307-1353: a whole run *)
Definition run (m : memory) (l : list buf) : outcome step_state :=
  match fold_left (fun o b => match o with Ok st => process st b | o => o end) l (Ok (StepState m [] [] [])) with Ok st => Ok (finish st) | o => o end.
End Step.
