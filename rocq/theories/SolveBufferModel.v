(** Model of the buffer between BDA input and the solver: ddecal/gain_solvers/BdaSolverBuffer.cc and .h, and of its use in steps/BdaDdeCal.cc.
    Times are exact numbers.  Assertions are not there, as in a release build. *)
From Coq Require Import QArith Qround Qcanon List Bool Arith ZArith.
From Verif Require Import QcUtil InfoModel AverageModel.
Import ListNotations.
Open Scope nat_scope.

(** base/BdaBuffer.h:27-42 (Row): what the buffer looks at; [cells]: the visibilities, flags and weights *)
Record row (X : Type) := Row { baseline : nat; time : Qc; width : Qc; cells : X }.
Arguments Row {X}. Arguments baseline {X}. Arguments time {X}. Arguments width {X}. Arguments cells {X}.

Section Buffer.
Context {B X : Type}.
(** BdaSolverBuffer.h:188-191 (InputData): the rows of a buffer, and the rest of it *)
Record buffer := Buffer { content : B; rows : list (row X) }.
(** BdaSolverBuffer.h:26-37 (IntervalRow): the buffer that is pointed into, and the row *)
Definition interval_row : Type := B * row X.

(** BdaSolverBuffer.h:200-201: time_start_, time_interval_ *)
Record setup := Setup { start : Qc; duration : Qc }.
(** BdaSolverBuffer.h:193-213: data_, done_, current_interval_, last_complete_interval_per_baseline_, data_rows_ *)
Record state := State { data : list buffer; done : list buffer; current : Z; last_complete : list Z; data_rows : list (list interval_row) }.

(** BdaSolverBuffer.h:45-56: the constructor *)
Definition init (n_baselines : nat) : state := State [] [] 0 (repeat (-1)%Z n_baselines) [[]].

(** BdaSolverBuffer.h:171-174: the floor of the quotient; conversion to int does not overflow *)
Definition index (c : setup) (t : Qc) : Z := Qfloor (this ((t - start c) / duration c)%Qc).
(** BdaSolverBuffer.h:171-174 (RelativeIndex) *)
Definition relative (c : setup) (s : state) (t : Qc) : Z := (index c t - current s)%Z.

(** BdaSolverBuffer.cc:137-140: empty intervals are added until number [k] exists *)
Definition extend (k : nat) (l : list (list interval_row)) : list (list interval_row) := l ++ repeat [] (S k - length l).

(** BdaSolverBuffer.cc:133-161: one row of a buffer.  A negative number becomes a very large one: the loop adds intervals until memory is full;
    here Undefined. *)
Definition append_row (c : setup) (b : B) (s : state) (r : row X) : outcome state :=
  let k := relative c s (time r) in
  if (k <? 0)%Z then Undefined
  else
    let k := Z.to_nat k in
    let l := extend k (data_rows s) in
    let l := set_nth l k (nth k l [] ++ [(b, r)]) in
    let f := relative c s (time r - half * width r)%Qc in
    match nth_error (last_complete s) (baseline r) with
    | None => Undefined
    | Some lc => if (f <? lc)%Z then Throw
                 else Ok (State (data s) (done s) (current s) (set_nth (last_complete s) (baseline r) (f - 1)%Z) l)
    end.
(** BdaSolverBuffer.cc:60-162: the loop over the rows *)
Fixpoint append_rows (c : setup) (b : B) (s : state) (l : list (row X)) : outcome state :=
  match l with
  | [] => Ok s
  | r :: l => match append_row c b s r with Ok s => append_rows c b s l | o => o end
  end.
(** BdaSolverBuffer.cc:29-166 (AppendAndWeight), without the weighting *)
Definition append (c : setup) (s : state) (b : buffer) : outcome state :=
  match append_rows c (content b) s (rows b) with
  | Ok s => Ok (State (data s ++ [b]) (done s) (current s) (last_complete s) (data_rows s))
  | o => o
  end.

(** BdaSolverBuffer.cc:168-177 (Clear) *)
Definition clear (s : state) : state := State [] [] (current s) (last_complete s) [[]].

(** BdaSolverBuffer.cc:190-195: all rows are before the current interval *)
Definition all_old (c : setup) (current : Z) (b : buffer) : bool := forallb (fun r => index c (time r) - current <? 0)%Z (rows b).
(** BdaSolverBuffer.cc:188-203: the buffers that are released, and those that stay *)
Fixpoint release (c : setup) (current : Z) (l : list buffer) : list buffer * list buffer :=
  match l with
  | [] => ([], [])
  | b :: l' => if all_old c current b then let (d, k) := release c current l' in (b :: d, k) else ([], l)
  end.
(** BdaSolverBuffer.cc:179-204 (AdvanceInterval) *)
Definition advance (c : setup) (s : state) : state :=
  let l := match tl (data_rows s) with [] => [[]] | l => l end in
  let cur := (current s + 1)%Z in
  let (d, k) := release c cur (data s) in
  State k (done s ++ d) cur (map (fun z => z - 1)%Z (last_complete s)) l.

(** BdaSolverBuffer.h:144-148 (GetDone) *)
Definition get_done (s : state) : state * list buffer := (State (data s) [] (current s) (last_complete s) (data_rows s), done s).

(** BdaSolverBuffer.h:84-87 (IntervalIsComplete): std::min_element of no elements is the end; reading it is undefined *)
Definition complete (s : state) : outcome bool :=
  match last_complete s with [] => Undefined | z :: l => Ok (0 <=? fold_left Z.min l z)%Z end.
(** BdaSolverBuffer.h:108-110 (GetIntervalRows) *)
Definition interval_rows (s : state) : list interval_row := nth 0 (data_rows s) [].

(** * Histories of calls *)
(** BdaSolverBuffer.h:62-148: the calls that change the buffer *)
Inductive call := Append (b : buffer) | Advance | GetDone | Clear.
(** BdaSolverBuffer.h:62-148: a call; second: the buffers that it returns *)
Definition do_call (c : setup) (s : state) (o : call) : outcome (state * list buffer) :=
  match o with
  | Append b => match append c s b with Ok s => Ok (s, []) | Throw => Throw | Undefined => Undefined end
  | Advance => Ok (advance c s, [])
  | GetDone => Ok (get_done s)
  | Clear => Ok (clear s, [])
  end.
(** BdaSolverBuffer.h:62-148: calls after another, with all buffers that are returned *)
Fixpoint do_calls (c : setup) (s : state) (l : list call) : outcome (state * list buffer) :=
  match l with
  | [] => Ok (s, [])
  | o :: l =>
      match do_call c s o with
      | Ok (s, d) => match do_calls c s l with Ok (s, d') => Ok (s, d ++ d') | o => o end
      | o => o
      end
  end.

(** * The step *)
(** steps/BdaDdeCal.cc:525-533: the buffer, the intervals that are solved and the buffers that are sent on *)
Record step := Step { solver_buffer : state; solved : list (list interval_row); sent : list buffer }.

(** steps/BdaDdeCal.cc:531-534: SolveCurrentInterval and AdvanceInterval while the interval is complete.  Every turn subtracts one from the minimum, which is
    the number of turns. *)
Fixpoint solve_complete (c : setup) (fuel : nat) (p : step) : outcome step :=
  match complete (solver_buffer p) with
  | Ok true =>
      match fuel with
      | O => Undefined
      | S fuel => solve_complete c fuel (Step (advance c (solver_buffer p)) (solved p ++ [interval_rows (solver_buffer p)]) (sent p))
      end
  | Ok false => Ok p
  | Throw => Throw
  | Undefined => Undefined
  end.
(** steps/BdaDdeCal.cc:805-829 (ProcessDone), without the subtraction *)
Definition process_done (p : step) : step :=
  let (s, d) := get_done (solver_buffer p) in Step s (solved p) (sent p ++ d).
(** steps/BdaDdeCal.cc:522-529: the buffers that have the visibilities of all directions *)
Fixpoint append_all (c : setup) (s : state) (l : list buffer) : outcome state :=
  match l with
  | [] => Ok s
  | b :: l => match append c s b with Ok s => append_all c s l | o => o end
  end.
(** steps/BdaDdeCal.cc:520-536 *)
Definition process (c : setup) (p : step) (l : list buffer) : outcome step :=
  match append_all c (solver_buffer p) l with
  | Ok s =>
      match solve_complete c (S (Z.to_nat (fold_left Z.max (last_complete s) 0%Z))) (Step s (solved p) (sent p)) with
      | Ok p => Ok (process_done p)
      | o => o
      end
  | Throw => Throw
  | Undefined => Undefined
  end.
(** steps/BdaDdeCal.cc:794-797: while there are buffers; at most all intervals *)
Fixpoint solve_rest (c : setup) (fuel : nat) (p : step) : outcome step :=
  match data (solver_buffer p), fuel with
  | [], _ => Ok p
  | _, O => Undefined
  | _, S fuel => solve_rest c fuel (Step (advance c (solver_buffer p)) (solved p ++ [interval_rows (solver_buffer p)]) (sent p))
  end.
(** steps/BdaDdeCal.cc:793-798 (finish), after the last of the buffers *)
Definition finish (c : setup) (p : step) : outcome step :=
  match solve_rest c (length (data_rows (solver_buffer p))) p with Ok p => Ok (process_done p) | o => o end.
(** base/DP3.cc:387-398, steps/BdaDdeCal.cc:452, 790: the buffers come in any groups, as the steps that predict the visibilities may hold them back *)
Fixpoint run (c : setup) (p : step) (l : list (list buffer)) : outcome step :=
  match l with
  | [] => finish c p
  | bs :: l => match process c p bs with Ok p => run c p l | o => o end
  end.
End Buffer.
Arguments buffer : clear implicits. Arguments interval_row : clear implicits. Arguments state : clear implicits.
Arguments call : clear implicits. Arguments step : clear implicits.
