(** Model of the loop of the iterative solvers: ddecal/gain_solvers/SolverBase.cc and .h, the loop in IterativeScalarSolver.cc:51-88, and HybridSolver.cc.
    Numbers are exact; a number that is not finite is None. *)
From Coq Require Import QArith Qcanon List Bool Arith NArith ZArith Lia.
From Verif Require Import QcUtil AverageModel Cplx.
Import ListNotations.
Open Scope nat_scope.

(** * Stalling *)
(** SolverBase.h:357-359: n_var_count_, step_mean_, step_var_; they have no initial value *)
Record stall := Stall { count : nat; mean : Qc; var : Qc }.
(** SolverBase.cc:83-84: m < s sqrt(v), without the root *)
Definition below_root (m s v : Qc) : bool := if qleb 0 s then qltb m 0 || qltb (m * m) (s * s * v) else qltb m 0 && qltb (s * s * v) (m * m).
(** SolverBase.cc:63-86 (DetectStall); [iteration] is at least one *)
Definition detect_stall (sigma : Qc) (st : option stall) (iteration : nat) (step_magnitudes : list Qc) : outcome (option stall * bool) :=
  match nth_error step_magnitudes (iteration - 1) with
  | None => Undefined
  | Some x =>
      let update :=
        if iteration =? 1 then Ok (Stall 1 x 0)
        else match st with
             | None => Undefined
             | Some st =>
                 let n := S (count st) in
                 let delta_1 := (x - mean st)%Qc in
                 let m := (mean st + delta_1 / qn n)%Qc in
                 let delta_2 := (x - m)%Qc in
                 Ok (Stall n m (var st + delta_1 * delta_2)%Qc)
             end in
      match update with
      | Ok st => Ok (Some st, if iteration <? 30 then false else below_root (mean st) sigma (var st / qn (count st))%Qc)
      | Throw => Throw
      | Undefined => Undefined
      end
  end.

(** * The loop *)
(** SolverBase.h:340-346: min_iterations_, max_iterations_, accuracy_, constraint_accuracy_, detect_stalling_, step_diff_sigma_ *)
Record settings := Settings { min_iterations : nat; max_iterations : nat; accuracy : Qc; constraint_accuracy : Qc; detect_stalling : bool; step_diff_sigma : Qc }.
(** SolverBase.h:61-65 (SolveResult), without the results of the constraints *)
Record result := Result { iterations : nat; constraint_iterations : nat }.

Section Loop.
(** The solutions, the next solutions and what the constraints remember *)
Context {S N K : Type}.
(** IterativeScalarSolver.cc:61-73: the solutions are made finite, an iteration is done for all channel blocks, and a step is made *)
Variable next_of : S -> N.
(** SolverBase.cc:174-190 (ApplyConstraints): from has_previously_converged, the iteration and whether it is the last; also gives constraints_satisfied *)
Variable constrain : K -> nat -> bool -> bool -> N -> K * N * bool.
(** SolverBase.cc:223-299: the magnitude of the step from the solutions to the next solutions *)
Variable magnitude : S -> N -> Qc.
(** SolverBase.cc:292-293: the next solutions are copied *)
Variable copy : N -> S.
Variable cfg : settings.

(** SolverBase.h:274-285 (ReachedStoppingCriterion) *)
Definition reached (st : option stall) (iteration : nat) (converged satisfied : bool) (steps : list Qc) : outcome (option stall * bool) :=
  let stalled := if detect_stalling cfg && satisfied then detect_stall (step_diff_sigma cfg) st iteration steps else Ok (st, false) in
  match stalled with
  | Ok (st, has_stalled) => Ok (st, (min_iterations cfg <=? iteration) && ((max_iterations cfg <=? iteration) || (converged && satisfied) || has_stalled))
  | Throw => Throw
  | Undefined => Undefined
  end.
(** SolverBase.cc:192-204 (MakeResult) *)
Definition make_result (iteration : nat) (converged satisfied : bool) : result :=
  Result (if converged && satisfied then iteration else Datatypes.S iteration) (if satisfied then 0 else Datatypes.S iteration).
(** SolverBase.cc:301-306: the end of AssignSolutions *)
Definition has_converged (satisfied : bool) (step : Qc) : bool := if satisfied then qleb step (accuracy cfg) else qleb step (constraint_accuracy cfg).
(** IterativeScalarSolver.cc:51-88 (Solve), with the number of iterations that may still be done, which is always enough; also gives the solutions and whether the last
    iteration has converged with satisfied constraints *)
Fixpoint loop (fuel : nat) (sols : S) (k : K) (st : option stall) (iteration : nat) (previously : bool) (steps : list Qc) : outcome (result * S * bool * option stall) :=
  match fuel with
  | 0 => Undefined
  | Datatypes.S fuel =>
      let next := next_of sols in
      let '(k, next, satisfied) := constrain k iteration previously (max_iterations cfg <=? Datatypes.S iteration) next in
      let step := magnitude sols next in
      let converged := has_converged satisfied step in
      let sols := copy next in
      let steps := steps ++ [step] in
      let iteration := Datatypes.S iteration in
      match reached st iteration converged satisfied steps with
      | Ok (st, true) => Ok (make_result iteration converged satisfied, sols, converged && satisfied, st)
      | Ok (st, false) => loop fuel sols k st iteration (converged || previously) steps
      | Throw => Throw
      | Undefined => Undefined
      end
  end.
(** IterativeScalarSolver.cc:31-89 (Solve); [st]: what the previous call has left *)
Definition solve (sols : S) (k : K) (st : option stall) : outcome (result * S * bool * option stall) :=
  loop (Nat.max 1 (Nat.max (min_iterations cfg) (max_iterations cfg))) sols k st 0 false [].
End Loop.

(** * The step *)
(** SolverBase.cc:110-116 (Step): without phase-only mode *)
Definition step_to (step_size : Qc) (solution : cplx) (next : option cplx) : option cplx :=
  match next with Some n => Some (cadd (cscale (1 - step_size)%Qc solution) (cscale step_size n)) | None => None end.

Section Magnitude.
(** std::abs *)
Variable abs : cplx -> Qc.
Variable step_size : Qc.
(** SolverBase.cc:244-253: what a solution adds to avgAbsDiff and n, for one polarization *)
Definition change1 (s : cplx) (n : option cplx) : Qc * nat :=
  match n with
  | Some n => if Qc_eq_dec (cnorm s) 0 then (0%Qc, 0) else (abs (cmul (csub n s) (cinv s)), 1)
  | None => (0%Qc, 0)
  end.
(** SolverBase.cc:254-269: for two polarizations *)
Definition change2 (s : cplx * cplx) (n : option cplx * option cplx) : Qc * nat :=
  if Qc_eq_dec (cnorm (fst s)) 0 then (0%Qc, 0) else if Qc_eq_dec (cnorm (snd s)) 0 then (0%Qc, 0)
  else match n with
       | (Some n0, Some n1) => ((abs (cmul (csub n0 (fst s)) (cinv (fst s))) + abs (cmul (csub n1 (snd s)) (cinv (snd s))))%Qc, 2)
       | _ => (0%Qc, 0)
       end.
(** SolverBase.cc:270-285: for four; a matrix is finite or not *)
Definition change4 (s : mat) (n : option mat) : Qc * nat :=
  match minvert s, n with
  | Some i, Some n => let r := mmul (msub n s) i in ((abs (m0 r) + abs (m1 r) + abs (m2 r) + abs (m3 r))%Qc, 4)
  | _, _ => (0%Qc, 0)
  end.
(** SolverBase.cc:237-287: the sum over all solutions of all channel blocks *)
Definition total {S N} (change : S -> N -> Qc * nat) (l : list (S * N)) : Qc * nat :=
  fold_left (fun acc p => let c := change (fst p) (snd p) in ((fst acc + fst c)%Qc, snd acc + snd c)) l (0%Qc, 0).
(** SolverBase.cc:297-299: stepMagnitude *)
Definition step_magnitude {S N} (change : S -> N -> Qc * nat) (l : list (S * N)) : Qc :=
  let t := total change l in if snd t =? 0 then 0%Qc else (fst t / step_size / qn (snd t))%Qc.
End Magnitude.

(** * Finite solutions *)
Section Finite.
(** std::abs *)
Variable abs : cplx -> Qc.
(** SolverBase.cc:323-330: the sum of the absolute values and the count; for two and four polarizations (347-356, 380-386) [x] is the first one of each solution *)
Definition sum_abs (l : list cplx) : Qc * nat := fold_left (fun acc x => ((fst acc + abs x)%Qc, S (snd acc))) l (0%Qc, 0).
(** SolverBase.cc:325-330: the solutions that are finite *)
Fixpoint somes {T} (l : list (option T)) : list T := match l with [] => [] | Some x :: l => x :: somes l | None :: l => somes l end.
(** SolverBase.cc:332-335: the average *)
Definition average (l : list cplx) : Qc := let t := sum_abs l in (fst t / qn (snd t))%Qc.
(** SolverBase.cc:317-340 (MakeSolutionsFinite1Pol), for one channel block *)
Definition make_finite1 (l : list (option cplx)) : list cplx :=
  let f := somes l in
  let a := if length f =? 0 then 1%Qc else average f in
  map (fun o => match o with Some x => x | None => C a 0%Qc end) l.
(** SolverBase.cc:342-371 (MakeSolutionsFinite2Pol) *)
Definition make_finite2 (l : list (option cplx * option cplx)) : list (cplx * cplx) :=
  let f := somes (map (fun p => match p with (Some x, Some y) => Some (x, y) | _ => None end) l) in
  let a p := if length f =? 0 then 1%Qc else average (map fst f) in
  map (fun o => match o with (Some x, Some y) => (x, y) | _ => (C (a 0) 0%Qc, C (a 1) 0%Qc) end) l.
(** SolverBase.cc:373-405 (MakeSolutionsFinite4Pol); a matrix is finite if all its elements are *)
Definition make_finite4 (l : list (option mat)) : list mat :=
  let f := somes l in
  let a p := if length f =? 0 then (if (p =? 0) || (p =? 3) then 1%Qc else 0%Qc) else average (map m0 f) in
  map (fun o => match o with Some x => x | None => Mat (C (a 0) 0%Qc) (C (a 1) 0%Qc) (C (a 2) 0%Qc) (C (a 3) 0%Qc) end) l.
End Finite.

(** * Hybrid solver *)
(** HybridSolver.cc:24-63: the solvers have a number of iterations each; [run i n] is what solver [i] does if it may do [n] iterations: the number it did and whether
    it has converged.  size_t wraps at 2^64. *)
Section Hybrid.
Variable run : nat -> N -> N * bool.
(** HybridSolver.cc:25: GetMaxIterations of the hybrid solver, and StopOnConvergence *)
Variables (maximum : N) (stop_on_convergence : bool).
(** HybridSolver.cc:54-59: difference of size_t *)
Definition sub64 (a b : N) : N := Z.to_N ((Z.of_N a - Z.of_N b) mod 2 ^ 64).
(** HybridSolver.cc:29-40, 43-66 (RunSolver); the result is the reported number of iterations and the sum of what was really done *)
Fixpoint hybrid (i : nat) (l : list N) (available reported done : N) (converged : bool) : N * N :=
  match l with
  | [] => (if converged then reported else (maximum + 1)%N, done)
  | m :: l =>
      let m := if (available <? m)%N then available else m in
      let '(n, c) := run i m in
      let next_iterations := if c then n else (n + 1)%N in
      let reported := (reported + next_iterations)%N in
      let is_converged := (next_iterations <=? m)%N in
      let available := if is_converged then sub64 available reported else sub64 available m in
      if is_converged && stop_on_convergence then (reported, (done + n)%N) else hybrid (S i) l available reported (done + n)%N is_converged
  end.
(** HybridSolver.cc:24-41 (Solve) *)
Definition hybrid_solve (l : list N) : N * N := hybrid 0 l maximum 0%N 0%N false.
End Hybrid.
