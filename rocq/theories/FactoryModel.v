(** Model of how DDECal makes its solver and the constraints of it from the settings: base/CalType.cc, base/CalType.h, ddecal/Settings.cc and ddecal/SolverFactory.cc, as called from steps/DDECal.cc.  Positions, distances and factors are real numbers. *)
From Coq Require Import Ascii String Reals ZArith List Bool Arith.
From Verif Require Import AverageModel StrModel PatternModel ConstrModel.
Import ListNotations.
Open Scope nat_scope.

(** * The names of modes and algorithms *)

(** base/CalType.h:11-29 *)
Inductive mode := Scalar | ScalarAmplitude | ScalarPhase | Diagonal | DiagonalAmplitude | DiagonalPhase | FullJones | Tec | TecAndDelay | TecAndPhase | TecPhaseAndDelay | TecScreen
  | RotationAndDiagonal | Rotation | FaradayRotation | Leakage | LeakageAmplitude.
(** ddecal/Settings.h:20-27 *)
Inductive algorithm := AntennaSolve | LowRank | DirectionSolve | DirectionIterative | HybridSolve | Lbfgs.
(** ddecal/Settings.h:29 *)
Inductive data_use := Single | Dual | Full.

(** base/CalType.cc:10-48 (StringToCalType) *)
Definition to_mode (s : string) : outcome mode :=
  let is t := String.eqb s t in
  (if is "diagonal" || is "complexgain" then Ok Diagonal
  else if is "diagonalphase" || is "phaseonly" then Ok DiagonalPhase
  else if is "diagonalamplitude" || is "amplitudeonly" then Ok DiagonalAmplitude
  else if is "scalar" || is "scalarcomplexgain" || is "scalarcomplex" then Ok Scalar
  else if is "scalaramplitude" then Ok ScalarAmplitude
  else if is "scalarphase" then Ok ScalarPhase
  else if is "tec" then Ok Tec
  else if is "tec+delay" then Ok TecAndDelay
  else if is "tec+phase" || is "tecandphase" then Ok TecAndPhase
  else if is "tec+phase+delay" then Ok TecPhaseAndDelay
  else if is "tecscreen" then Ok TecScreen
  else if is "fulljones" then Ok FullJones
  else if is "rotation+diagonal" then Ok RotationAndDiagonal
  else if is "rotation" then Ok Rotation
  else if is "faradayrotation" then Ok FaradayRotation
  else if is "leakage" then Ok Leakage
  else if is "leakageamplitude" then Ok LeakageAmplitude
  else Throw)%string%bool.
(** base/CalType.cc:50-90 (ToString) *)
Definition of_mode (m : mode) : string :=
  match m with
  | Diagonal => "diagonal" | Scalar => "scalarcomplexgain" | FullJones => "fulljones" | DiagonalPhase => "diagonalphase" | ScalarPhase => "scalarphase"
  | DiagonalAmplitude => "diagonalamplitude" | ScalarAmplitude => "scalaramplitude" | Tec => "tec" | TecAndDelay => "tec+delay" | TecAndPhase => "tec+phase"
  | TecPhaseAndDelay => "tec+phase+delay" | TecScreen => "tecscreen" | Rotation => "rotation" | RotationAndDiagonal => "rotation+diagonal" | FaradayRotation => "faraday"
  | Leakage => "leakage" | LeakageAmplitude => "leakageamplitude"
  end%string.
(** boost::to_lower_copy of one character, in the C locale; used in ddecal/Settings.cc:32 *)
Definition lower_char (c : ascii) : ascii := let n := nat_of_ascii c in if (65 <=? n) && (n <=? 90) then ascii_of_nat (n + 32) else c.
(** boost::to_lower_copy; used in ddecal/Settings.cc:32, 51 and 114 *)
Fixpoint lower (s : string) : string := match s with EmptyString => EmptyString | String c s => String (lower_char c) (lower s) end.
(** ddecal/Settings.cc:113-114: the mode of the settings *)
Definition read_mode (s : string) : outcome mode := to_mode (lower s).
(** ddecal/Settings.cc:31-48 (ParseSolverAlgorithm) *)
Definition read_algorithm (s : string) : outcome algorithm :=
  let is t := String.eqb (lower s) t in
  (if is "antennasolve" then Ok AntennaSolve else if is "lowrank" then Ok LowRank else if is "directionsolve" then Ok DirectionSolve
  else if is "directioniterative" then Ok DirectionIterative else if is "hybrid" then Ok HybridSolve else if is "lbfgs" then Ok Lbfgs else Throw)%string.
(** ddecal/Settings.cc:88-104 (ToString) *)
Definition of_algorithm (a : algorithm) : string :=
  match a with AntennaSolve => "antennasolve" | LowRank => "lowrank" | DirectionSolve => "directionsolve" | DirectionIterative => "directioniterative" | HybridSolve => "hybrid" | Lbfgs => "LBFGS" end%string.
(** ddecal/Settings.cc:50-63 (ParseSolverDataUse) *)
Definition read_data_use (s : string) : outcome data_use :=
  let is t := String.eqb (lower s) t in
  (if is "single" then Ok Single else if is "dual" then Ok Dual else if is "full" then Ok Full else Throw)%string.

(** * The solver *)

(** base/CalType.h:37-62 (GetNPolarizations) *)
Definition n_polarizations (m : mode) : nat :=
  match m with
  | Diagonal | DiagonalPhase | DiagonalAmplitude => 2
  | FullJones | RotationAndDiagonal | Rotation | FaradayRotation | Leakage | LeakageAmplitude => 4
  | Scalar | ScalarAmplitude | ScalarPhase | Tec | TecAndDelay | TecAndPhase | TecPhaseAndDelay | TecScreen => 1
  end.
(** The classes of solvers (ddecal/SolverFactory.cc:8-22); LBFGSSolver is for a number of polarizations *)
Inductive kind := IterativeScalar (d : data_use) | DirectScalar | IterativeDiagonal (d : data_use) | IterativeDiagonalCuda | DirectDiagonal | AntennaDiagonal | LowRankDiagonal | IterativeFull | DirectFull | LbfgsSolver (n : nat).
(** NSolutionPolarizations of the classes: ScalarSolver.h:19, IterativeScalarSolver.h:24, DiagonalSolver.h:21, IterativeDiagonalSolver.h:21, IterativeDiagonalSolverCuda.h:27, DiagonalAntennaSolver.h:23, DiagonalLowRankSolver.h:63, FullJonesSolver.h:19, IterativeFullJonesSolver.h:23, LBFGSSolver.h:54-64 (ddecal/gain_solvers) *)
Definition kind_polarizations (k : kind) : nat :=
  match k with
  | IterativeScalar _ | DirectScalar => 1
  | IterativeDiagonal _ | IterativeDiagonalCuda | DirectDiagonal | AntennaDiagonal | LowRankDiagonal => 2
  | IterativeFull | DirectFull => 4
  | LbfgsSolver n => n
  end.
(** The constraints (ddecal/SolverFactory.cc:24-36), with those of their settings that are modelled here: the factors per antenna, and whether a phase offset is fitted too *)
Inductive constr := CAntenna | CInterval (factors : list Z) | CSmooth | CAmplitude | CTec (approximate with_offset : bool) | CTecDelay (with_offset : bool) | CRotationDiagonal | CRotation | CFaraday | CLeakage.
(** The settings that ddecal/SolverFactory.cc uses (ddecal/Settings.h:130-240), and how DP3 was built (HAVE_LIBDIRAC, HAVE_CUDA_SOLVER) *)
Record settings := Settings {
  s_mode : mode; s_algorithm : algorithm; s_data_use : data_use; s_use_gpu : bool; s_max_iterations : nat;
  s_core : R; s_groups : list (list (list ascii)); s_averaging : list (list ascii); s_smoothness : R; s_approximate_tec : bool;
  s_ref_distance : R; s_ref_antenna : list ascii; s_antenna_smoothness : list (list ascii);
  has_libdirac : bool; has_cuda : bool }.
(** A solver: its class, whether it solves for phases only, its maximum number of iterations and its constraints (ddecal/gain_solvers/SolverBase.h:89-120) *)
Record solver := Solver { v_kind : kind; v_phase_only : bool; v_max_iterations : nat; v_constraints : list constr }.

(** ddecal/SolverFactory.cc:49-83 (CreateScalarSolver); for the hybrid algorithm the result is a null pointer, which is used afterwards *)
Definition scalar_solver (a : algorithm) (s : settings) : outcome kind :=
  match a with
  | DirectionIterative => Ok (IterativeScalar (s_data_use s))
  | DirectionSolve => Ok DirectScalar
  | AntennaSolve | LowRank => Throw
  | Lbfgs => if has_libdirac s then Ok (LbfgsSolver 1) else Throw
  | HybridSolve => Undefined
  end.
(** ddecal/SolverFactory.cc:86-145 (CreateDiagonalSolver) *)
Definition diagonal_solver (a : algorithm) (s : settings) : outcome kind :=
  if s_use_gpu s then
    if has_cuda s then match a, s_data_use s with DirectionIterative, Full => Ok IterativeDiagonalCuda | _, _ => Throw end else Throw
  else
    match a with
    | DirectionIterative => match s_data_use s with Single => Throw | d => Ok (IterativeDiagonal d) end
    | DirectionSolve => Ok DirectDiagonal
    | AntennaSolve => Ok AntennaDiagonal
    | LowRank => Ok LowRankDiagonal
    | Lbfgs => if has_libdirac s then Ok (LbfgsSolver 2) else Throw
    | HybridSolve => Undefined
    end.
(** ddecal/SolverFactory.cc:148-174 (CreateFullJonesSolver) *)
Definition full_solver (a : algorithm) (s : settings) : outcome kind :=
  match a with
  | DirectionIterative => Ok IterativeFull
  | DirectionSolve => Ok DirectFull
  | AntennaSolve | LowRank => Throw
  | Lbfgs => if has_libdirac s then Ok (LbfgsSolver 4) else Throw
  | HybridSolve => Undefined
  end.

(** ddecal/SolverFactory.cc:197-274: the constraints of a mode; the screen fitter is not built (the code for it refers to names that do not exist) *)
Definition mode_constraints (s : settings) : outcome (list constr) :=
  match s_mode s with
  | Scalar | Diagonal | FullJones | ScalarPhase | DiagonalPhase => Ok []
  | ScalarAmplitude | DiagonalAmplitude => Ok [CAmplitude]
  | Tec => Ok [CTec (s_approximate_tec s) false]
  | TecAndPhase => Ok [CTec (s_approximate_tec s) true]
  | TecAndDelay => Ok [CTecDelay false]
  | TecPhaseAndDelay => Ok [CTecDelay true]
  | TecScreen => Throw
  | RotationAndDiagonal => Ok [CRotationDiagonal]
  | Rotation => Ok [CRotation]
  | FaradayRotation => Ok [CFaraday]
  | Leakage => Ok [CLeakage]
  | LeakageAmplitude => Ok [CAmplitude; CLeakage]
  end.
(** Whether a number is zero, for example ddecal/SolverFactory.cc:178 *)
Definition is_zero (r : R) : bool := if Req_EM_T r 0 then true else false.
(** Whether a list is empty, for example ddecal/SolverFactory.cc:178 *)
Definition empty {A} (l : list A) : bool := match l with [] => true | _ => false end.
(** ddecal/SolverFactory.cc:178-196 (AddConstraints): the constraints that do not depend on the mode *)
Definition common_constraints (s : settings) (stations : list (list ascii)) : outcome (list constr) :=
  let antenna := if negb (is_zero (s_core s)) || negb (empty (s_groups s)) then [CAntenna] else [] in
  let smooth := if negb (is_zero (s_smoothness s)) then [CSmooth] else [] in
  if empty (s_averaging s) then Ok (antenna ++ smooth)
  else
    match parse_values name_matches stream_size (s_averaging s) stations (repeat 1%Z (length stations)) with
    | None => Throw
    | Some factors => Ok (antenna ++ [CInterval factors] ++ smooth)
    end.
(** ddecal/SolverFactory.cc:291-332: the class of the solver and whether it solves for phases only *)
Definition mode_solver (s : settings) (a : algorithm) : outcome (kind * bool) :=
  let with_phase b r := match r with Ok k => Ok (k, b) | Throw => Throw | Undefined => Undefined end in
  match s_mode s with
  | Scalar | ScalarAmplitude => with_phase false (scalar_solver a s)
  | ScalarPhase | Tec | TecAndDelay | TecAndPhase | TecPhaseAndDelay => with_phase true (scalar_solver a s)
  | Diagonal | DiagonalAmplitude => with_phase false (diagonal_solver a s)
  | DiagonalPhase => with_phase true (diagonal_solver a s)
  | FullJones | RotationAndDiagonal | Rotation | FaradayRotation | Leakage | LeakageAmplitude => with_phase false (full_solver a s)
  | TecScreen => Throw
  end.
(** ddecal/SolverFactory.cc:287-339 (CreateSolver for an algorithm).  The assertion of InitializeSolver (277) on the number of polarizations is a condition for use. *)
Definition create_for (s : settings) (a : algorithm) (stations : list (list ascii)) : outcome solver :=
  match mode_solver s a with
  | Throw => Throw | Undefined => Undefined
  | Ok (k, phase_only) =>
    match common_constraints s stations with
    | Throw => Throw | Undefined => Undefined
    | Ok common =>
      match mode_constraints s with
      | Throw => Throw | Undefined => Undefined
      | Ok own => if kind_polarizations k =? n_polarizations (s_mode s) then Ok (Solver k phase_only (s_max_iterations s) (common ++ own)) else Undefined
      end
    end
  end.
(** ddecal/SolverFactory.cc:504-528 (CreateSolver): the solvers that run one after the other, with constraints (ConstraintSolvers); one, but two for the hybrid algorithm.  AddSolver (ddecal/gain_solvers/HybridSolver.cc:13-22) throws for different numbers of polarizations. *)
Definition create (s : settings) (stations : list (list ascii)) : outcome (list solver) :=
  match s_algorithm s with
  | HybridSolve =>
    match create_for s DirectionSolve stations with
    | Throw => Throw | Undefined => Undefined
    | Ok a =>
      let a := Solver (v_kind a) (v_phase_only a) (Nat.max 1 (s_max_iterations s / 6)) (v_constraints a) in
      match create_for s DirectionIterative stations with
      | Throw => Throw | Undefined => Undefined
      | Ok b => if kind_polarizations (v_kind a) =? kind_polarizations (v_kind b) then Ok [a; b] else Throw
      end
    end
  | a => match create_for s a stations with Ok v => Ok [v] | Throw => Throw | Undefined => Undefined end
  end.

(** * Initialization of the constraints *)

(** A position (std::array<double, 3>, ddecal/SolverFactory.cc:352) *)
Definition position : Type := R * R * R.
(** ddecal/SolverFactory.cc:360-363 *)
Definition dist_squared (a b : position) : R :=
  let '(ax, ay, az) := a in let '(bx, by_, bz) := b in ((ax - bx) * (ax - bx) + (ay - by_) * (ay - by_) + (az - bz) * (az - bz))%R.
(** ddecal/SolverFactory.cc:350-370 (DetermineCoreAntennas) *)
Definition core_antennas (core : R) (positions : list position) : list nat :=
  match positions with
  | [] => []
  | ref :: _ => filter (fun ant => if Rle_dec (dist_squared ref (nth ant positions ref)) (core * core) then true else false) (seq 0 (length positions))
  end.
(** The equality of names, for std::find in ddecal/SolverFactory.cc:397 *)
Fixpoint name_eqb (a b : list ascii) : bool :=
  match a, b with [], [] => true | x :: a, y :: b => Ascii.eqb x y && name_eqb a b | _, _ => false end.
(** std::find in ddecal/SolverFactory.cc:397 and 453: the number of the first element *)
Fixpoint find_name (name : list ascii) (names : list (list ascii)) : option nat :=
  match names with [] => None | n :: rest => if name_eqb n name then Some 0 else option_map S (find_name name rest) end.
(** std::set of names (ddecal/Settings.cc:353, ddecal/SolverFactory.cc:383): only without duplicates; its order, which has no effect, is not modelled *)
Fixpoint name_set (names : list (list ascii)) : list (list ascii) :=
  match names with [] => [] | n :: rest => if existsb (name_eqb n) rest then name_set rest else n :: name_set rest end.
(** ddecal/Settings.cc:346-366 (ReadAntennaConstraint): a group with one name is refused.  A group is given as the list of names that the parset gives. *)
Definition read_groups (groups : list (list (list ascii))) : outcome (list (list (list ascii))) :=
  if existsb (fun g => length (name_set g) =? 1) groups then Throw else Ok (map name_set groups).
(** ddecal/SolverFactory.cc:381-410 (InitializeAntennaConstraint): for a set of names *)
Definition name_groups (groups : list (list (list ascii))) (names : list (list ascii)) : outcome (list (list nat)) :=
  if existsb (fun g => length g <=? 1) groups then Throw
  else Ok (map (fun g => flat_map (fun name => match find_name name names with Some i => [i] | None => [] end) g) groups).
(** ddecal/SolverFactory.cc:548-558: the sets of antennas of the AntennaConstraint; names and positions are those of the antennas that are used *)
Definition antenna_sets (s : settings) (names : list (list ascii)) (positions : list position) : outcome (list (list nat)) :=
  if empty (s_groups s) then Ok [core_antennas (s_core s) positions] else name_groups (s_groups s) names.

(** steps/DDECal.cc:193 and 361-373, ddecal/SolverFactory.cc:182-191 and 539-543: the factors are read for all antennas, and the constraint is initialized for those that are used *)
Definition interval_factors (items : list (list ascii)) (all_names used_names : list (list ascii)) (subs : list nat) : outcome (list Z) :=
  match parse_values name_matches stream_size items all_names (repeat 1%Z (length all_names)) with
  | None => Throw
  | Some factors => match check_factors (map Z.to_nat factors) (length used_names) subs with Ok _ => Ok factors | Throw => Throw | Undefined => Undefined end
  end.

Section Smoothness.
(** operator>> for a double, in common/ValuePerStationParsing.h:93-95 *)
Variable stream_double : list ascii -> R.

(** ddecal/SolverFactory.cc:469-477: the factor of an antenna that is not the reference; None if the division is by zero *)
Definition distance_factor (ref_distance : R) (ref pos : position) : option R :=
  if Req_EM_T (sqrt (dist_squared ref pos)) 0 then None else Some (ref_distance / sqrt (dist_squared ref pos))%R.
(** ddecal/SolverFactory.cc:464-481: the factors, with zero for the reference, and their maximum; [i] is the number of the first of [positions] *)
Fixpoint distance_factors (ref_distance : R) (ref_index : nat) (ref : position) (i : nat) (positions : list position) (max_factor : R) : option (list R * R) :=
  match positions with
  | [] => Some ([], max_factor)
  | pos :: rest =>
    let this := if i =? ref_index then Some (0%R, max_factor) else option_map (fun f => (f, Rmax f max_factor)) (distance_factor ref_distance ref pos) in
    match this with
    | None => None
    | Some (f, m) => option_map (fun r => (f :: fst r, snd r)) (distance_factors ref_distance ref_index ref (S i) rest m)
    end
  end.
(** An element of a vector is replaced; ddecal/SolverFactory.cc:484 *)
Definition set_nth {A} (i : nat) (x : A) (l : list A) : list A := firstn i l ++ x :: skipn (S i) l.
(** ddecal/SolverFactory.cc:444-485: before the factors of the user.  Undefined: a division by zero, or an element outside of the vector. *)
Definition prepared_factors (ref_distance : R) (ref_antenna : list ascii) (positions : list position) (names : list (list ascii)) : outcome (list R) :=
  if Req_EM_T ref_distance 0 then Ok (repeat 1%R (length positions))
  else
    let index := match ref_antenna with [] => Some 0 | _ => find_name ref_antenna names end in
    match index with
    | None => Throw
    | Some index =>
      match nth_error positions index with
      | None => Undefined
      | Some ref =>
        match distance_factors ref_distance index ref 0 positions 0%R with
        | None => Undefined
        | Some (factors, max_factor) => Ok (set_nth index max_factor factors)
        end
      end
    end.
(** ddecal/SolverFactory.cc:439-502 (CalculateAntennaSmoothnessFactors) *)
Definition smoothness_factors (ref_distance : R) (ref_antenna : list ascii) (positions : list position) (items : list (list ascii)) (names : list (list ascii)) : outcome (list R) :=
  match prepared_factors ref_distance ref_antenna positions names with
  | Throw => Throw | Undefined => Undefined
  | Ok prepared =>
    if empty items then Ok prepared
    else
      match parse_values name_matches stream_double items names (repeat 1%R (length names)) with
      | None => Throw
      | Some values =>
        if existsb (fun v => if Rlt_dec v 0 then true else false) values then Throw
        else if length prepared <? length values then Undefined
        else Ok (map (fun p => (fst p * snd p)%R) (combine prepared values) ++ skipn (length values) prepared)
      end
  end.
End Smoothness.
