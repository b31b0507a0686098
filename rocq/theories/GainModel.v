(** Model of one iteration of the iterative gain solvers: ddecal/gain_solvers/IterativeScalarSolver.cc, IterativeDiagonalSolver.cc and IterativeFullJonesSolver.cc.
    The three have the same loops and differ in the type of a solution and in the formulas for a visibility, so there is one model of the loops with the formulas as
    parameters, and one set of formulas for each solver.  Numbers are exact.  A visibility without cross terms (MC2x2FDiag) is a matrix with zeros for these, and a
    single complex visibility is a matrix with three zeros: sums and products keep these zeros. *)
From Coq Require Import QArith Qcanon List Bool Arith ZArith.
From Verif Require Import QcUtil InfoModel AverageModel SolveDataModel Cplx.
Import ListNotations.
Open Scope nat_scope.

(** operator[] of a vector, for example in IterativeScalarSolver.cc:219-220; undefined outside its size *)
Definition get {T} (l : list T) (i : nat) : outcome T := match nth_error l i with Some x => Ok x | None => Undefined end.
(** One statement after another, for example IterativeScalarSolver.cc:219-225; the rest is not done after an exception *)
Definition bind {T U} (o : outcome T) (f : T -> outcome U) : outcome U := match o with Ok x => f x | Throw => Throw | Undefined => Undefined end.
(** The same, IterativeScalarSolver.cc:219-225 *)
Notation "'let!' x ':=' o 'in' k" := (bind o (fun x => k)) (at level 200, x pattern, right associativity).
(** Conversion to uint32_t, as for full_solution_1_index in IterativeScalarSolver.cc:164-165 *)
Definition u32 (x : Z) : Z := (x mod 2 ^ 32)%Z.

Section Solver.
(** VisMatrix; a solution; a numerator with its denominator; a new solution, which may be NaN *)
Context {V S A R : Type}.
(** IterativeScalarSolver.cc:222-225: sum and difference of visibilities *)
Variables vadd vsub : V -> V -> V.
(** IterativeScalarSolver.cc:219-220: the model data with the solutions of the two antennas applied *)
Variable apply : V -> S -> S -> V.
(** IterativeScalarSolver.cc:176-179: zero and sum *)
Variables (a0 : A) (aadd : A -> A -> A).
(** IterativeScalarSolver.cc:159-168: what a visibility adds for antenna 1, from the data, the model data and the solution of antenna 2 *)
Variable contribution_1 : V -> V -> S -> A.
(** IterativeScalarSolver.cc:170-176: what a visibility adds for antenna 2, from the data, the model data and the solution of antenna 1 *)
Variable contribution_2 : V -> V -> S -> A.
(** IterativeScalarSolver.cc:189-192: the new solution *)
Variable divide : A -> R.
(** SolverBase.h:287-295: NAntennas, NSubSolutions *)
Variables n_antennas n_sub : nat.
(** SolveData.h: NSolutionsForDirection, for all directions *)
Variable n_sol : list nat.
(** schaapcommon::RunConstrainedStaticFor: how the visibilities are divided over threads, in the order in which these add their sums, for every direction *)
Variable chunks : nat -> list (V * @visibility V unit) -> list (list (V * @visibility V unit)).

(** IterativeScalarSolver.cc:209-220, SolveData.h:217-232, IterativeFullJonesSolver.cc:205-217: the model data of a direction with the current solutions *)
Definition corrected (sols : list S) (d : nat) (v : @visibility V unit) : outcome V :=
  let! s := get (vis_solutions v) d in
  let! m := get (vis_models v) d in
  let! s1 := get sols (fst (vis_antennas v) * n_sub + s) in
  let! s2 := get sols (snd (vis_antennas v) * n_sub + s) in
  Ok (apply m s1 s2).
(** IterativeScalarSolver.cc:199-229, SolveData.h:205-245, IterativeFullJonesSolver.cc:193-225 (AddOrSubtractDirection): every visibility has its own residual, so
    the threads do not matter *)
Fixpoint add_or_subtract (op : V -> V -> V) (sols : list S) (d : nat) (l : list (V * @visibility V unit)) : outcome (list (V * @visibility V unit)) :=
  match l with
  | [] => Ok []
  | (r, v) :: l => let! c := corrected sols d v in let! l := add_or_subtract op sols d l in Ok ((op r c, v) :: l)
  end.
(** IterativeScalarSolver.cc:166-168: something is added to an element of a vector *)
Definition add_at (acc : list A) (i : Z) (x : A) : outcome (list A) :=
  if (i <? Z.of_nat (length acc))%Z then Ok (set_nth acc (Z.to_nat i) (aadd (nth (Z.to_nat i) acc a0) x)) else Undefined.
(** IterativeScalarSolver.cc:158, 164-165, 172-173: the place of a solution of an antenna; the numbers have 32 bits *)
Definition place (n_dir sol0 antenna s : nat) : Z :=
  let rel := u32 (Z.of_nat s - Z.of_nat sol0) in u32 (Z.of_nat antenna * Z.of_nat n_dir + rel).
(** IterativeScalarSolver.cc:143-176, IterativeDiagonalSolver.cc:155-200, IterativeFullJonesSolver.cc:127-168: the loop over the visibilities in a thread *)
Fixpoint solve_chunk (sols : list S) (d n_dir sol0 : nat) (acc : list A) (l : list (V * @visibility V unit)) : outcome (list A) :=
  match l with
  | [] => Ok acc
  | (r, v) :: l =>
      let! s := get (vis_solutions v) d in
      let! s1 := get sols (fst (vis_antennas v) * n_sub + s) in
      let! s2 := get sols (snd (vis_antennas v) * n_sub + s) in
      let! m := get (vis_models v) d in
      let! acc := add_at acc (place n_dir sol0 (fst (vis_antennas v)) s) (contribution_1 r m s2) in
      let! acc := add_at acc (place n_dir sol0 (snd (vis_antennas v)) s) (contribution_2 r m s1) in
      solve_chunk sols d n_dir sol0 acc l
  end.
(** IterativeScalarSolver.cc:177-181: the sums of a thread are added to the total *)
Fixpoint add_lists (a b : list A) : list A := match a, b with x :: a, y :: b => aadd x y :: add_lists a b | _, _ => [] end.
(** IterativeScalarSolver.cc:137-182: all threads *)
Fixpoint solve_chunks (sols : list S) (d n_dir sol0 : nat) (total : list A) (l : list (list (V * @visibility V unit))) : outcome (list A) :=
  match l with
  | [] => Ok total
  | c :: l => let! local := solve_chunk sols d n_dir sol0 (repeat a0 (n_antennas * n_dir)) c in solve_chunks sols d n_dir sol0 (add_lists total local) l
  end.
(** IterativeScalarSolver.cc:184-194: the new solution of an antenna is written; a solution number outside the array is undefined *)
Definition assign (n_dir sol0 : nat) (total : list A) (next : list R) (p : nat * nat) : outcome (list R) :=
  let s := Z.to_nat (u32 (Z.of_nat (snd p) + Z.of_nat sol0)) in
  if (s <? n_sub) && (fst p * n_sub + s <? length next) then
    let! x := get total (fst p * n_dir + snd p) in Ok (set_nth next (fst p * n_sub + s) (divide x))
  else Undefined.
(** IterativeScalarSolver.cc:184-194: the loops over the antennas and the solutions of a direction *)
Fixpoint assign_all (n_dir sol0 : nat) (total : list A) (next : list R) (l : list (nat * nat)) : outcome (list R) :=
  match l with [] => Ok next | p :: l => let! next := assign n_dir sol0 total next p in assign_all n_dir sol0 total next l end.
(** IterativeScalarSolver.cc:118-195, IterativeDiagonalSolver.cc:130-222, IterativeFullJonesSolver.cc:103-190 (SolveDirection) *)
Definition solve_direction (sols : list S) (d : nat) (l : list (V * @visibility V unit)) (next : list R) : outcome (list R) :=
  let! n_dir := get n_sol d in
  let! first := get l 0 in
  let! sol0 := get (vis_solutions (snd first)) d in
  let! total := solve_chunks sols d n_dir sol0 (repeat a0 (n_antennas * n_dir)) (chunks d l) in
  assign_all n_dir sol0 total next (list_prod (seq 0 n_antennas) (seq 0 n_dir)).
(** IterativeScalarSolver.cc:100-102: all directions are subtracted *)
Fixpoint subtract_all (sols : list S) (ds : list nat) (l : list (V * @visibility V unit)) : outcome (list (V * @visibility V unit)) :=
  match ds with [] => Ok l | d :: ds => let! l := add_or_subtract vsub sols d l in subtract_all sols ds l end.
(** IterativeScalarSolver.cc:106-114: a direction is added again and solved *)
Fixpoint solve_all (sols : list S) (ds : list nat) (l : list (V * @visibility V unit)) (next : list R) : outcome (list R) :=
  match ds with
  | [] => Ok next
  | d :: ds => let! ld := add_or_subtract vadd sols d l in let! next := solve_direction sols d ld next in solve_all sols ds l next
  end.
(** IterativeScalarSolver.cc:92-115, IterativeDiagonalSolver.cc:100-127, IterativeFullJonesSolver.cc:78-101 (PerformIteration), for one channel block; [next]: the
    new solutions before, that is those of the previous iteration *)
Definition perform_iteration (b : list (@visibility V unit)) (sols : list S) (next : list R) : outcome (list R) :=
  let ds := seq 0 (length n_sol) in
  let! l := subtract_all sols ds (map (fun v => (vis_data v, v)) b) in solve_all sols ds l next.
End Solver.

(** * The formulas of the three solvers *)
(** IterativeScalarSolver.cc:166: aocommon::MC2x2: the trace *)
Definition mtrace (a : mat) : cplx := cadd (m0 a) (m3 a).
(** IterativeScalarSolver.cc:220-221: aocommon::MC2x2: product with a number *)
Definition mscale (a : mat) (s : cplx) : mat := Mat (cmul (m0 a) s) (cmul (m1 a) s) (cmul (m2 a) s) (cmul (m3 a) s).
(** IterativeScalarSolver.cc:219-220 *)
Definition scalar_apply (m : mat) (s1 s2 : cplx) : mat := mscale (mscale m s1) (conj s2).
(** IterativeScalarSolver.cc:160-161, 166-168 *)
Definition scalar_1 (r m : mat) (s2 : cplx) : cplx * Qc := let c := mscale (mherm m) s2 in (mtrace (mmul r c), mnorm c).
(** IterativeScalarSolver.cc:171, 174-176 *)
Definition scalar_2 (r m : mat) (s1 : cplx) : cplx * Qc := let c := mscale m s1 in (mtrace (mmul (mherm r) c), mnorm c).
(** IterativeScalarSolver.cc:176-181 *)
Definition scalar_add (a b : cplx * Qc) : cplx * Qc := (cadd (fst a) (fst b), (snd a + snd b)%Qc).
(** IterativeScalarSolver.cc:189-192: None is NaN *)
Definition quotient (n : cplx) (d : Qc) : option cplx := if Qc_eq_dec d 0 then None else Some (cscale (/ d)%Qc n).
(** IterativeScalarSolver.cc:189-192 *)
Definition scalar_divide (a : cplx * Qc) : option cplx := quotient (fst a) (snd a).

(** SolveData.h:226-236 *)
Definition diagonal_apply (m : mat) (s1 s2 : cplx * cplx) : mat :=
  mmul (mmul (mdiag (fst s1) (snd s1)) m) (mherm (mdiag (fst s2) (snd s2))).
(** IterativeDiagonalSolver.cc:20-28 (AddNormToDenominator) *)
Definition column_norms (c : mat) : Qc * Qc := (cnorm (m0 c) + cnorm (m2 c), cnorm (m1 c) + cnorm (m3 c))%Qc.
(** IterativeDiagonalSolver.cc:172-181: the numerators and denominators of both polarizations *)
Definition diagonal_1 (r m : mat) (s2 : cplx * cplx) : (cplx * cplx) * (Qc * Qc) :=
  let c := mmul (mdiag (fst s2) (snd s2)) (mherm m) in let p := mmul r c in ((m0 p, m3 p), column_norms c).
(** IterativeDiagonalSolver.cc:188-197 *)
Definition diagonal_2 (r m : mat) (s1 : cplx * cplx) : (cplx * cplx) * (Qc * Qc) :=
  let c := mmul (mdiag (fst s1) (snd s1)) m in let p := mmul (mherm r) c in ((m0 p, m3 p), column_norms c).
(** IterativeDiagonalSolver.cc:200-204 *)
Definition diagonal_add (a b : (cplx * cplx) * (Qc * Qc)) : (cplx * cplx) * (Qc * Qc) :=
  ((cadd (fst (fst a)) (fst (fst b)), cadd (snd (fst a)) (snd (fst b))), (fst (snd a) + fst (snd b), snd (snd a) + snd (snd b))%Qc).
(** IterativeDiagonalSolver.cc:212-220: each polarization is a number or NaN *)
Definition diagonal_divide (a : (cplx * cplx) * (Qc * Qc)) : option cplx * option cplx :=
  (quotient (fst (fst a)) (fst (snd a)), quotient (snd (fst a)) (snd (snd a))).

(** IterativeFullJonesSolver.cc:215-216 *)
Definition full_apply (m s1 s2 : mat) : mat := mmul s1 (mmul m (mherm s2)).
(** IterativeFullJonesSolver.cc:150-158 *)
Definition full_1 (r m s2 : mat) : mat * mat := let c := mmul s2 (mherm m) in (mmul r c, mmul (mherm c) c).
(** IterativeFullJonesSolver.cc:161-168 *)
Definition full_2 (r m s1 : mat) : mat * mat := let c := mmul s1 m in (mmul (mherm r) c, mmul (mherm c) c).
(** IterativeFullJonesSolver.cc:157, 167, 171-174 *)
Definition full_add (a b : mat * mat) : mat * mat := (madd (fst a) (fst b), madd (snd a) (snd b)).
(** IterativeFullJonesSolver.cc:181-186: None is a matrix of NaN *)
Definition full_divide (a : mat * mat) : option mat := match minvert (snd a) with Some i => Some (mmul (fst a) i) | None => None end.

(** IterativeScalarSolver.cc *)
Definition scalar_iteration := perform_iteration madd msub scalar_apply (c0, 0%Qc) scalar_add scalar_1 scalar_2 scalar_divide.
(** IterativeDiagonalSolver.cc *)
Definition diagonal_iteration := perform_iteration madd msub diagonal_apply ((c0, c0), (0%Qc, 0%Qc)) diagonal_add diagonal_1 diagonal_2 diagonal_divide.
(** IterativeFullJonesSolver.cc *)
Definition full_iteration := perform_iteration madd msub full_apply (mzero, mzero) full_add full_1 full_2 full_divide.
