(** Model of the weighting of visibilities for the solver: ddecal/gain_solvers/SolverTools.cc (regular data) and BdaSolverBuffer.cc (BDA data). *)
From Coq Require Import List Bool Arith.
From Verif Require Import InfoModel.
Import ListNotations.
Open Scope nat_scope.

(** * Regular data *)
Section Regular.
(** SolverTools.cc:48-79: float, its product, zero and std::isfinite *)
Variable F : Type.
Variable mul : F -> F -> F.
Variable zero : F.
Variable finite : F -> bool.
(** SolverTools.cc:134-142: the weights as they are, or their square roots *)
Variable prepare : F -> F.

(** SolverTools.cc:28-32 (DuplicateLow), 38-42 (DuplicateHigh): the lane that is taken, of a batch with [n] lanes *)
Definition duplicate_low (n i : nat) : nat := i / 2.
(** SolverTools.cc:38-42 *)
Definition duplicate_high (n i : nat) : nat := i / 2 + n / 2.
(** SolverTools.cc:65-67: load_aligned of [n] lanes *)
Definition load (n : nat) (l : list F) (at_ : nat) : list F := firstn n (skipn at_ l).
(** SolverTools.cc:68-69: swizzle with a mask, and multiplication of batches *)
Definition swizzle (n : nat) (mask : nat -> nat -> nat) (l : list F) : list F := map (fun i => nth (mask n i) l zero) (seq 0 n).
(** SolverTools.cc:68-69: the product of batches *)
Definition times (a b : list F) : list F := map (fun p => mul (fst p) (snd p)) (combine a b).
(** SolverTools.cc:64-72: one iteration; the floats that are stored at [2 i] and behind *)
Definition batch (n : nat) (input weights : list F) (i : nat) : list F :=
  let w := load n weights i in
  times (load n input (i * 2)) (swizzle n duplicate_low w) ++ times (load n input (i * 2 + n)) (swizzle n duplicate_high w).
(** SolverTools.cc:48-79 (Weigh) for [size] visibilities; [n]: Batch::size *)
Definition weigh (n size : nat) (input weights : list F) : list F :=
  flat_map (fun k => batch n input weights (k * n)) (seq 0 (size / n)) ++
  flat_map (fun i => [mul (nth (i * 2 + 0) input zero) (nth i weights zero); mul (nth (i * 2 + 1) input zero) (nth i weights zero)])
    (seq (size / n * n) (size - size / n * n)).

(** SolverTools.cc:120-129: std::isfinite of a visibility with number [i] *)
Definition finite_vis (l : list F) (i : nat) : bool := finite (nth (i * 2) l zero) && finite (nth (i * 2 + 1) l zero).
(** SolverTools.cc:115-130: the flag for all correlations of sample [s] *)
Definition bad_sample (n_corr : nat) (data : list F) (flags : list bool) (models : list (list F)) (s : nat) : bool :=
  fold_left (fun f cr =>
    let i := s * n_corr + cr in
    fold_left (fun f m => f || negb (finite_vis m i)) models (f || (nth i flags false || negb (finite_vis data i)))) (seq 0 n_corr) false.
(** SolverTools.cc:147-150, 162-163: masked_view: zero where the flag is set *)
Definition masked (n_corr : nat) (bad : list bool) (l : list F) : list F :=
  map (fun p => if nth (fst p / 2 / n_corr) bad false then zero else snd p) (combine (seq 0 (length l)) l).
(** SolverTools.cc:81-167 (AssignAndWeight) for one time step with [n_samples] channels of baselines: the weighted data and model data.  The model data
    is either weighted into another buffer or in place, with the same result. *)
Definition assign_and_weight (n n_corr n_samples : nat) (data weights : list F) (flags : list bool) (models : list (list F)) : list F * list (list F) :=
  let bad := map (bad_sample n_corr data flags models) (seq 0 n_samples) in
  let w := map prepare weights in
  let one l := masked n_corr bad (weigh n (n_samples * n_corr) l w) in
  (one data, map one models).
End Regular.

(** * BDA data *)
Section Bda.
(** BdaSolverBuffer.cc:21-23, 94-110: visibilities, weights, the square root, the product and IsFinite *)
Variables V W R : Type.
Variable scale : V -> R -> V.
Variable root : W -> R.
Variable zero : V.
Variable finite : V -> bool.
Variable w0 : W.

(** BdaSolverBuffer.cc:19: kNCorrelations *)
Definition n_corr : nat := 4.
(** BdaSolverBuffer.cc:107-111, 117-120: the four correlations at [index] of one array; first: is_flagged.  [flag_here]: flag_ptr, no flags for model data *)
Definition weigh4 (flag_here : nat -> bool) (weights : list W) (index : nat) (s : bool * list V) : bool * list V :=
  fold_left (fun (s : bool * list V) cr =>
    let '(f, l) := s in
    let x := nth (index + cr) l zero in
    (f || (negb (finite x) || flag_here cr), set_nth l (index + cr) (scale x (root (nth (index + cr) weights w0))))) (seq 0 n_corr) s.
(** BdaSolverBuffer.cc:113-121: the model data of all directions *)
Fixpoint weigh_models (weights : list W) (index : nat) (f : bool) (models : list (list V)) : bool * list (list V) :=
  match models with
  | [] => (f, [])
  | m :: r => let '(f, m) := weigh4 (fun _ => false) weights index (f, m) in
              let '(f, r) := weigh_models weights index f r in (f, m :: r)
  end.
(** BdaSolverBuffer.cc:126-129: std::fill_n of four elements *)
Definition clear4 (index : nat) (l : list V) : list V := fold_left (fun l cr => set_nth l (index + cr) zero) (seq 0 n_corr) l.
(** BdaSolverBuffer.cc:88-131: one channel *)
Definition weigh_channel (flags : list bool) (weights : list W) (s : list V * list (list V)) (ch : nat) : list V * list (list V) :=
  let '(data, models) := s in
  let index := ch * n_corr in
  let '(f, data) := weigh4 (fun cr => nth (index + cr) flags false) weights index (false, data) in
  let '(f, models) := weigh_models weights index f models in
  if f then (clear4 index data, map (clear4 index) models) else (data, models).
(** BdaSolverBuffer.cc:60-131: the weighted data and model data of one row *)
Definition weigh_row (n_channels : nat) (flags : list bool) (weights : list W) (data : list V) (models : list (list V)) : list V * list (list V) :=
  fold_left (weigh_channel flags weights) (seq 0 n_channels) (data, models).
End Bda.
