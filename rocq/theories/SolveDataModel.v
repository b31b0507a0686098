(** Model of the data that the solvers get: ddecal/gain_solvers/SolveData.cc and .h, and of how steps/BdaDdeCal.cc numbers channel blocks.
    Antenna and solution numbers are natural numbers; the conversion to uint32_t is left out.  Assertions are not there, as in a release build. *)
From Coq Require Import QArith Qround Qcanon List Bool Arith ZArith.
From Verif Require Import QcUtil InfoModel AverageModel.
Import ListNotations.
Open Scope nat_scope.

(** SolveData.cc:17-31 (ToSpecificMatrix), over any complex numbers: all four correlations, the diagonal, or half of the trace *)
Definition full_matrix {C} (d : C) (x : list C) : list C := [nth 0 x d; nth 1 x d; nth 2 x d; nth 3 x d].
(** SolveData.cc:24-27 *)
Definition diagonal_matrix {C} (d : C) (x : list C) : list C := [nth 0 x d; nth 3 x d].
(** SolveData.cc:28-31 *)
Definition scalar_matrix {C} (d : C) (half_sum : C -> C -> C) (x : list C) : list C := [half_sum (nth 0 x d) (nth 3 x d)].

Section Data.
(** SolveData.h:116-132: the four correlations of a sample, MatrixType, and weights; SolveData.cc:17-31: ToSpecificMatrix *)
Context {X M W : Type}.
Variable to_matrix : X -> M.

(** SolveData.h:116-132: what is stored for one visibility: data_, antenna_indices_, model_data_ and solution_map_ for all directions, weights_.
    The code has an array for each of these. *)
Record visibility := Visibility { vis_data : M; vis_antennas : nat * nat; vis_models : list M; vis_solutions : list nat; vis_weights : list W }.
(** SolveData.h:35-46 (Resize, ResizeWeights): None is an element that was not written *)
Definition block : Type := list (option visibility).

(** SolveData.cc:45-56 (SolutionStartIndices) *)
Fixpoint start_indices (counter : nat) (l : list nat) : list nat :=
  match l with [] => [] | n :: l => counter :: start_indices (counter + n) l end.
(** SolveData.cc:62-72 (LimitNSolutionsPerDirection) *)
Definition limit (l : list nat) (n_times : nat) : list nat := map (fun n => Nat.min n n_times) l.
(** SolveData.cc:112-113, 205-208: where a channel block starts *)
Definition channel_begin (n_channels n_blocks cb : nat) : nat := cb * n_channels / n_blocks.

(** SolveData.cc:147-150: an element of the arrays is written *)
Definition write (b : block) (i : nat) (x : visibility) : outcome block := if i <? length b then Ok (set_nth b i (Some x)) else Undefined.
(** SolveData.cc:146-177, 245-292: the loops over the channels of one block *)
Fixpoint write_all (b : block) (vis_index : nat) (l : list visibility) : outcome block :=
  match l with
  | [] => Ok b
  | x :: l => match write b vis_index x with Ok b => write_all b (S vis_index) l | o => o end
  end.
(** SolveData.cc:129-137, 231-234: a time step or row of a baseline: its antennas, number of channels, and what is to be stored for a channel *)
Record sample := Sample { ant1 : nat; ant2 : nat; channels : nat; stored : nat -> visibility }.
(** SolveData.cc:138-180, 235-295: the loop over the channel blocks, with vis_index for every block; [cb]: the number of the first block in the list *)
Fixpoint fill_blocks (n_blocks : nat) (u : sample) (cb : nat) (l : list (block * nat)) : outcome (list (block * nat)) :=
  match l with
  | [] => Ok []
  | (b, vis_index) :: l =>
      let first := channel_begin (channels u) n_blocks cb in
      let size := channel_begin (channels u) n_blocks (S cb) - first in
      match write_all b vis_index (map (fun i => stored u (first + i)) (seq 0 size)) with
      | Ok b => match fill_blocks n_blocks u (S cb) l with Ok l => Ok ((b, vis_index + size) :: l) | o => o end
      | Throw => Throw
      | Undefined => Undefined
      end
  end.
(** SolveData.cc:129-185, 231-297: the loop over all time steps and baselines, or rows *)
Fixpoint fill (n_blocks : nat) (l : list (block * nat)) (us : list sample) : outcome (list (block * nat)) :=
  match us with
  | [] => Ok l
  | u :: us => if ant1 u =? ant2 u then fill n_blocks l us
               else match fill_blocks n_blocks u 0 l with Ok l => fill n_blocks l us | o => o end
  end.

(** SolveData.h:192, 129: channel_blocks_, and n_solutions_, which is the same for all blocks *)
Record solve_data := SolveData { blocks : list block; n_solutions : list nat }.

(** * Regular data *)
(** base/DPBuffer.h: data, weights and model data of a time step for a baseline and channel; all time steps have the sizes of the first *)
Record buffer := Buffer { buf_data : nat -> nat -> X; buf_weights : nat -> nat -> list W; buf_models : nat -> nat -> nat -> X }.
(** SolveData.cc:143-177: what is stored for time step [t] *)
Definition regular_sample (n_channels n_times : nat) (n_sol : list nat) (t : nat) (buf : buffer) (baseline : nat) (ants : nat * nat) : sample :=
  Sample (fst ants) (snd ants) n_channels (fun ch =>
    Visibility (to_matrix (buf_data buf baseline ch)) ants
      (map (fun d => to_matrix (buf_models buf d baseline ch)) (seq 0 (length n_sol)))
      (map (fun d => t * nth d n_sol 0 / n_times + nth d (start_indices 0 n_sol) 0) (seq 0 (length n_sol)))
      (buf_weights buf baseline ch)).
(** SolveData.cc:129-138: the order of the loops over time steps and baselines *)
Definition regular_samples (n_channels : nat) (n_sol : list nat) (bufs : list buffer) (baselines : list (nat * nat)) : list sample :=
  flat_map (fun tb => map (fun ba => regular_sample n_channels (length bufs) n_sol (fst tb) (snd tb) (fst ba) (snd ba))
                          (combine (seq 0 (length baselines)) baselines))
           (combine (seq 0 (length bufs)) bufs).
(** SolveData.cc:95-100: the number of cross-correlations *)
Definition n_cross (baselines : list (nat * nat)) : nat := length (filter (fun p => negb (fst p =? snd p)) baselines).
(** SolveData.cc:76-187: the constructor for regular data, without CountAntennaVisibilities.  Without time steps or channel blocks, front() is undefined. *)
Definition regular (bufs : list buffer) (n_channels n_blocks : nat) (requested : list nat) (baselines : list (nat * nat)) : outcome solve_data :=
  if (length bufs =? 0) || (n_blocks =? 0) then Undefined
  else
    let n_sol := limit requested (length bufs) in
    let size cb := channel_begin n_channels n_blocks (S cb) - channel_begin n_channels n_blocks cb in
    let allocated := map (fun cb => (repeat None (length bufs * n_cross baselines * size cb), 0)) (seq 0 n_blocks) in
    match fill n_blocks allocated (regular_samples n_channels n_sol bufs baselines) with
    | Ok l => Ok (SolveData (map fst l) n_sol)
    | Throw => Throw
    | Undefined => Undefined
    end.

(** * BDA data *)
(** BdaSolverBuffer.h:26-37 (IntervalRow): baseline_nr, time, n_channels, weighted_data and weighted_model_data *)
Record row := Row { row_baseline : nat; row_time : Qc; row_channels : nat; row_data : nat -> X; row_models : nat -> nat -> X }.
(** SolveData.cc:279-281: index_offset; a negative number cannot be converted.  For no solutions, [n - 1] is the largest number. *)
Definition index_offset (n : nat) (mid duration : Qc) : outcome nat :=
  let k := Qfloor (this (mid * qn n / duration)%Qc) in
  if (k <? 0)%Z then Undefined else Ok (if n =? 0 then Z.to_nat k else Nat.min (n - 1) (Z.to_nat k)).
(** SolveData.cc:262-283: the solution indices for all directions; [d]: number of the first direction in the list *)
Fixpoint row_solutions (n_sol starts : list nat) (mid duration : Qc) : outcome (list nat) :=
  match n_sol, starts with
  | n :: n_sol, s :: starts =>
      match index_offset n mid duration with
      | Ok k => match row_solutions n_sol starts mid duration with Ok l => Ok ((k + s) :: l) | o => o end
      | Throw => Throw
      | Undefined => Undefined
      end
  | _, _ => Ok []
  end.
(** SolveData.cc:231-297: the rows of cross-correlations in the current interval, which starts at [start]; antennas1, antennas2 as pairs.  The weights are
    not there. *)
Fixpoint row_samples (n_sol : list nat) (start duration : Qc) (baselines : list (nat * nat)) (rows : list row) : outcome (list sample) :=
  match rows with
  | [] => Ok []
  | r :: rows =>
      match nth_error baselines (row_baseline r) with
      | None => Undefined
      | Some ants =>
          let sols := if fst ants =? snd ants then Ok [] else row_solutions n_sol (start_indices 0 n_sol) (row_time r - start)%Qc duration in
          match sols with
          | Ok sols =>
              match row_samples n_sol start duration baselines rows with
              | Ok l => Ok (Sample (fst ants) (snd ants) (row_channels r) (fun ch =>
                  Visibility (to_matrix (row_data r ch)) ants (map (fun d => to_matrix (row_models r d ch)) (seq 0 (length n_sol))) sols []) :: l)
              | o => o
              end
          | Throw => Throw
          | Undefined => Undefined
          end
      end
  end.
(** SolveData.cc:197-213: the number of visibilities of a block *)
Definition bda_count (n_blocks cb : nat) (us : list sample) : nat :=
  fold_left (fun n u => if ant1 u =? ant2 u then n
                        else n + (channel_begin (channels u) n_blocks (S cb) - channel_begin (channels u) n_blocks cb)) us 0.
(** SolveData.cc:190-299: the constructor for BDA data, without CountAntennaVisibilities.  With weights the third size of a matrix is read, which is
    undefined. *)
Definition bda (rows : list row) (start duration : Qc) (n_blocks : nat) (requested : list nat) (baselines : list (nat * nat)) (with_weights : bool) :
    outcome solve_data :=
  if (n_blocks =? 0) || with_weights then Undefined
  else
    let n_sol := limit requested (length rows) in
    match row_samples n_sol start duration baselines rows with
    | Ok us =>
        match fill n_blocks (map (fun cb => (repeat None (bda_count n_blocks cb us), 0)) (seq 0 n_blocks)) us with
        | Ok l => Ok (SolveData (map fst l) n_sol)
        | Throw => Throw
        | Undefined => Undefined
        end
    | Throw => Throw
    | Undefined => Undefined
    end.

(** * What is asked from the data *)
(** SolveData.cc:303-311: one element of antenna_visibility_counts_ is increased *)
Definition count_one (counts : list nat) (a : nat) : outcome (list nat) := if a <? length counts then Ok (set_nth counts a (S (nth a counts 0))) else Undefined.
(** SolveData.cc:303-311 (CountAntennaVisibilities) for a block, which is completely written *)
Fixpoint count_antennas (counts : list nat) (b : list visibility) : outcome (list nat) :=
  match b with
  | [] => Ok counts
  | v :: b => match count_one counts (fst (vis_antennas v)) with
              | Ok counts => match count_one counts (snd (vis_antennas v)) with Ok counts => count_antennas counts b | o => o end
              | o => o
              end
  end.
(** SolveData.cc:348-360 (NSolutionVisibilities) *)
Definition n_solution_visibilities (b : list visibility) (direction solution : nat) : nat :=
  fold_left (fun n v => if nth direction (vis_solutions v) 0 =? solution then S n else n) b 0.

Section Weights.
(** SolveData.cc:33-42 (GetSolutionWeight) *)
Variable norm : M -> Qc.
Variable m0 : M.
(** SolveData.cc:337-340: a weight of a visibility is added for both antennas *)
Definition add_at (m : list (list Qc)) (i j : nat) (w : Qc) : outcome (list (list Qc)) :=
  match nth_error m i with
  | None => Undefined
  | Some r => if j <? length r then Ok (set_nth m i (set_nth r j (nth j r 0 + w)%Qc)) else Undefined
  end.
(** SolveData.cc:331-340: one visibility in block [cb] *)
Definition add_weight (n_blocks cb d : nat) (m : list (list Qc)) (v : visibility) : outcome (list (list Qc)) :=
  let sol := nth d (vis_solutions v) 0 in
  let w := norm (nth d (vis_models v) m0) in
  match add_at m sol (fst (vis_antennas v) * n_blocks + cb) w with
  | Ok m => add_at m sol (snd (vis_antennas v) * n_blocks + cb) w
  | o => o
  end.
(** SolveData.cc:330-341: all visibilities of a block for a direction *)
Fixpoint add_weights (n_blocks cb d : nat) (m : list (list Qc)) (b : list visibility) : outcome (list (list Qc)) :=
  match b with [] => Ok m | v :: b => match add_weight n_blocks cb d m v with Ok m => add_weights n_blocks cb d m b | o => o end end.
(** SolveData.cc:329-342: all directions *)
Fixpoint add_directions (n_blocks cb : nat) (ds : list nat) (m : list (list Qc)) (b : list visibility) : outcome (list (list Qc)) :=
  match ds with [] => Ok m | d :: ds => match add_weights n_blocks cb d m b with Ok m => add_directions n_blocks cb ds m b | o => o end end.
(** SolveData.cc:325-343: all channel blocks; [cb]: number of the first block in the list *)
Fixpoint add_blocks (n_blocks cb n_directions : nat) (m : list (list Qc)) (bs : list (list visibility)) : outcome (list (list Qc)) :=
  match bs with
  | [] => Ok m
  | b :: bs => match add_directions n_blocks cb (seq 0 n_directions) m b with Ok m => add_blocks n_blocks (S cb) n_directions m bs | o => o end
  end.
(** SolveData.cc:314-345 (GetSolutionWeights) *)
Definition solution_weights (n_antennas : nat) (n_sol : list nat) (bs : list (list visibility)) : outcome (list (list Qc)) :=
  add_blocks (length bs) 0 (length n_sol) (repeat (repeat 0%Qc (n_antennas * length bs)) (list_sum n_sol)) bs.
End Weights.
End Data.
Arguments Visibility {M W}. Arguments vis_data {M W}. Arguments vis_antennas {M W}. Arguments vis_models {M W}. Arguments vis_solutions {M W}. Arguments vis_weights {M W}.
Arguments Sample {M W}. Arguments ant1 {M W}. Arguments ant2 {M W}. Arguments channels {M W}. Arguments stored {M W}.
Arguments SolveData {M W}. Arguments blocks {M W}. Arguments n_solutions {M W}.
Arguments Buffer {X W}. Arguments buf_data {X W}. Arguments buf_weights {X W}. Arguments buf_models {X W}.
Arguments Row {X}. Arguments row_baseline {X}. Arguments row_time {X}. Arguments row_channels {X}. Arguments row_data {X}. Arguments row_models {X}.

(** steps/BdaDdeCal.cc:936-951 (GetChanBlockIndex), with exact division: the block where the weights of a channel are added *)
Definition weight_block (ch n_channels n_blocks : nat) : outcome nat := if n_channels <? n_blocks then Throw else Ok (ch * n_blocks / n_channels).
