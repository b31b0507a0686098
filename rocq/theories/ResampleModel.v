(** Model of what is written to the solution file: ddecal/Settings.cc:244-294 (PrepareSubSolutionsPerDirection), ddecal/SolutionResampler.cc and
    ddecal/SolutionWriter.cc.  Numbers of things are natural numbers; times have any arithmetic. *)
From Coq Require Import List Bool Arith.
From Verif Require Import AverageModel SolveDataModel GainModel.
Import ListNotations.
Open Scope nat_scope.

(** A vector that is filled by a loop, for example SolutionResampler.cc:181-198 *)
Fixpoint collect_from {X} (f : nat -> outcome X) (n i : nat) : outcome (list X) :=
  match n with 0 => Ok [] | S n => let! x := f i in let! l := collect_from f n (S i) in Ok (x :: l) end.
(** A vector of [n] elements, for example SolutionResampler.cc:181-198 *)
Definition collect {X} (f : nat -> outcome X) (n : nat) : outcome (list X) := collect_from f n 0.

(** ddecal/Settings.cc:244-285: the numbers of solutions per direction for [n_directions] directions.  Without directions, *std::max_element is undefined. *)
Definition prepare (solution_interval n_directions : nat) (sub : list nat) : outcome (list nat) :=
  if n_directions <? length sub then Throw
  else
    let sub := sub ++ repeat 1 (n_directions - length sub) in
    if existsb (fun n => n =? 0) sub then Throw
    else if existsb (fun n => negb (solution_interval mod n =? 0)) sub then Throw
    else if length sub =? 0 then Undefined
    else if 1 <? list_max sub then
      if solution_interval =? 0 then Throw else if solution_interval / list_max sub =? 0 then Throw else Ok sub
    else Ok sub.

(** ddecal/SolutionResampler.cc:14-41: n_substeps_; the assertion is a condition for use, and the maximum of nothing is undefined *)
Definition n_substeps (sub : list nat) (solution_interval : nat) : outcome nat :=
  if length sub =? 0 then Undefined
  else if existsb (fun n => n =? 0) sub then Undefined
  else if existsb (fun n => negb (list_max sub mod n =? 0)) sub then Ok solution_interval else Ok (list_max sub).

(** ddecal/SolutionResampler.cc:181-198 (MapResampledToOriginal), for [steps] substeps *)
Definition map_resampled (sub : list nat) (steps time antenna direction pol n_pol : nat) : outcome (nat * nat) :=
  if steps =? 0 then Undefined
  else
    let! n := get sub direction in
    if (n =? 0) || (steps / n =? 0) then Undefined
    else
      let antenna_offset := antenna * list_sum sub * n_pol in
      let direction_offset := (list_sum (firstn direction sub) + time mod steps / (steps / n)) * n_pol in
      Ok (time / steps, antenna_offset + direction_offset + pol).

Section Solutions.
Context {G : Type}.
(** ddecal/SolutionResampler.cc:43-83 (Upsample of solutions): interval, channel block, and antenna, direction and polarization *)
Definition upsample (sub : list nat) (steps n_antennas n_pol : nat) (solutions : list (list (list G))) : outcome (list (list (list G))) :=
  let! first := get solutions 0 in
  collect (fun time =>
    collect (fun block =>
      let! l := collect (fun antenna =>
        let! l := collect (fun direction =>
          collect (fun pol =>
            let! o := map_resampled sub steps time antenna direction pol n_pol in
            let! s := get solutions (fst o) in let! s := get s block in get s (snd o)) n_pol) (length sub) in
        Ok (concat l)) n_antennas in
      Ok (concat l)) (length first)) (length solutions * steps).

(** ddecal/SolutionResampler.cc:127-177: the values (or weights) of a constraint in substep [k] of an interval; [dim0]: the first dimension; [l]: the values *)
Definition upsample_result (sub : list nat) (steps dim0 k : nat) (l : list G) : outcome (list G) :=
  if (dim0 * list_sum sub =? 0) || (steps =? 0) then Undefined
  else
    let residual := length l / (dim0 * list_sum sub) in
    let! l := collect (fun i =>
      let! l := collect (fun direction =>
        let! n := get sub direction in
        let old := list_sum (firstn direction sub) + k * n / steps in
        collect (fun r => get l ((i * list_sum sub + old) * residual + r)) residual) (length sub) in
      Ok (concat l)) dim0 in
    Ok (concat l).
End Solutions.

Section Times.
(** double *)
Context {T : Type}.
Variables add sub mul : T -> T -> T.
Variables (half_ : T) (of_nat : nat -> T) (lt : T -> T -> bool).

(** ddecal/SolutionWriter.cc:56-64: the loop, [n] more turns from number [t] *)
Fixpoint times_from (n t : nat) (start_time end_time solution_interval duration : T) : list T :=
  match n with
  | 0 => []
  | S n =>
      if lt (sub end_time (mul half_ duration)) (add start_time (mul (of_nat t) solution_interval)) then []
      else add start_time (mul (add (of_nat t) half_) solution_interval) :: times_from n (S t) start_time end_time solution_interval duration
  end.
(** ddecal/SolutionWriter.cc:45-67 (GetSolutionTimes) *)
Definition solution_times (n : nat) (start_time end_time solution_interval duration : T) : list T := times_from n 0 start_time end_time solution_interval duration.

Context {G : Type}.
(** ddecal/SolutionWriter.cc:133-212 (WriteDirect, WriteSolverResults): the time axis and the values; the axes are time, frequency, antenna, direction and
    polarization *)
Definition write_direct (solutions : list (list (list G))) (start_time end_time duration solution_interval : T) : list T * list G :=
  let times := solution_times (length solutions) start_time end_time solution_interval duration in
  (times, concat (concat (firstn (length times) solutions))).
(** ddecal/SolutionWriter.cc:81-131 (Write), without results of constraints *)
Definition write (solutions : list (list (list G))) (start_time end_time duration : T) (timesteps : nat) (per_direction : list nat) (n_antennas n_pol : nat)
    : outcome (list T * list G) :=
  if list_sum per_direction =? length per_direction then Ok (write_direct solutions start_time end_time duration (mul duration (of_nat timesteps)))
  else
    let! steps := n_substeps per_direction timesteps in
    if steps =? 0 then Undefined
    else
      let! up := upsample per_direction steps n_antennas n_pol solutions in
      Ok (write_direct up start_time end_time duration (mul duration (of_nat (timesteps / steps)))).

(** steps/DDECal.cc:970-986, base/DPInfo.h:185-187 (WriteSolutions): the centroids of the first and last time slot, and the interval of the data *)
Definition write_solutions (solutions : list (list (list G))) (first_time last_time interval : T) (timesteps : nat) (per_direction : list nat) (n_antennas n_pol : nat)
    : outcome (list T * list G) :=
  write solutions (sub first_time (mul half_ interval)) last_time interval timesteps per_direction n_antennas n_pol.

(** ddecal/SolutionWriter.cc:271-392 (WriteConstraintResults): what is given to the file for one kind of result: the size of the time axis, the values, the
    weights, and the times; [n_solutions]: the number of solver solutions; [results]: values and weights of every interval *)
Definition write_constraint (n_solutions : nat) (results : list (list G * list G)) (start_time end_time duration solution_interval : T)
    : nat * list G * list G * list T :=
  let times := solution_times n_solutions start_time end_time solution_interval duration in
  (length results, concat (map fst (firstn (length times) results)), concat (map snd results), times).
End Times.
