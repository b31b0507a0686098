(** Model of the bookkeeping of DDECal: steps/DDECal.cc.  What the solver, the model data steps and the UVW flagger do are parameters; see GainModel, IterateModel and
    WeighModel for these. *)
From Coq Require Import List Bool Arith.
From Verif Require Import AverageModel InfoModel GainModel.
Import ListNotations.
Open Scope nat_scope.

Section Ddecal.
(** Visibilities; flags; all else in a buffer (time, weights, uvw); visibilities of a model; solutions of an interval *)
Context {D F W M S : Type}.
(** base/DPBuffer.h: the model data has an entry for every direction, which may not be there *)
Record buffer := Buffer { data : D; flags : F; rest : W; models : list (option M) }.

(** steps/DDECal.h, ddecal/Settings.h: requested_solution_interval_, n_solution_intervals_, the size of solutions_; only_predict, subtract, keep_model_data,
    propagate_solutions, propagate_converged_only; whether original_flags_ is allocated, whether min_vis_ratio is positive; GetMaxIterations; whether there is a step for
    a direction (otherwise its model data is in the buffers); whether every direction has one solution *)
Record settings := Settings { solint : nat; n_intervals : nat; n_sol : nat; only_predict : bool; subtract : bool; keep_model : bool; propagate : bool;
  converged_only : bool; save_flags : bool; use_min_vis : bool; max_iterations : nat; has_step : list bool; one_per_direction : bool }.

Variable cfg : settings.
(** steps/DDECal.cc:855-858: the flags after the UVW flagger; it changes nothing if it is degenerate *)
Variable uvw : buffer -> F.
(** steps/DDECal.cc:877-927: what the steps of a direction make of a buffer; one result for every buffer, at the latest when it is flushed *)
Variable predict : nat -> buffer -> M.
(** steps/DDECal.cc:533-559: the flags after checkMinimumVisibilities, which depends on all buffers that are held *)
Variable low : list buffer -> F -> F.
(** steps/DDECal.cc:637: all flags set *)
Variable all_flagged : F -> F.
(** steps/DDECal.cc:500-530: the solutions to start with, if they are not those of the previous interval; they may depend on the times of all buffers that are held *)
Variable fresh : list buffer -> S.
(** steps/DDECal.cc:646-647, 653-701: solutions and number of iterations from all buffers that are held (times, weights for the constraints), the
    data, flags, weights and model data of the interval, and the solutions to start with *)
Variable solver : list buffer -> list (D * F * W * list M) -> S -> S * nat.
(** steps/DDECal.cc:1098-1116, for one buffer: data and model data *)
Variable correct : S -> D * list M -> D * list M.
(** steps/DDECal.cc:1126-1143, for one buffer *)
Variable sum : list M -> D.

(** steps/DDECal.h: input_buffers_, original_flags_, the results of the steps of every direction, first_solution_index_, solutions_ with n_iterations_; and the buffers
    that are sent to the next step, and what was given to the solver *)
Record state := State { held : list (list buffer); saved : nat -> nat -> option F; results : list (list M); first : nat; sols : nat -> option (S * nat);
  sent : list buffer; calls : list (list (D * F * W * list M) * S) }.
(** steps/DDECal.cc:61-72 *)
Definition init : state := State [] (fun _ _ => None) (map (fun _ => []) (has_step cfg)) 0 (fun _ => None) [] [].

(** steps/DDECal.cc:797-806: the directions without step must have model data *)
Definition has_models (b : buffer) : bool :=
  forallb (fun p => fst p || match snd p with Some _ => true | None => false end) (combine (has_step cfg) (models b)).
(** steps/DDECal.cc:808-814: the buffer is put in the last interval, or in a new one *)
Definition hold (b : buffer) (l : list (list buffer)) : list (list buffer) :=
  match l with
  | [] => [[b]]
  | _ => if length (last l []) =? solint cfg then l ++ [[b]] else removelast l ++ [last l [] ++ [b]]
  end.
(** steps/DDECal.cc:845-853: an element of original_flags_ is assigned *)
Definition save (i j : nat) (f : F) (a : nat -> nat -> option F) : nat -> nat -> option F :=
  fun i' j' => if (i' =? i) && (j' =? j) then Some f else a i' j'.
(** steps/DDECal.cc:839-927 (doPrepare), without the sums of weights; [l]: input_buffers_ with the new buffer [b] *)
Definition prepare (st : state) (b : buffer) : state :=
  let l := hold b (held st) in
  let sv := if save_flags cfg then save (length l - 1) (length (last l []) - 1) (flags b) (saved st) else saved st in
  let b := Buffer (data b) (uvw b) (rest b) (models b) in
  let l := removelast l ++ [removelast (last l []) ++ [b]] in
  let r := map (fun p : nat * (bool * list M) => let '(d, (step, ms)) := p in if step then ms ++ [predict d b] else ms)
               (combine (seq 0 (length (has_step cfg))) (combine (has_step cfg) (results st))) in
  State l sv r (first st) (sols st) (sent st) (calls st).

(** steps/DDECal.cc:580-581: MoveData *)
Definition set_model (d : nat) (m : M) (b : buffer) : buffer := Buffer (data b) (flags b) (rest b) (set_nth (models b) d (Some m)).
(** steps/DDECal.cc:575-582: the results of one direction, from number [i] *)
Fixpoint move (d : nat) (ms : list M) (i : nat) (l : list (list buffer)) : outcome (list (list buffer)) :=
  match ms with
  | [] => Ok l
  | m :: ms =>
      let! q := get l (i / solint cfg) in
      let! b := get q (i mod solint cfg) in
      move d ms (Datatypes.S i) (set_nth l (i / solint cfg) (set_nth q (i mod solint cfg) (set_model d m b)))
  end.
(** steps/DDECal.cc:562-583: all directions that have a step *)
Fixpoint move_all (d : nat) (r : list (bool * list M)) (l : list (list buffer)) : outcome (list (list buffer)) :=
  match r with
  | [] => Ok l
  | (step, ms) :: r => let! l := if step then move d ms 0 l else Ok l in move_all (Datatypes.S d) r l
  end.

(** base/DPBuffer.h:170-194 (GetData) for all directions *)
Fixpoint get_models (l : list (option M)) : outcome (list M) :=
  match l with [] => Ok [] | Some m :: l => let! q := get_models l in Ok (m :: q) | None :: _ => Throw end.
(** steps/DDECal.cc:646-647: what the solver gets of a buffer *)
Definition view (b : buffer) : outcome (D * F * W * list M) := let! m := get_models (models b) in Ok (data b, flags b, rest b, m).
(** steps/DDECal.cc:1101, 1132: a function on all buffers of an interval *)
Fixpoint each {X Y} (f : X -> outcome Y) (l : list X) : outcome (list Y) :=
  match l with [] => Ok [] | x :: l => let! y := f x in let! q := each f l in Ok (y :: q) end.
(** SolverTools.cc:149-157, steps/DDECal.cc:1117-1121, 1140: the model data of all directions is moved away or removed *)
Definition remove_models (b : buffer) : buffer := Buffer (data b) (flags b) (rest b) (map (fun _ => None) (models b)).
(** steps/DDECal.cc:1126-1143 (SumModels), for one buffer *)
Definition sum_models (b : buffer) : outcome buffer := let! m := get_models (models b) in Ok (remove_models (Buffer (sum m) (flags b) (rest b) (models b))).
(** steps/DDECal.cc:1101-1121, for one buffer *)
Definition correct_buffer (s : S) (b : buffer) : outcome buffer :=
  let! m := get_models (models b) in
  let '(d, m) := correct s (data b, m) in
  let b := Buffer d (flags b) (rest b) (map Some m) in
  Ok (if keep_model cfg then b else remove_models b).
(** steps/DDECal.cc:483-531 (InitializeSolutions) *)
Definition initialize (all : list buffer) (st : state) (k : nat) : outcome S :=
  if (0 <? k) && propagate cfg then
    match sols st (k - 1) with
    | None => Undefined
    | Some (s, n) => Ok (if (max_iterations cfg <? n) && converged_only cfg then fresh all else s)
    end
  else Ok (fresh all).
(** steps/DDECal.cc:626-639: the padding *)
Definition pad (l : list buffer) : outcome (list buffer) :=
  if length l <? solint cfg then
    match l with
    | [] => Undefined
    | b :: _ => Ok (l ++ repeat (Buffer (data b) (all_flagged (flags b)) (rest b) (models b)) (solint cfg - length l))
    end
  else Ok l.
(** steps/DDECal.cc:595-773: interval number [i] of those that are held; the interval afterwards *)
Definition solve_interval (all : list buffer) (st : state) (i : nat) (l : list buffer) : outcome (state * list buffer) :=
  let k := first st + i in
  if n_sol cfg <=? k then Throw
  else if only_predict cfg then
    if keep_model cfg then Ok (st, l) else let! l := each sum_models l in Ok (st, l)
  else
    let l := if use_min_vis cfg then map (fun b => Buffer (data b) (low all (flags b)) (rest b) (models b)) l else l in
    let! padded := pad l in
    let! seen := each view padded in
    let padded := if subtract cfg || keep_model cfg then padded else map remove_models padded in
    let! s0 := initialize all st k in
    let '(s, n) := solver all seen s0 in
    let st := State (held st) (saved st) (results st) (first st) (fun k' => if k' =? k then Some (s, n) else sols st k') (sent st) (calls st ++ [(seen, s0)]) in
    let l := firstn (length l) padded in
    if subtract cfg || keep_model cfg then
      if one_per_direction cfg then let! l := each (correct_buffer s) l in Ok (st, l) else Throw
    else Ok (st, l).
(** steps/DDECal.cc:595-773: all intervals *)
Fixpoint solve_intervals (all : list buffer) (st : state) (i : nat) (l : list (list buffer)) : outcome (state * list (list buffer)) :=
  match l with
  | [] => Ok (st, [])
  | q :: l =>
      let! (st, q) := solve_interval all st i q in
      let! (st, l) := solve_intervals all st (Datatypes.S i) l in
      Ok (st, q :: l)
  end.
(** steps/DDECal.cc:778-788: the buffers of an interval, from number [j], with their flags *)
Fixpoint restore (a : nat -> nat -> option F) (i j : nat) (l : list buffer) : outcome (list buffer) :=
  match l with
  | [] => Ok []
  | b :: l =>
      let! f := if save_flags cfg then match a i j with Some f => Ok f | None => Undefined end else Ok (flags b) in
      let! l := restore a i (Datatypes.S j) l in
      Ok (Buffer (data b) f (rest b) (models b) :: l)
  end.
(** steps/DDECal.cc:777-789: all intervals *)
Fixpoint restore_all (a : nat -> nat -> option F) (i : nat) (l : list (list buffer)) : outcome (list buffer) :=
  match l with [] => Ok [] | q :: l => let! q := restore a i 0 q in let! l := restore_all a (Datatypes.S i) l in Ok (q ++ l) end.
(** steps/DDECal.cc:561-792 (doSolve).  The flags that count for checkMinimumVisibilities are those before it, in all buffers that are held. *)
Definition do_solve (st : state) : outcome state :=
  let all := concat (held st) in
  let! l := move_all 0 (combine (has_step cfg) (results st)) (held st) in
  let! (st, l) := solve_intervals all st 0 l in
  let! l := restore_all (saved st) 0 l in
  Ok (State (held st) (saved st) (results st) (first st) (sols st) (sent st ++ l) (calls st)).
(** steps/DDECal.cc:794-837 (process) *)
Definition process (st : state) (b : buffer) : outcome state :=
  if has_models b then
    let st := prepare st b in
    if (length (held st) =? n_intervals cfg) && (length (last (held st) []) =? solint cfg) then
      let! st := do_solve st in
      Ok (State [] (saved st) (map (fun _ => []) (has_step cfg)) (first st + length (held st)) (sols st) (sent st) (calls st))
    else Ok st
  else Throw.
(** steps/DDECal.cc:988-1002 (finish), without writing the solutions *)
Definition finish (st : state) : outcome state :=
  match held st with
  | [] => Ok st
  | _ => let! st := do_solve st in Ok (State [] (saved st) (results st) (first st) (sols st) (sent st) (calls st))
  end.
(** base/DP3.cc:387-398: all buffers *)
Fixpoint run_from (st : state) (l : list buffer) : outcome state :=
  match l with [] => finish st | b :: l => let! st := process st b in run_from st l end.
(** base/DP3.cc:387-398 *)
Definition run (l : list buffer) : outcome state := run_from init l.
End Ddecal.
Arguments buffer : clear implicits.
Arguments Buffer {D F W M}.
