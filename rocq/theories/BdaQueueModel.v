(** Model of how steps/BdaDdeCal.cc combines its input buffers with the visibilities that the model data steps make.  These steps may give their results later.  What the steps,
    the UVW flagger and the solver compute are parameters; SolveBufferModel and BdaApplyModel have the rest of the step.  Threads are not modelled. *)
From Coq Require Import List Bool Arith.
From Verif Require Import AverageModel InfoModel GainModel.
Import ListNotations.
Open Scope nat_scope.

Section Queue.
(** Visibilities; visibilities of a model; flags; all else in a buffer *)
Context {D M F W : Type}.
(** base/BdaBuffer.h: the main data, flags, the rest, and the data with the name of a direction, for every direction *)
Record buffer := Buffer { main : D; flags : F; rest : W; models : list (option M) }.
(** steps/BdaDdeCal.cc: the number of model data steps, steps_; the directions after these are reused from the input *)
Variable n_steps : nat.
(** ddecal/Settings.h: only_predict, keep_model_data *)
Variables only_predict keep_model : bool.
(** steps/BdaDdeCal.cc:406-412: the flags after the UVW flagger; it changes nothing if it is degenerate *)
Variable uvw : buffer -> F.
(** steps/BdaDdeCal.cc:419-438: what the step of a direction makes of the flags and the rest of a buffer *)
Variable predict : nat -> F * W -> M.
(** steps/BdaDdeCal.cc:503-505: the sum of the model data of all directions *)
Variable sum : list M -> D.

(** steps/BdaDdeCal.h: input_buffers_; for every step the results that it did not give yet; and the buffers that left the queue *)
Record state := State { queue : list buffer; pending : list (list M); sent : list buffer }.
(** steps/BdaDdeCal.cc:57-110: at the start *)
Definition init : state := State [] (repeat [] n_steps) [].

(** steps/BdaDdeCal.cc:397-404: the reused model data must exist *)
Definition has_reused (b : buffer) : bool := forallb (fun o => match o with Some _ => true | None => false end) (skipn n_steps (models b)).
(** steps/BdaDdeCal.cc:482-489 (HasAllDirections) *)
Definition has_all (b : buffer) : bool := forallb (fun o => match o with Some _ => true | None => false end) (models b).
(** steps/BdaDdeCal.cc:476: MoveData *)
Definition set_model (d : nat) (m : M) (b : buffer) : buffer := Buffer (main b) (flags b) (rest b) (set_nth (models b) d (Some m)).
(** steps/BdaDdeCal.cc:466-470: the first buffer in the queue that has no data for direction [d] *)
Fixpoint find_free (d : nat) (q : list buffer) : nat :=
  match q with [] => 0 | b :: q => match nth d (models b) None with Some _ => S (find_free d q) | None => 0 end end.
(** steps/BdaDdeCal.cc:472-478: the results of a direction are moved to the buffers from [i] *)
Fixpoint place (d : nat) (results : list M) (i : nat) (q : list buffer) : outcome (list buffer) :=
  match results with
  | [] => Ok q
  | m :: results => let! b := get q i in place d results (S i) (set_nth q i (set_model d m b))
  end.
(** steps/BdaDdeCal.cc:457-480 (ExtractResults): the directions from [d]; [k]: the number of results that the step of a direction gives *)
Fixpoint extract (k : nat -> nat) (d : nat) (l : list (list M)) (q : list buffer) : outcome (list (list M) * list buffer) :=
  match l with
  | [] => Ok ([], q)
  | p :: l =>
      let! q := place d (firstn (k d) p) (find_free d q) q in
      let! (l, q) := extract k (S d) l q in
      Ok (skipn (k d) p :: l, q)
  end.
(** steps/BdaDdeCal.cc:491-508 (SumModels) *)
Definition sum_models (b : buffer) : buffer :=
  Buffer (sum (flat_map (fun o => match o with Some m => [m] | None => [] end) (models b))) (flags b) (rest b) (map (fun _ => None) (models b)).
(** steps/BdaDdeCal.cc:512-518, 522-529: what is done with a buffer that leaves the queue: sent to the next step, or to the solver *)
Definition emit (b : buffer) : buffer := if only_predict then if keep_model then b else sum_models b else b.
(** steps/BdaDdeCal.cc:510-529: the buffers that leave the queue, and those that stay *)
Fixpoint pop (q : list buffer) : list buffer * list buffer :=
  match q with
  | [] => ([], [])
  | b :: q' => if has_all b then let (l, q) := pop q' in (emit b :: l, q) else ([], q)
  end.
(** steps/BdaDdeCal.cc:447-451: ExtractResults and ProcessCompleteDirections *)
Definition collect_models (k : nat -> nat) (st : state) : outcome state :=
  let! (p, q) := extract k 0 (pending st) (queue st) in
  let (l, q) := pop q in
  Ok (State q p (sent st ++ l)).
(** steps/BdaDdeCal.cc:394-455 (process); [k]: the number of results that every step gives after this call *)
Definition process (k : nat -> nat) (st : state) (b : buffer) : outcome state :=
  if has_reused b then
    let b := Buffer (main b) (uvw b) (rest b) (models b) in
    let p := map (fun p => snd p ++ [predict (fst p) (flags b, rest b)]) (combine (seq 0 (length (pending st))) (pending st)) in
    collect_models k (State (queue st ++ [b]) p (sent st))
  else Throw.
(** steps/BdaDdeCal.cc:780-792 (finish): the steps give all their results *)
Definition finish (st : state) : outcome state := collect_models (fun d => length (nth d (pending st) [])) st.
(** base/DP3.cc:387-398: buffers, with [k i] for call number [i] *)
Fixpoint process_all (k : nat -> nat -> nat) (i : nat) (st : state) (l : list buffer) : outcome state :=
  match l with [] => Ok st | b :: l => let! st := process (k i) st b in process_all k (S i) st l end.
(** base/DP3.cc:387-398: all buffers and the end *)
Definition run (k : nat -> nat -> nat) (l : list buffer) : outcome state := let! st := process_all k 0 init l in finish st.
End Queue.
Arguments buffer : clear implicits.
Arguments Buffer {D M F W}.
Arguments state : clear implicits.
