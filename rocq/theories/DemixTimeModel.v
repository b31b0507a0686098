(** Model of the bookkeeping of the Demixer (steps/Demixer.cc): the directions, the settings of the time averaging, and the chunks of time slots.  A time slot is its number, an average is the list of the numbers of its slots.  Numbers do not wrap. *)
From Coq Require Import List Arith Bool.
Import ListNotations.

(** * Directions *)

(** What a step of the setup can end with: an exception, a division by zero, or a result (steps/Demixer.cc:74-310, 312-446) *)
Inductive outcome (A : Type) := Throws | Divides_by_zero | Done (x : A).
Arguments Throws {A}. Arguments Divides_by_zero {A}. Arguments Done {A} x.
(** The directions of the Demixer: their names without the target if it has no model, the number with a model, the number of directions, and the names of the patches (steps/Demixer.cc:186-222) *)
Record directions (A : Type) := Directions { all_sources : list A; n_model : nat; n_dir : nat; patches : list A }.
Arguments Directions {A}. Arguments all_sources {A}. Arguments n_model {A}. Arguments n_dir {A}. Arguments patches {A}.
(** sky_model/SkyModelFunctions.cc:89-123 (MakePatches): a component goes to the first patch with its name; every patch must have one *)
Fixpoint make_patches {A : Type} (dec : forall x y : A, {x = y} + {x <> y}) (known : A -> bool) (seen names : list A) : bool :=
  match names with
  | [] => true
  | x :: l => if known x && negb (if in_dec dec x seen then true else false) then make_patches dec known (x :: seen) l else false
  end.
(** steps/Demixer.cc:118-121, 186-223: the directions *)
Definition setup_sources {A : Type} (dec : forall x y : A, {x = y} + {x <> y}) (known : A -> bool) (subtract model extra : list A) (target : option A) (ignore_target : bool) : outcome (directions A) :=
  if ignore_target && (match target with Some _ => true | None => false end) then Throws else
  let n := length subtract + length model in
  let all := subtract ++ model ++ extra ++ match target with Some t => [t] | None => [] end in
  let n_model := match target with Some _ => n + 1 | None => n end in
  if (match target with Some _ => negb (length extra =? 0) | None => false end) then Throws else
  if make_patches dec known [] all then Done (Directions all n_model (n + length extra + 1) all) else Throws.

(** * Settings *)

(** The settings of the time averaging: timestep, demixtimestep or the number of slots that follows from demixtimeresolution (at least one), ntimechunk; and the number of time slots (steps/Demixer.cc:99-103, 129-131, 359-367) *)
Record settings := Settings { timestep : nat; demixtimestep : nat + nat; ntimechunk : nat; ntime : nat }.
(** steps/Demixer.cc:100-107: the numbers of the Demixer: averaging for solving and for the result, chunk sizes, size of the solutions; models is whether there are sources with a model *)
Record conf := Conf { n_avg : nat; n_sub : nat; chunk : nat; chunk_sub : nat; n_demix : nat; models : bool }.
(** steps/Demixer.cc:129-131, 142-144, 176-185 (constructor), 359-367, 374-380, 390, 401-417 (updateInfo), base/DPInfo.cc:329: the settings that are accepted; ntimechunk is not zero here *)
Definition configure (s : settings) (has_models : bool) : outcome conf :=
  if timestep s =? 0 then Divides_by_zero else
  let avg0 := match demixtimestep s with inl n => n | inr _ => 1 end in
  if (match demixtimestep s with inl n => negb ((ntimechunk s * n) mod timestep s =? 0) | inr _ => false end) then Throws else
  let avg1 := match demixtimestep s with inl n => avg0 | inr n => n end in
  if (match demixtimestep s with inl _ => false | inr n => negb ((ntimechunk s * n) mod timestep s =? 0) end) then Throws else
  let avg := Nat.min avg1 (ntime s) in
  if avg =? 0 then Divides_by_zero else
  let chunk_sub := ntimechunk s * avg / timestep s in
  let sub := Nat.min (timestep s) (ntime s) in
  if negb (avg mod sub =? 0) then Throws else
  Done (Conf avg sub (ntimechunk s) chunk_sub ((ntime s + avg - 1) / avg) has_models).

(** * Chunks *)

(** An average of the result: its time slots, and what was subtracted: the number of the solution and the time slots of the mixing factors (steps/Demixer.cc:1046-1145) *)
Record cell := Cell { slots : list nat; subtracted : list (nat * list nat) }.
(** The state of the Demixer: steps/Demixer.cc:100-117; averages that are not complete, complete ones, the factors that are being summed, the factors, the solutions with the averages and the factors they were made of, and the output *)
Record state := State { n_in : nat; n_out : nat; n_out_sub : nat; time_index : nat;
  pending : list nat; results : list (list nat); pending_sub : list nat; results_sub : list cell;
  f_buf : list nat; f_buf_sub : list nat; facs : nat -> list nat; facs_sub : nat -> list nat;
  solutions : list (nat * list nat * list nat); output : list cell }.
(** steps/Demixer.cc:100-117: the state of a new Demixer *)
Definition init : state := State 0 0 0 0 [] [] [] [] [] [] (fun _ => []) (fun _ => []) [] [].
(** Assignment to an element, as in steps/Demixer.cc:550-551 *)
Definition put {A : Type} (f : nat -> A) (i : nat) (x : A) : nat -> A := fun k => if k =? i then x else f k.
(** steps/MultiResultStep.cc:16-32 (process): None is a write past the end *)
Definition store {A : Type} (size : nat) (l : list A) (x : A) : option (list A) := if length l <? size then Some (l ++ [x]) else None.
(** steps/Averager.cc:220-231 (process): an average is complete after n time slots *)
Definition push {A : Type} (n size : nat) (mk : list nat -> A) (pending : list nat) (l : list A) (x : nat) : option (list nat * list A) :=
  let p := pending ++ [x] in
  if n <=? length p then match store size l (mk p) with Some l => Some ([], l) | None => None end else Some (p, l).
(** steps/Averager.cc:234-244 (finish) *)
Definition flush {A : Type} (size : nat) (mk : list nat -> A) (pending : list nat) (l : list A) : option (list A) :=
  if 0 <? length pending then store size l (mk pending) else Some l.
(** steps/Demixer.cc:1049-1051, 1056-1145: the subtraction with a solution from a range of results; the loop does not end if it starts past its end (None) *)
Definition subtract_range (first last : nat) (solution : nat) (fs : nat -> list nat) (l : list cell) : option (list cell) :=
  if last <? first then None else
  Some (map (fun '(i, c) => if (first <=? i) && (i <? last) then Cell (slots c) (subtracted c ++ [(solution, fs i)]) else c) (combine (seq 0 (length l)) l)).
(** steps/Demixer.cc:915-1150 (demix), the loop over the solutions; None is also a write past the end of the solutions *)
Fixpoint demix (c : conf) (st : state) (ts : nat) (l : list (list nat)) (res : list cell) (sols : list (nat * list nat * list nat)) : option (list cell * list (nat * list nat * list nat)) :=
  match l with
  | [] => Some (res, sols)
  | x :: l =>
    let multiplier := n_avg c / n_sub c in
    if n_demix c <=? time_index st + ts then None else
    match subtract_range (multiplier * ts) (Nat.min (multiplier * ts + multiplier) (length res)) (time_index st + ts) (facs_sub st) res with
    | Some res => demix c st (S ts) l res (sols ++ [(time_index st + ts, x, facs st ts)])
    | None => None
    end
  end.
(** steps/Demixer.cc:627-669 (handleDemix) *)
Definition handle (c : conf) (st : state) : option state :=
  match (if models c then demix c st 0 (results st) (results_sub st) (solutions st) else Some (results_sub st, solutions st)) with
  | Some (res, sols) =>
    if length res <? n_out_sub st then None else
    Some (State 0 0 0 (time_index st + chunk c) (pending st) [] (pending_sub st) [] (f_buf st) (f_buf_sub st) (facs st) (facs_sub st) sols (output st ++ firstn (n_out_sub st) res))
  | None => None
  end.
(** steps/Demixer.cc:541-549, 590-597: the factors of an average; None if there are no factors to write or no average to take the weights from *)
Definition solve_part (c : conf) (st : state) (clear : bool) : option state :=
  if (n_out st <? chunk c) && (n_out st <? length (results st)) then
    Some (State (n_in st) (n_out st + 1) (n_out_sub st) (time_index st) (pending st) (results st) (pending_sub st) (results_sub st) (if clear then [] else f_buf st) (f_buf_sub st)
      (put (facs st) (n_out st) (f_buf st)) (facs_sub st) (solutions st) (output st))
  else None.
(** steps/Demixer.cc:551-557, 598-603: the same for the subtraction *)
Definition subtract_part (c : conf) (st : state) (clear : bool) : option state :=
  if (n_out_sub st <? chunk_sub c) && (n_out_sub st <? length (results_sub st)) then
    Some (State (n_in st) (n_out st) (n_out_sub st + 1) (time_index st) (pending st) (results st) (pending_sub st) (results_sub st) (f_buf st) (if clear then [] else f_buf_sub st)
      (facs st) (put (facs_sub st) (n_out_sub st) (f_buf_sub st)) (solutions st) (output st))
  else None.
(** A step that is done on a condition, as in steps/Demixer.cc:541-566 *)
Definition when (b : bool) (f : state -> option state) (st : option state) : option state := match st with Some st => if b then f st else Some st | None => None end.
(** steps/Demixer.cc:518-572 (process): x is the number of the time slot *)
Definition process (c : conf) (st : state) (x : nat) : option state :=
  let n := n_in st + 1 in
  match push (n_avg c) (chunk c) (fun p => p) (pending st) (results st) x, push (n_sub c) (chunk_sub c) (fun p => Cell p []) (pending_sub st) (results_sub st) x with
  | Some (p, r), Some (ps, rs) =>
    let st := State n (n_out st) (n_out_sub st) (time_index st) p r ps rs (f_buf st ++ [x]) (f_buf_sub st ++ [x]) (facs st) (facs_sub st) (solutions st) (output st) in
    match when (n mod n_sub c =? 0) (fun st => subtract_part c st true) (when (n mod n_avg c =? 0) (fun st => solve_part c st true) (Some st)) with
    | Some st => if chunk c <=? n_out st then handle c st else Some st
    | None => None
    end
  | _, _ => None
  end.
(** steps/Demixer.cc:574-625 (finish) *)
Definition finish (c : conf) (st : state) : option state :=
  if n_in st =? 0 then Some st else
  match flush (chunk c) (fun p => p) (pending st) (results st), flush (chunk_sub c) (fun p => Cell p []) (pending_sub st) (results_sub st) with
  | Some r, Some rs =>
    let n := n_in st in
    let st := State n (n_out st) (n_out_sub st) (time_index st) [] r [] rs (f_buf st) (f_buf_sub st) (facs st) (facs_sub st) (solutions st) (output st) in
    match when (negb (n mod n_sub c =? 0)) (fun st => subtract_part c st false) (when (negb (n mod n_avg c =? 0)) (fun st => solve_part c st false) (Some st)) with
    | Some st => handle c st
    | None => None
    end
  | _, _ => None
  end.
(** A run: a process call for every time slot, and finish (steps/Demixer.cc:518-625) *)
Definition run (c : conf) (n : nat) : option state :=
  match fold_left (fun st x => match st with Some st => process c st x | None => None end) (seq 0 n) (Some init) with
  | Some st => finish c st
  | None => None
  end.
