(** Model of steps/Combine.cc and of the named visibilities and solutions in base/DPBuffer.h and base/DPBuffer.cc.  Values are of any type, the sum
    and difference of complex numbers a parameter.  Simplified: a tensor is the list of its values; the sizes of the main and the named visibilities are
    compared where xtensor looks at the shapes. *)
From Coq Require Import String List Bool Arith.
From Verif Require Import BdaBufferModel AverageModel.
Import ListNotations.
Open Scope nat_scope.

(** * Maps *)
Section Maps.
Context {V : Type}.
(** std::map::find *)
Fixpoint lookup (n : string) (l : list (string * V)) : option V :=
  match l with [] => None | (k, v) :: r => if String.eqb k n then Some v else lookup n r end.
(** std::map::operator[] assignment and insert_or_assign; a new key is put at the end instead of at its place in the order, which nothing below
    depends on *)
Fixpoint put (n : string) (v : V) (l : list (string * V)) : list (string * V) :=
  match l with [] => [(n, v)] | (k, x) :: r => if String.eqb k n then (k, v) :: r else (k, x) :: put n v r end.
(** std::map::erase *)
Definition erase (n : string) (l : list (string * V)) : list (string * V) := filter (fun kv => negb (String.eqb (fst kv) n)) l.
End Maps.

Section Combine.
(** The type of the visibilities, and of everything else in a buffer *)
Context {C R : Type}.
(** base/DPBuffer.h:292-310; the main visibilities are None after they were moved from *)
Record buffer := { main : option (list C); extra : list (string * list C); rest : R }.

(** base/DPBuffer.h:170-194 (GetData); a tensor that was moved from is not to be used *)
Definition get_data (b : buffer) (n : string) : outcome (list C) :=
  if String.eqb n "" then match main b with Some v => Ok v | None => Undefined end
  else match lookup n (extra b) with Some v => Ok v | None => Throw end.
(** base/DPBuffer.cc:125-131 *)
Definition remove_data (b : buffer) (n : string) : buffer :=
  {| main := main b; extra := if String.eqb n "" then [] else erase n (extra b); rest := rest b |}.
(** base/DPBuffer.cc:133-139; the assertions are conditions for use *)
Definition copy_data (target source : buffer) (from to : string) : outcome buffer :=
  if String.eqb to "" then Undefined
  else match get_data source from with
       | Ok v => Ok {| main := main target; extra := put to v (extra target); rest := rest target |}
       | Throw => Undefined
       | Undefined => Undefined
       end.
(** base/DPBuffer.cc:141-156 between different buffers: target and source afterwards *)
Definition move_data (target source : buffer) (from to : string) : outcome (buffer * buffer) :=
  if String.eqb to "" then Undefined
  else match get_data source from with
       | Ok v =>
           Ok ({| main := main target; extra := put to v (extra target); rest := rest target |},
               if String.eqb from "" then {| main := None; extra := extra source; rest := rest source |}
               else {| main := main source; extra := erase from (extra source); rest := rest source |})
       | _ => Undefined
       end.
(** base/DPBuffer.cc:141-156 if target and source are the same buffer; the value that is moved from is erased after it was put in its new place *)
Definition move_within (b : buffer) (from to : string) : outcome buffer :=
  if String.eqb to "" then Undefined
  else match get_data b from with
       | Ok v =>
           Ok (if String.eqb from "" then {| main := None; extra := put to v (extra b); rest := rest b |}
               else {| main := main b; extra := erase from (put to v (extra b)); rest := rest b |})
       | _ => Undefined
       end.

(** The operation of steps/Combine.cc:62-69, 93-102: plus or minus *)
Variable op : C -> C -> C.
(** The values of two tensors one by one: steps/Combine.cc:64, 67 *)
Definition values2 (a b : list C) : list C := map (fun p => op (fst p) (snd p)) (combine a b).
(** steps/Combine.cc:56-77 (process of regular data): the buffer for the next step.  The main visibilities are changed in place, also if they are the
    other visibilities too. *)
Definition process_regular (b : buffer) (n : string) : outcome buffer :=
  match get_data b n, get_data b "" with
  | Ok other, Ok d =>
      if List.length d =? List.length other then
        Ok (remove_data {| main := Some (values2 d other); extra := extra b; rest := rest b |} n)
      else Throw
  | Ok _, o => match o with Throw => Throw | _ => Undefined end
  | Throw, _ => Throw
  | Undefined, _ => Undefined
  end.

Context {W T U : Type}.
(** steps/Combine.cc:95-100: the operation on one element; values in BDA data may be indeterminate (see BdaBufferModel) *)
Definition op2 (a b : option C) : option C := match a, b with Some x, Some y => Some (op x y) | _, _ => None end.
(** steps/Combine.cc:95-100: std::transform of one row; None: outside the vectors *)
Definition transform (d other : list (option C)) (offset size : nat) : option (list (option C)) :=
  if (offset + size <=? List.length d) && (offset + size <=? List.length other) then
    Some (firstn offset d ++ map (fun p => op2 (fst p) (snd p)) (combine (firstn size (skipn offset d)) (firstn size (skipn offset other))) ++
          skipn (offset + size) d)
  else None.
(** steps/Combine.cc:90-103: all rows; the other visibilities are those of [other], or the destination itself *)
Fixpoint transform_rows (same : bool) (d other : list (option C)) (rows : list (row T U)) : option (list (option C)) :=
  match rows with
  | [] => Some d
  | r :: q =>
      match transform d (if same then d else other) (r_offset r) (row_size r) with
      | Some d' => transform_rows same d' other q
      | None => None
      end
  end.
(** steps/Combine.cc:79-110 (process of BDA data); base/BdaBuffer.cc:158-173 gives a null pointer for empty visibilities *)
Definition process_bda (b : bda C W T U) (n : string) : outcome (bda C W T U) :=
  match find_data n (b_data b) with
  | None | Some [] => Throw
  | Some other =>
      match find_data "" (b_data b) with
      | None | Some [] => Undefined
      | Some d =>
          match transform_rows (String.eqb n "") d other (b_rows b) with
          | None => Undefined
          | Some d' =>
              Ok (MkBda (erase_data n (put_data "" d' (b_data b))) (b_flags b) (b_flags_on b) (b_weights b) (b_weights_on b) (b_rows b)
                        (b_original b) (b_remaining b))
          end
      end
  end.
End Combine.
Arguments buffer : clear implicits.

(** * Solutions *)
Section Solutions.
Context {G : Type}.
(** base/DPBuffer.h:100-102: the values of a direction, per channel, antenna and polarization; sizes are those of the vectors *)
Definition solutions : Type := list (string * list (list (list G))).
(** base/DPBuffer.cc:173-180: the values of one direction in a channel of a solution: of every antenna those of the direction; [d]: a value outside of the
    vector, which is not read for solutions of the right size *)
Definition of_direction (d : G) (per_channel : list G) (n_antennas n_directions n_pol direction : nat) : list (list G) :=
  map (fun a => map (fun p => nth ((a * n_directions + direction) * n_pol + p) per_channel d) (seq 0 n_pol)) (seq 0 n_antennas).
(** base/DPBuffer.cc:158-183 (SetSolution): a name that occurs twice gets the values of its last place *)
Definition set_solution (d : G) (solution : list (list G)) (n_antennas n_pol : nat) (names : list string) (old : solutions) : solutions :=
  fold_left (fun s i => put (nth i names EmptyString) (map (fun c => of_direction d c n_antennas (List.length names) n_pol i) solution) s)
    (seq 0 (List.length names)) old.
(** base/DPBuffer.cc:184-206 (GetSolution): per channel all antennas and polarizations after another *)
Definition get_solution (s : solutions) (name : string) : outcome (list (list G)) :=
  match lookup name s with Some v => Ok (map (@concat G) v) | None => Throw end.
End Solutions.
