(** Model of base/BdaBuffer.h and base/BdaBuffer.cc.

    Visibility values, weights, times and uvw triples are abstract types; the
    only operation on times used by the buffer is the ordering test of AddRow,
    which is a parameter, so the results hold for IEEE doubles and any tolerance.
    Memory obtained by [UVector::resize] is not initialised: elements are
    [option]s and [None] stands for an indeterminate value.
    Sizes are natural numbers: size_t wrap-around of n_channels*n_correlations
    is not modelled. *)
From Coq Require Import List String Bool Arith.
Import ListNotations.
Open Scope nat_scope.

Section BdaBuffer.
Context {C W T U : Type}.
Variable c_zero : C.   (* std::complex<float>{0.0, 0.0}, BdaBuffer.cc:125 *)
Variable w_zero : W.   (* 0.0, BdaBuffer.cc:149 *)
(** BdaBuffer.cc:109-110: TimeIsLessEqual(time + interval/2,
    back.time - back.interval/2), for the time and interval of the new row and of
    the last row. *)
Variable too_early : T -> T -> T -> T -> bool.

(** BdaBuffer.h:27-42, struct Row.  [row_uvw] is [None] if no uvw pointer was
    given (NaNs are stored then, BdaBuffer.cc:25-27).  Exposure is omitted. *)
Record row := MkRow {
  r_time : T; r_interval : T; r_rownr : nat; r_baseline : nat;
  r_nchan : nat; r_ncorr : nat; r_offset : nat; r_uvw : option U }.

(** BdaBuffer.h:31, GetDataSize. *)
Definition row_size (r : row) : nat := r_nchan r * r_ncorr r.

(** BdaBuffer.h:229-240.  [b_data] is the std::map, as an association list;
    [b_flags_on] / [b_weights_on] are [capacity() > 0] of the two vectors. *)
Record bda := MkBda {
  b_data : list (string * list (option C));
  b_flags : list (option bool); b_flags_on : bool;
  b_weights : list (option W); b_weights_on : bool;
  b_rows : list row;
  b_original : nat; b_remaining : nat }.

(** BdaBuffer.cc:29-45, constructor.  reserve(pool_size) makes the capacity
    positive exactly when pool_size > 0. *)
Definition bda_new (pool : nat) (fdata fflags fweights : bool) : bda :=
  MkBda (if fdata then [(EmptyString, [])] else [])
        [] (fflags && (0 <? pool)) [] (fweights && (0 <? pool)) [] pool pool.

(** std::map::find. *)
Fixpoint find_data (n : string) (l : list (string * list (option C))) : option (list (option C)) :=
  match l with
  | [] => None
  | (k, v) :: l => if String.eqb k n then Some v else find_data n l
  end.

(** std::map insertion/assignment.  A new key is appended instead of being put
    at its sorted position: the iteration order only decides from which data
    buffer the offset of a new row is taken (line 120), and all data buffers
    have the same size (see BdaBufferProps). *)
Fixpoint put_data (n : string) (v : list (option C)) (l : list (string * list (option C))) :=
  match l with
  | [] => [(n, v)]
  | (k, x) :: l' => if String.eqb k n then (k, v) :: l' else (k, x) :: put_data n v l'
  end.

(** std::map::erase. *)
Definition erase_data (n : string) (l : list (string * list (option C))) :=
  filter (fun kv => negb (String.eqb (fst kv) n)) l.

(** UVector::resize to [n] elements: truncate or extend with indeterminate values. *)
(** BdaBuffer.h:86, BdaBuffer.cc:45: resize of the vectors *)
Definition resize {A} (n : nat) (v : list (option A)) : list (option A) :=
  firstn n v ++ repeat None (n - List.length v).

(** BdaBuffer.h:165-167, GetNumberOfElements (wrap-around not modelled). *)
Definition n_elements (b : bda) : nat := b_original b - b_remaining b.

(** BdaBuffer.h:83-87, AddData. *)
Definition add_data (b : bda) (n : string) : bda :=
  let old := match find_data n (b_data b) with Some v => v | None => [] end in
  MkBda (put_data n (resize (n_elements b) old) (b_data b))
        (b_flags b) (b_flags_on b) (b_weights b) (b_weights_on b)
        (b_rows b) (b_original b) (b_remaining b).

(** BdaBuffer.h:107, RemoveData. *)
Definition remove_data (b : bda) (n : string) : bda :=
  MkBda (erase_data n (b_data b))
        (b_flags b) (b_flags_on b) (b_weights b) (b_weights_on b)
        (b_rows b) (b_original b) (b_remaining b).

(** BdaBuffer.cc:92-100, Clear. *)
Definition clear (b : bda) : bda :=
  MkBda (map (fun kv => (fst kv, [])) (b_data b))
        [] (b_flags_on b) [] (b_weights_on b) [] (b_original b) (b_original b).

(** Result of an operation: [Ok], AddRow returning false, AddRow throwing
    std::invalid_argument, or an assertion failure / invalid pointer. *)
Inductive result := Done (b : bda) | Refused | Thrown | Undefined.

(** BdaBuffer.cc:80-90, MoveData with &source == this. *)
Definition move_data (b : bda) (src tgt : string) : result :=
  if String.eqb src tgt then Done b else
  match find_data src (b_data b) with
  | None => Undefined (* assert on line 86 *)
  | Some v =>
      if List.length v =? n_elements b then
        Done (MkBda (erase_data src (put_data tgt v (b_data b)))
                (b_flags b) (b_flags_on b) (b_weights b) (b_weights_on b)
                (b_rows b) (b_original b) (b_remaining b))
      else Undefined (* assert on line 87 *)
  end.

(** BdaBuffer.cc:80-90, MoveData from another buffer, whose vector is [v]; the
    source side is not modelled. *)
Definition move_in (b : bda) (v : list (option C)) (tgt : string) : result :=
  if List.length v =? n_elements b then
    Done (MkBda (put_data tgt v (b_data b))
            (b_flags b) (b_flags_on b) (b_weights b) (b_weights_on b)
            (b_rows b) (b_original b) (b_remaining b))
  else Undefined.

(** BdaBuffer.cc:119-127: append the new elements to every data buffer; the
    offset is the old size of the last one. *)
Definition append_data (n : nat) (d : option (list C)) (l : list (string * list (option C)))
  : list (string * list (option C)) * nat :=
  fold_left (fun acc kv =>
     let '(out, _) := acc in
     let '(k, v) := kv in
     let extra := match d with
                  | Some d => if String.eqb k EmptyString then map Some d else repeat (Some c_zero) n
                  | None => repeat (Some c_zero) n
                  end in
     (out ++ [(k, v ++ extra)], List.length v)) l ([], 0).

(** A pointer argument either is null or points to exactly [n] elements. *)
(** BdaBuffer.cc:102-108: the pointer arguments of AddRow *)
Definition ptr_ok {A} (n : nat) (p : option (list A)) : bool :=
  match p with None => true | Some l => List.length l =? n end.

(** The arguments of AddRow. *)
(** BdaBuffer.cc:102-108 *)
Record row_args := MkArgs {
  a_time : T; a_interval : T; a_baseline : nat; a_nchan : nat; a_ncorr : nat;
  a_rownr : nat; a_data : option (list C); a_flags : option (list bool);
  a_weights : option (list W); a_uvw : option U }.

(** BdaBuffer.cc:102-156, AddRow. *)
Definition add_row (b : bda) (a : row_args) : result :=
  let bad_order :=
    match rev (b_rows b) with
    | [] => false
    | back :: _ => too_early (a_time a) (a_interval a) (r_time back) (r_interval back)
    end in
  if bad_order then Thrown else
  let n := a_nchan a * a_ncorr a in
  if b_remaining b <? n then Refused else
  if negb (ptr_ok n (a_data a) && ptr_ok n (a_flags a) && ptr_ok n (a_weights a)) then Undefined else
  let '(data', offset) := append_data n (a_data a) (b_data b) in
  (* lines 128-139 *)
  let '(flags', offset1, ok1) :=
    if b_flags_on b then
      let o := if offset =? 0 then List.length (b_flags b) else offset in
      let ok := if offset =? 0 then true else offset =? List.length (b_flags b) in
      (b_flags b ++ match a_flags a with Some f => map Some f | None => repeat (Some false) n end, o, ok)
    else (b_flags b, offset, true) in
  (* lines 140-151 *)
  let '(weights', offset2, ok2) :=
    if b_weights_on b then
      let o := if offset1 =? 0 then List.length (b_weights b) else offset1 in
      let ok := if offset1 =? 0 then true else offset1 =? List.length (b_weights b) in
      (b_weights b ++ match a_weights a with Some f => map Some f | None => repeat (Some w_zero) n end, o, ok)
    else (b_weights b, offset1, true) in
  if ok1 && ok2 then
    Done (MkBda data' flags' (b_flags_on b) weights' (b_weights_on b)
            (b_rows b ++ [MkRow (a_time a) (a_interval a) (a_rownr a) (a_baseline a)
                            (a_nchan a) (a_ncorr a) offset2 (a_uvw a)])
            (b_original b) (b_remaining b - n))
  else Undefined. (* assert on line 132 or 144 *)

(** BdaBuffer.cc:50-78, the copying constructor. *)
Definition bda_copy (o : bda) (fdata fflags fweights : bool) : bda :=
  let n := b_original o - b_remaining o in
  MkBda (if fdata then
           map (fun kv => (fst kv, resize n (snd kv)))
               (match find_data EmptyString (b_data o) with
                | Some _ => b_data o
                | None => put_data EmptyString [] (b_data o)
                end)
         else [])
        (if fflags then resize n (b_flags o) else []) (fflags && (0 <? n))
        (if fweights then resize n (b_weights o) else []) (fweights && (0 <? n))
        (b_rows o) n 0.

(** Reading a row: BdaBuffer.cc:158-186 (GetData(row, name)), BdaBuffer.h:182-204
    (GetFlags(row), GetWeights(row)), then the GetDataSize() elements from there.
    Outer [None]: null pointer; an out-of-range read is shown as [Some None]. *)
Definition read_from {A} (v : list (option A)) (r : row) : option (option (list (option A))) :=
  match v with
  | [] => None
  | _ => Some (if r_offset r + row_size r <=? List.length v
               then Some (firstn (row_size r) (skipn (r_offset r) v)) else None)
  end.
(** BdaBuffer.cc:158-186 *)
Definition read_data (b : bda) (n : string) (r : row) :=
  match find_data n (b_data b) with None => None | Some v => read_from v r end.
(** BdaBuffer.h:182-204 (GetFlags) *)
Definition read_flags (b : bda) (r : row) := read_from (b_flags b) r.
(** BdaBuffer.h:182-204 (GetWeights) *)
Definition read_weights (b : bda) (r : row) := read_from (b_weights b) r.

(** Operation sequences.  A refused or throwing AddRow leaves the buffer as it is. *)
(** The members of BdaBuffer.h:83-140 that change a buffer *)
Inductive op :=
| OpAddRow (a : row_args) | OpAddData (n : string) | OpRemoveData (n : string)
| OpMoveData (s t : string) | OpMoveIn (v : list (option C)) (t : string) | OpClear.

(** BdaBuffer.h:83-107, BdaBuffer.cc:80-156: one call *)
Definition apply_op (b : bda) (o : op) : result :=
  match o with
  | OpAddRow a => add_row b a
  | OpAddData n => Done (add_data b n)
  | OpRemoveData n => Done (remove_data b n)
  | OpMoveData s t => move_data b s t
  | OpMoveIn v t => move_in b v t
  | OpClear => Done (clear b)
  end.

(** [None] if some operation had undefined behaviour. *)
(** Not in the code: a sequence of calls on a buffer (BdaBuffer.h:60-140) *)
Fixpoint run (b : bda) (ops : list op) : option bda :=
  match ops with
  | [] => Some b
  | o :: rest =>
      match apply_op b o with
      | Done b' => run b' rest
      | Refused | Thrown => run b rest
      | Undefined => None
      end
  end.
End BdaBuffer.

Arguments bda : clear implicits.
Arguments row : clear implicits.
Arguments row_args : clear implicits.
Arguments op : clear implicits.
