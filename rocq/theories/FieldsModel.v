(** Model of common/Fields.h and of the two chain computations in base/DP3.cc. *)
From Coq Require Import List Bool.
Import ListNotations.

(** common/Fields.h:127 - [std::bitset<kCount> value_], with one bit per value
    of [Fields::Single] (lines 26-32): data, flags, weights, uvw. *)
Record fields := MkFields { f_data : bool; f_flags : bool; f_weights : bool; f_uvw : bool }.

(** common/Fields.h:32 - default constructor: no field set. *)
Definition f_none : fields := MkFields false false false false.

(** common/Fields.h:72-75 - [operator|=]; also [operator|], lines 97-101. *)
Definition f_or (a b : fields) : fields :=
  MkFields (f_data a || f_data b) (f_flags a || f_flags b)
           (f_weights a || f_weights b) (f_uvw a || f_uvw b).

(** bitwise and / complement of std::bitset as used in common/Fields.h:86-89. *)
Definition f_and (a b : fields) : fields :=
  MkFields (f_data a && f_data b) (f_flags a && f_flags b)
           (f_weights a && f_weights b) (f_uvw a && f_uvw b).
(** std::bitset complement in common/Fields.h:86-89 *)
Definition f_not (a : fields) : fields :=
  MkFields (negb (f_data a)) (negb (f_flags a)) (negb (f_weights a)) (negb (f_uvw a)).

(** common/Fields.h:85-91 - [UpdateRequirements(required, provided)]. *)
Definition update_requirements (v required provided : fields) : fields :=
  let to_reset := f_and provided (f_not required) in
  let v := f_or v required in
  f_and v (f_not to_reset).

(** A step as seen by the chain computations: steps/Step.h
    [getRequiredFields], [getProvidedFields], and whether the step is an
    OutputStep (dynamic_cast in base/DP3.cc:293). *)
Record step := MkStep { s_required : fields; s_provided : fields; s_output : bool }.

(** base/DP3.cc:272-287 - [GetChainRequiredFields].  The chain is walked from
    the last step back to the first one.  The linked list of steps is a list
    here (first step first); the prev/next pointers are assumed consistent. *)
Definition chain_required (chain : list step) : fields :=
  fold_left (fun v s => update_requirements v (s_required s) (s_provided s))
            (rev chain) f_none.

(** base/DP3.cc:289-302 - [SetChainProvidedFields].  Returns the fields passed
    to [SetFieldsToWrite] of each output step, in chain order, and the fields
    still unwritten at the end. *)
Fixpoint chain_provided (chain : list step) (provided : fields) : list fields * fields :=
  match chain with
  | [] => ([], provided)
  | s :: rest =>
      if s_output s then
        let '(ws, p) := chain_provided rest f_none in (provided :: ws, p)
      else chain_provided rest (f_or provided (s_provided s))
  end.
