(** Specification for the field computations, independent of how they are done. *)
From Coq Require Import List Bool.
From Verif Require Import FieldsModel.
Import ListNotations.

(** The four fields. *)
Inductive single := kData | kFlags | kWeights | kUvw.
Definition has (f : fields) (k : single) : Prop :=
  match k with
  | kData => f_data f = true | kFlags => f_flags f = true
  | kWeights => f_weights f = true | kUvw => f_uvw f = true
  end.

(** [k] has to come from outside the chain: some step needs it and no earlier
    step creates it (provides it without needing it). *)
Definition needed_from_outside (chain : list step) (k : single) : Prop :=
  exists before s after,
    chain = before ++ s :: after /\ has (s_required s) k /\
    forall s', In s' before -> has (s_provided s') k -> has (s_required s') k.

(** Field [k] was changed since the preceding output step: the position [pre]
    in the chain is preceded by a segment without output steps in which some
    step provides [k]; when the segment reaches the start of the chain, the
    initially provided fields count too. *)
Definition changed_since_output (initial : fields) (pre : list step) (k : single) : Prop :=
  exists older seg,
    pre = older ++ seg /\ (forall s, In s seg -> s_output s = false) /\
    ((exists s, In s seg /\ has (s_provided s) k) \/ (older = [] /\ has initial k)).
