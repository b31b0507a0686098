(** Properties C01 and C02. *)
From Coq Require Import List Bool.
From Verif Require Import FieldsModel FieldsSpec FieldsProofs.
Import ListNotations.

(** C01: the reader is asked for a field exactly when the chain needs it from outside. *)
Theorem C01_chain_required_exact : forall chain k,
  has (chain_required chain) k <-> needed_from_outside chain k.
Proof. exact chain_required_spec. Qed.
Print Assumptions C01_chain_required_exact.

(** Non-trivial case: step 1 creates the data, step 2 needs data and flags. *)
Definition ex_creates_data := MkStep (MkFields false false false true) (MkFields true false false false) false.
Definition ex_uses_data := MkStep (MkFields true true false false) (MkFields false true false false) false.
Example C01_example :
  chain_required [ex_creates_data; ex_uses_data] = MkFields false true false true /\
  chain_required [ex_uses_data; ex_creates_data] = MkFields true true false true.
Proof. split; reflexivity. Qed.

(** C02: each output step writes exactly what changed since the previous one. *)
Theorem C02_chain_provided_exact : forall initial chain,
  let '(ws, final) := chain_provided chain initial in
  length ws = length (filter s_output chain) /\
  (forall before s after,
      chain = before ++ s :: after -> s_output s = true ->
      exists w, nth_error ws (length (filter s_output before)) = Some w /\
                forall k, has w k <-> changed_since_output initial before k) /\
  (forall k, has final k <-> changed_since_output initial chain k).
Proof. exact chain_provided_spec. Qed.
Print Assumptions C02_chain_provided_exact.

Definition ex_out := MkStep f_none f_none true.
Example C02_example :
  chain_provided [ex_creates_data; ex_out; ex_uses_data; ex_out; ex_out] (MkFields false false true false)
  = ([MkFields true false true false; MkFields false true false false; f_none], f_none).
Proof. reflexivity. Qed.
