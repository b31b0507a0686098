(** Specification for combining buffers with model data, independent of the model; only the record for buffers is used. *)
From Coq Require Import List Arith Bool.
From Verif Require Import BdaQueueModel.
Import ListNotations.

Section Spec.
Context {D M F W : Type}.
(** The model data for direction [d] of buffer [b], if that has flags [f]: made for this buffer, or what came with it *)
Definition model_of (n_steps : nat) (predict : nat -> F * W -> M) (f : F) (b : buffer D M F W) (d : nat) : option M :=
  if d <? n_steps then Some (predict d (f, rest b)) else nth d (models b) None.
(** The model data that is not made by steps came with the buffer; data that is to be made by steps did not *)
Definition has_what_it_needs (n_steps n_dir : nat) (b : buffer D M F W) : Prop :=
  forall d, n_steps <= d -> d < n_dir -> exists m, nth_error (models b) d = Some (Some m).
Definition fits (n_steps n_dir : nat) (b : buffer D M F W) : Prop := length (models b) = n_dir /\ forall d, d < n_steps -> nth_error (models b) d = Some None.
End Spec.
