(** Specification for the bookkeeping of DDECal, independent of the model; only the records for buffers and settings are used. *)
From Coq Require Import List Arith Bool.
From Verif Require Import DdecalModel.
Import ListNotations.

(** Part [k] of a list that is divided in parts of [s], of which the last may be shorter *)
Definition part {T} (s k : nat) (l : list T) : list T := firstn s (skipn (k * s) l).
(** How many parts there are for [n] elements *)
Definition parts (s n : nat) : nat := (n + s - 1) / s.

Section Spec.
Context {D F W M S : Type}.
(** The buffer with the flags of the UVW flagger *)
Definition flagged (uvw : buffer D F W M -> F) (b : buffer D F W M) : buffer D F W M := Buffer (data b) (uvw b) (rest b) (models b).
(** [ms] is the model data for buffer [b]: predicted for that buffer, or what came with it *)
Definition own_models (has_step : list bool) (uvw : buffer D F W M -> F) (predict : nat -> buffer D F W M -> M) (b : buffer D F W M) (ms : list M) : Prop :=
  length ms = length has_step /\
  forall d step, nth_error has_step d = Some step -> exists m, nth_error ms d = Some m /\
    if step then m = predict d (flagged uvw b) else nth_error (models b) d = Some (Some m).
(** The model data that the steps do not make is there *)
Definition models_there (has_step : list bool) (b : buffer D F W M) : Prop :=
  forall d, nth_error has_step d = Some false -> exists m, nth_error (models b) d = Some (Some m).
End Spec.
