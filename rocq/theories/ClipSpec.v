(** What the clipper should flag. *)
From Coq Require Import List Bool Arith Sorted.
From Verif Require Import ClipModel.
Import ListNotations.

(** Some value of the block is too large: the baseline is the [f]-th selected one and the prediction [pred] for its
    representative channel exceeds the maximum, in this correlation or, if asked, in any. *)
Definition clipped {V} (S : setup) (exceeds : V -> bool) (pred : nat -> nat -> nat -> V) (b c p : nat) : Prop :=
  exists f, nth_error (sel S) f = Some b /\
    exists q, q < ncorr S /\ exceeds (pred f (c / frequency_step S) q) = true /\ (all_corr S = true \/ q = p).

Definition ascending (l : list nat) : Prop := StronglySorted lt l.
