(** What updating a measurement set should do to a row. *)
From Coq Require Import QArith Qcanon List Bool Arith.
From Verif Require Import CellsSpec.
Import ListNotations.
Open Scope nat_scope.

(** A stored array of [channels] and [correlations] of which [n] channels from [start] on get new values, if [written] *)
Definition replaced {A} (channels correlations start n : nat) (written : bool) (new : nat -> nat -> A) (d : A)
    (before after : list (list A)) : Prop :=
  shaped channels correlations after /\
  forall c p, c < channels -> p < correlations ->
    stored after c p d = if written && (start <=? c) && (c <? start + n) then new (c - start) p else stored before c p d.
(** What a reader takes for the flag of a sample *)
Definition seen (flag_row : bool) (flags : list (list bool)) (c p : nat) : bool := flag_row || stored flags c p false.
(** A cube in which all correlations of a sample have the same value *)
Definition uniform (baselines channels correlations : nat) (cube : list bool) : Prop :=
  forall b c p q, b < baselines -> c < channels -> p < correlations -> q < correlations ->
    value channels correlations cube b c p false = value channels correlations cube b c q false.
