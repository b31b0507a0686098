(** What a reader of a measurement set should deliver for a time slot. *)
From Coq Require Import QArith Qcanon List Bool Arith ZArith.
Import ListNotations.
Open Scope nat_scope.

(** A stored array of channels and correlations *)
Definition shaped {A} (channels correlations : nat) (l : list (list A)) : Prop :=
  length l = channels /\ Forall (fun x => length x = correlations) l.
Definition stored {A} (l : list (list A)) (channel correlation : nat) (d : A) : A := nth correlation (nth channel l []) d.

(** A delivered cube: the value for a baseline, channel and correlation *)
Definition value {A} (channels correlations : nat) (cube : list A) (b c p : nat) (d : A) : A :=
  nth ((b * channels + c) * correlations + p) cube d.

(** A sample is flagged if any of its correlations is *)
Definition any (n : nat) (f : nat -> bool) : bool := existsb f (seq 0 n).

(** Number of elements with a property *)
Definition number {A} (f : A -> bool) (l : list A) : nat := length (filter f l).

(** Which correlations of the two autocorrelations belong to correlation [p]: for XX, XY, YX, YY and for XX, YY *)
Definition feeds (n_corr p : nat) : nat * nat :=
  match n_corr, p with
  | 4, 0 => (0, 0) | 4, 1 => (0, 3) | 4, 2 => (3, 0) | 4, 3 => (3, 3)
  | 2, 1 => (1, 1)
  | _, _ => (0, 0)
  end.
