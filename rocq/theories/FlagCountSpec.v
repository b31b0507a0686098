(** What the counts and tables of a flag counter mean. *)
From Coq Require Import List Bool Arith Ascii.
From Verif Require Import FlagCountModel.
Import ListNotations.

Definition event_dec (x y : event) : {x = y} + {x <> y}.
Proof. decide equality; apply Nat.eq_dec. Defined.

(** Antenna [a] is part of the baseline; the baseline is between [a] and [b]. *)
Definition involves (a : nat) (b : bline) : bool := (ant1 b =? a) || (ant2 b =? a).
Definition between (a b : nat) (x : bline) : bool :=
  ((ant1 x =? a) && (ant2 x =? b)) || ((ant1 x =? b) && (ant2 x =? a)).

(** A flagged sample (baseline, channel) is counted once for each. *)
Definition sample_events (bc : nat * nat) : list event := [IncrBaseline (fst bc); IncrChannel (snd bc)].

(** File names: the directory part and the part without directory, for a text without further slashes. *)
Definition no_char (c : ascii) (s : list ascii) : Prop := ~ In c s.
