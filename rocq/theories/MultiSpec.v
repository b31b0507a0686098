(** What combining measurement sets in frequency means. *)
From Coq Require Import List Bool Arith QArith Qcanon Permutation Sorted.
From Verif Require Import QcUtil MultiModel.
From Verif Require TimesModel.
Import ListNotations.
Open Scope nat_scope.

(** Where channel [c] of the combination comes from: which measurement set and which channel of it; [ns]: the numbers of channels *)
Fixpoint origin (ns : list nat) (c : nat) : option (nat * nat) :=
  match ns with
  | [] => None
  | n :: ns => if c <? n then Some (0, c) else option_map (fun p => (S (fst p), snd p)) (origin ns (c - n))
  end.
(** A value of a baseline and channel *)
Definition cell {A} (m : list (list A)) (b c : nat) : option A := match nth_error m b with Some row => nth_error row c | None => None end.
(** Values for [nb] baselines and [n] channels *)
Definition shape {A} (nb n : nat) (m : list (list A)) : Prop := length m = nb /\ Forall (fun row => length row = n) m.

Section Spec.
Context {V F W : Type}.
Notation slot := (slot V F W).
Notation reader := (reader V F W).
(** A time slot with that shape *)
Definition shaped (nb n : nat) (s : slot) : Prop := shape nb n (data _ _ _ s) /\ shape nb n (flags _ _ _ s) /\ shape nb n (weights _ _ _ s).
(** The numbers of channels; a measurement set that does not exist counts for [n] *)
Definition channels (n : nat) (l : list (option reader)) : list nat := map (fun r => match r with Some r => n_chan _ _ _ r | None => n end) l.
(** What a run over one measurement set alone delivers *)
Definition delivers (near : Qc -> Qc -> bool) (r : reader) (outs : list (Qc * option slot)) : Prop :=
  exists fuel, TimesModel.read_all (slot_time _ _ _) near (times (r_info _ _ _ r)) fuel (state _ _ _ r) = Some outs.
(** The value of the combination is the one of the measurement set it comes from, or the one for measurement sets that do not exist *)
Definition taken {A} (get : slot -> list (list A)) (empty : A) (n nb : nat) (l : list (option reader)) (slots : nat -> option slot) (m : list (list A)) : Prop :=
  forall b c i j, b < nb -> origin (channels n l) c = Some (i, j) ->
    match nth_error l i with
    | Some (Some _) => match slots i with Some s => cell m b c = cell (get s) b j | None => False end
    | _ => cell m b c = Some empty
    end.
End Spec.
