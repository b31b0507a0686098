(** What ApplyBeam is to do, without its tables of beam values. *)
From Coq Require Import String List Bool Arith QArith Qcanon.
From Verif Require Import QcUtil Cplx AverageModel ApplyCalModel BeamModel.
Import ListNotations.
Open Scope nat_scope.

(** Where a name is in a list *)
Fixpoint place (n : string) (l : list string) : nat := match l with [] => 0 | x :: l => if String.eqb x n then 0 else S (place n l) end.
(** The first list is the second one with some elements left out *)
Inductive part_of {T} : list T -> list T -> Prop :=
| Part_nil l : part_of [] l
| Part_take x l m : part_of l m -> part_of (x :: l) (x :: m)
| Part_drop x l m : part_of l m -> part_of l (x :: m).

(** What is in a buffer for a baseline and channel *)
Definition at_cell {T} (data : list (list T)) (b c : nat) : option T := match nth_error data b with Some row => nth_error row c | None => None end.
(** What is measured, if the true visibility is [v] and the beams of the two antennas are [l] and [r] *)
Definition through (l v r : mat) : mat := mmul (mmul l v) (mherm r).
(** A buffer has a row for every baseline and a cell for every channel; the antennas of the baselines exist *)
Definition fits {T} (i : info) (data : list (list T)) : Prop :=
  length data = length (baselines i) /\ Forall (fun row => length row = length (freqs i)) data.
(** The antennas of the baselines exist *)
Definition valid (i : info) : Prop := Forall (fun p => fst p < length (names i) /\ snd p < length (names i)) (baselines i).

Section Response.
Variable response : Qc -> mode -> nat -> Qc -> dir -> mat.

(** The beam of an antenna: the response of the station with its name, or of any if all are alike; nothing is changed without a beam *)
Definition beam (t : telescope) (i : info) (time : Qc) (m : mode) (d : dir) (f : Qc) (antenna : nat) : mat :=
  match m with
  | NoBeam => Mat c1 c0 c0 c1
  | _ => response time m (if homogeneous t then 0 else place (nth antenna (names i) EmptyString) (station_names t)) f d
  end.
(** The same, where it is not changed for the stations with the given names *)
Definition beam_but (skip : list string) (t : telescope) (i : info) (time : Qc) (m : mode) (d : dir) (f : Qc) (antenna : nat) : mat :=
  if existsb (String.eqb (nth antenna (names i) EmptyString)) skip then Mat c1 c0 c0 c1 else beam t i time m d f antenna.
(** The visibilities [data], seen through the beam of mode [m] in direction [d], are [raw] *)
Definition seen_as (t : telescope) (i : info) (time : Qc) (m : mode) (d : dir) (data raw : main) : Prop :=
  forall b c p q f v w, nth_error (baselines i) b = Some (p, q) -> nth_error (freqs i) c = Some f -> at_cell data b c = Some (v, w) ->
    exists w', at_cell raw b c = Some (through (beam t i time m d f p) v (beam t i time m d f q), w').
(** A beam can be undone: it has an inverse; an array factor has no cross terms *)
Definition regular (m : mode) (a : mat) : Prop :=
  match m with
  | NoBeam => True
  | ArrayFactor => m1 a = c0 /\ m2 a = c0 /\ cnorm (m0 a) <> 0%Qc /\ cnorm (m3 a) <> 0%Qc
  | _ => cnorm (mdet a) <> 0%Qc
  end.
End Response.

(** Only the last prediction, or what there was at the start, counts *)
Fixpoint measured (raw : main) (l : list action) : main :=
  match l with [] => raw | Replace _ data :: l => measured data l | Apply _ :: l => measured raw l end.
(** Directions that steps ask for *)
Definition asked (l : list action) : list dir := flat_map (fun a => match a with Apply s => match direction s with Some d => [d] | None => [] end | _ => [] end) l.
