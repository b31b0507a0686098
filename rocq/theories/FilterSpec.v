(** What filtering on baselines and channels and removing stations should do. *)
From Coq Require Import List Bool Arith ZArith Sorted Qcanon.
From Verif Require Import FilterModel.
Import ListNotations.
Open Scope nat_scope.

(** [sel] are the selected baselines, in order. *)
Definition is_selection (nbl : nat) (mask : option (list bool)) (sel : list nat) : Prop :=
  StronglySorted lt sel /\
  forall b, In b sel <-> b < nbl /\ match mask with None => True | Some m => nth b m false = true end.

(** [dst] (rows of n channels) holds the channels from [start] on of the
    baselines [sel] of [src] (rows of nchan channels), each of [ncorr] values. *)
Definition picks {X} (nchan ncorr start n : nat) (sel : list nat) (src dst : list X) : Prop :=
  length dst = length sel * n * ncorr /\
  forall i b c p, nth_error sel i = Some b -> c < n -> p < ncorr ->
    nth_error dst ((i * n + c) * ncorr + p) = nth_error src ((b * nchan + start + c) * ncorr + p).

(** The place of id [j] after the removed ids have gone: [None] if it is removed. *)
Definition new_id (removed : list nat) (j : nat) : option nat :=
  if existsb (Nat.eqb j) removed then None
  else Some (length (filter (fun i => negb (existsb (Nat.eqb i) removed)) (seq 0 j))).

(** The rows of a table that are kept. *)
Definition kept_rows {X} (removed : list nat) (rows : list X) : list X :=
  map snd (filter (fun r => negb (existsb (Nat.eqb (fst r)) removed)) (combine (seq 0 (length rows)) rows)).

(** A baseline is selected by a vector of station names. *)
Definition named {N Pat} (matches : Pat -> N -> bool) (names : list N) (e : bl_entry Pat) (x y : nat) : Prop :=
  let m p i := exists s, nth_error names i = Some s /\ matches p s = true in
  match e with
  | One p => m p x \/ m p y
  | Two p q => (m p x /\ m q y) \/ (m p y /\ m q x)
  end.

(** A baseline is selected by corrtype. *)
Definition has_corr_type (ct : corr_type) (x y : nat) : Prop :=
  match ct with CtAny => True | CtAuto => x = y | CtCross => x <> y end.

(** A length lies in one of the ranges, ends included. *)
Definition in_ranges (ranges : list (Qc * Qc)) (len : Qc) : Prop := exists r, In r ranges /\ (fst r <= len)%Qc /\ (len <= snd r)%Qc.
