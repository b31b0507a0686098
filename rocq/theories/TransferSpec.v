(** What copying from an averaged measurement set should do. *)
From Coq Require Import QArith Qcanon List Bool Arith ZArith Sorted.
Import ListNotations.
Open Scope nat_scope.

(** Element of an array of baselines and channels *)
Definition at_cell {A} (g : list (list A)) (r c : nat) : option A :=
  match nth_error g r with Some l => nth_error l c | None => None end.
(** [r] baselines with [n] channels *)
Definition rectangle {A} (r n : nat) (g : list (list A)) : Prop := length g = r /\ Forall (fun l => length l = n) g.

(** The time slot of the source for time slot [k] of the target: each one is for [f] slots of the target, and the last one
    is for the rest. *)
Definition slot_of (k f n : nat) : nat := Nat.min (k / f) (n - 1).

(** The first channel of the source that ends above the frequency of channel [c] of the target *)
Definition ends_above (freqs edges : list Qc) (c b : nat) : Prop :=
  b < length edges /\ (nth c freqs 0 < nth b edges 0)%Qc /\ forall b', b' < b -> (nth b' edges 0 <= nth c freqs 0)%Qc.
(** The channel of the source for channel [c] of the target *)
Definition source_channel (n nsource : nat) (freqs edges : list Qc) (c b : nat) : Prop :=
  if n =? nsource then b = c else ends_above freqs edges c b.

(** [result] is [target] with the baselines [rows] replaced by those of [source], where the source has a channel *)
Definition transferred {A} (n nsource : nat) (freqs edges : list Qc) (rows : list nat) (source target result : list (list A)) : Prop :=
  rectangle (length target) n result /\
  (forall s r c b, nth_error rows s = Some r -> c < n -> source_channel n nsource freqs edges c b -> at_cell result r c = at_cell source s b) /\
  (forall r c, ~ In r rows -> at_cell result r c = at_cell target r c) /\
  (forall r c, (forall b, ~ source_channel n nsource freqs edges c b) -> at_cell result r c = at_cell target r c).

(** Frequencies in ascending order *)
Definition ascending (l : list Qc) : Prop := forall i j, i < j < length l -> (nth i l 0 <= nth j l 0)%Qc.

(** Channel [b] of the source contains frequency [f] *)
Definition contains (freqs widths : list Qc) (b : nat) (f : Qc) : Prop :=
  (nth b freqs 0 - Q2Qc (1 # 2) * nth b widths 0 <= f)%Qc /\ (f < nth b freqs 0 + Q2Qc (1 # 2) * nth b widths 0)%Qc.

(** The baselines of the target that a selection stands for *)
Definition baselines (selected : list nat) (nt : nat) : list nat := match selected with [] => seq 0 nt | _ => selected end.
(** Row numbers of a buffer that come one after the other *)
Definition consecutive (nt : nat) (rows : list Z) : Prop :=
  exists r0 : Z, (0 <= r0 /\ r0 + Z.of_nat nt <= 2 ^ 64)%Z /\ rows = map (fun i => r0 + Z.of_nat i)%Z (seq 0 nt).
