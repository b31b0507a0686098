(** What upsampling should do. *)
From Coq Require Import QArith Qcanon List Bool Arith.
From Verif Require Import QcUtil AverageModel UpsampleModel.
Import ListNotations.
Open Scope Qc_scope.

Section Spec.
Context {P : Type}.
Variables (ts : nat) (dt : Qc).

(** The [i]-th of the [ts] equal parts of the interval of input slot [b]. *)
Definition is_piece (b : ubuf P) (i : nat) (o : ubuf P) : Prop :=
  u_time o = (u_time b - qn ts * dt * half) + qn i * dt + dt * half /\
  u_exposure o * qn ts = u_exposure b /\
  u_flagged o = u_flagged b /\ u_payload o = u_payload b.

(** Slot [b'] follows slot [b] after [m] output intervals, with an error of at
    most 0.4 of it, or, if there is no overlap, at any later time. *)
Definition after (b b' : ubuf P) (m : nat) : Prop :=
  (qn m - Q2Qc (2 # 5)) * dt <= u_time b' - u_time b /\
  ((m < ts)%nat -> u_time b' - u_time b <= (qn m + Q2Qc (2 # 5)) * dt).

(** A stream of slots, each at least half an input interval after the previous
    one. *)
Fixpoint spaced (l : list (ubuf P)) : Prop :=
  match l with
  | b :: ((b' :: _) as r) => (exists m, (0 < m)%nat /\ (ts <= 2 * m)%nat /\ after b b' m) /\ spaced r
  | _ => True
  end.

(** Consecutive output times are at least 0.2 output interval apart. *)
Fixpoint increasing (l : list (ubuf P)) : Prop :=
  match l with
  | o :: ((o' :: _) as r) => u_time o + Q2Qc (1 # 5) * dt <= u_time o' /\ increasing r
  | _ => True
  end.

(** Every piece of every input slot is in the output, or the output has at that
    time a piece of the next slot, which is not flagged, or, if the slot is
    flagged, of the previous one. *)
Definition covered (l out : list (ubuf P)) : Prop :=
  forall k b i, nth_error l k = Some b -> (i < ts)%nat ->
  exists o, In o out /\
    (is_piece b i o \/
     exists k' b' j o', nth_error l k' = Some b' /\
       ((k' = S k /\ u_flagged b' = false) \/ (S k' = k /\ u_flagged b = true)) /\ (j < ts)%nat /\
       is_piece b' j o /\ is_piece b i o' /\ same_time dt o' o = true).

(** Every output slot is a piece of an input slot. *)
Definition nothing_invented (l out : list (ubuf P)) : Prop :=
  forall o, In o out -> exists b i, In b l /\ (i < ts)%nat /\ is_piece b i o.
End Spec.
