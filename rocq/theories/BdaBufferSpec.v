(** What users of a BDA buffer rely on, stated on the visible rows and arrays. *)
From Coq Require Import List String Bool Arith.
From Verif Require Import BdaBufferModel.
Import ListNotations.

Section Spec.
Context {C W T U : Type}.
Notation bda := (bda C W T U).
Notation row := (row T U).

(** Number of elements in the first [i] rows. *)
Definition size_before (rows : list row) (i : nat) : nat :=
  list_sum (map (fun r => r_nchan r * r_ncorr r) (firstn i rows)).

Definition total_size (rows : list row) : nat := size_before rows (List.length rows).

(** Every present array holds exactly the elements of the rows, and used plus
    remaining capacity is the original capacity. *)
Definition arrays_full (b : bda) : Prop :=
  total_size (b_rows b) + b_remaining b = b_original b /\
  (forall n v, In (n, v) (b_data b) -> List.length v = total_size (b_rows b)) /\
  (b_flags_on b = true -> List.length (b_flags b) = total_size (b_rows b)) /\
  (b_weights_on b = true -> List.length (b_weights b) = total_size (b_rows b)).

(** Rows lie back to back. *)
Definition rows_tile (b : bda) : Prop :=
  forall i r, nth_error (b_rows b) i = Some r -> r_offset r = size_before (b_rows b) i.

(** Two rows share an element of the arrays. *)
Definition rows_overlap (r1 r2 : row) : Prop :=
  exists k, (r_offset r1 <= k < r_offset r1 + r_nchan r1 * r_ncorr r1) /\
            (r_offset r2 <= k < r_offset r2 + r_nchan r2 * r_ncorr r2).

(** Some array is present in which rows can be stored. *)
Definition has_storage (b : bda) : Prop :=
  b_data b <> [] \/ b_flags_on b = true \/ b_weights_on b = true.

(** The operation does not touch the data buffer called [n], and keeps the rows. *)
Definition keeps (n : string) (o : op C W T U) : Prop :=
  match o with
  | OpAddRow _ => True
  | OpAddData _ => True
  | OpRemoveData m => m <> n
  | OpMoveData s t => s <> n /\ t <> n
  | OpMoveIn _ t => t <> n
  | OpClear => False
  end.

(** The elements given for a row: those of the pointer, or [n] times a default for a null pointer. *)
Definition given {A} (n : nat) (z : A) (p : option (list A)) : list A :=
  match p with Some l => l | None => repeat z n end.
End Spec.
