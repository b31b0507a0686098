(** What a median is, independent of common/Median.h. *)
From Coq Require Import List Arith Permutation QArith Qcanon.
Import ListNotations.
Open Scope Qc_scope.

(** In order from small to large *)
Inductive ascending : list Qc -> Prop :=
| asc_nil : ascending []
| asc_cons x l : (forall y, In y l -> x <= y) -> ascending l -> ascending (x :: l).

(** [m] is the median of [v]: sort the values and take the middle one, or the mean of the two in the
    middle; 0 if there are none. *)
Definition is_median (v : list Qc) (m : Qc) : Prop :=
  exists s, Permutation v s /\ ascending s /\
  let h := (length s / 2)%nat in
  match length s with
  | O => m = 0
  | _ => if Nat.odd (length s) then nth_error s h = Some m
         else exists a b, nth_error s (h - 1) = Some a /\ nth_error s h = Some b /\ m = (a + b) / (1 + 1)
  end.
