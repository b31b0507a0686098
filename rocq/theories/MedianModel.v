(** Model of common/Median.h.  Values are exact numbers (no NaN, no rounding).
    std::nth_element is any function with the contract of the C++ standard. *)
From Coq Require Import List Arith Permutation QArith Qcanon.
Import ListNotations.
Open Scope Qc_scope.

(** The contract of std::nth_element(begin, begin + n, end), used in common/Median.h:23, 28: the same
    elements, none before position n is larger than the one at n and none after it is smaller. *)
Definition nth_element (sel : nat -> list Qc -> list Qc) : Prop :=
  forall n v, (n < length v)%nat ->
    Permutation v (sel n v) /\
    (forall i, (i < n)%nat -> nth i (sel n v) 0 <= nth n (sel n v) 0) /\
    (forall i, (n < i < length v)%nat -> nth n (sel n v) 0 <= nth i (sel n v) 0).

(** common/Median.h:17-31 (Median): the result and the vector afterwards *)
Definition median (sel : nat -> list Qc -> list Qc) (v : list Qc) : Qc * list Qc :=
  match v with
  | [] => (0, [])
  | _ =>
    let target := (length v / 2)%nat in
    let v1 := sel target v in
    if Nat.odd (length v) then (nth target v1 0, v1)
    else
      let before := (target - 1)%nat in
      let v2 := sel before v1 in
      ((nth target v2 0 + nth before v2 0) / (1 + 1), v2)
  end.
