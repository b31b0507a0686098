(** What demixing promises. *)
From Coq Require Import Reals List Arith.
From Verif Require Import RealCplx DemixModel.
Import ListNotations.
Open Scope R_scope.

(** The sum over directions *)
Fixpoint total (n : nat) (f : nat -> rc) : rc := match n with O => rc0 | S n => radd (total n f) (f n) end.
(** The phasor of a direction; the target is the last direction *)
Definition shift (n_dir : nat) (s : slot) (d ch : nat) : rc := if (d =? n_dir - 1)%nat then rc1 else phasor s d ch.
(** The data are a sum of sources that are constant after a shift to their directions *)
Definition is_mixture (n_dir : nat) (source : nat -> rc) (s : slot) : Prop := forall ch, s_data s ch = total n_dir (fun d => rmul (source d) (rconj (shift n_dir s d ch))).
(** Phasors have size one *)
Definition unit_phasors (s : slot) : Prop := forall d ch, rmul (phasor s d ch) (rconj (phasor s d ch)) = rc1.
(** An inverse of a matrix *)
Definition delta (i j : nat) : rc := if (i =? j)%nat then rc1 else rc0.
Definition is_inverse (n : nat) (x m : nat -> nat -> rc) : Prop := forall i j, (i < n)%nat -> (j < n)%nat -> total n (fun k => rmul (x i k) (m k j)) = delta i j.
(** What casacore's inversion is trusted for: an inverse if there is one *)
Definition inverts (n : nat) (invert : (nat -> nat -> rc) -> option (nat -> nat -> rc)) : Prop := forall m,
  match invert m with Some x => is_inverse n x m | None => forall x, ~ is_inverse n x m end.
(** The products of the columns of the mixing matrix of the directions without a model *)
Definition gram (n_dir n_model : nat) (m : nat -> nat -> rc) (i j : nat) : rc := total n_dir (fun k => rmul (rconj (m k (n_model + i)%nat)) (m k (n_model + j)%nat)).
(** The product of matrices, and the adjoint *)
Definition mul2 (a b : mat2) : mat2 :=
  Mat2 (radd (rmul (m00 a) (m00 b)) (rmul (m01 a) (m10 b))) (radd (rmul (m00 a) (m01 b)) (rmul (m01 a) (m11 b)))
       (radd (rmul (m10 a) (m00 b)) (rmul (m11 a) (m10 b))) (radd (rmul (m10 a) (m01 b)) (rmul (m11 a) (m11 b))).
Definition adjoint2 (a : mat2) : mat2 := Mat2 (rconj (m00 a)) (rconj (m10 a)) (rconj (m01 a)) (rconj (m11 a)).
Definition element (m : mat2) (cr : nat) : rc := match cr with 0%nat => m00 m | 1%nat => m01 m | 2%nat => m10 m | _ => m11 m end.
(** The visibility of a baseline in a direction, with the gains of the stations *)
Definition measured (n_st p q : nat) (u : nat -> R) (model : nat -> mat2) (dr : nat) : mat2 :=
  let gain st := Mat2 (RC (u ((dr * n_st + st) * 8)%nat) (u ((dr * n_st + st) * 8 + 1)%nat)) (RC (u ((dr * n_st + st) * 8 + 2)%nat) (u ((dr * n_st + st) * 8 + 3)%nat))
                      (RC (u ((dr * n_st + st) * 8 + 4)%nat) (u ((dr * n_st + st) * 8 + 5)%nat)) (RC (u ((dr * n_st + st) * 8 + 6)%nat) (u ((dr * n_st + st) * 8 + 7)%nat)) in
  mul2 (gain p) (mul2 (model dr) (adjoint2 (gain q))).
(** What is expected in the target direction for a correlation, given the mixing weights of the source directions *)
Definition expected (n_dir n_st p q : nat) (u : nat -> R) (model : nat -> mat2) (mix : nat -> rc) (cr : nat) : rc :=
  total n_dir (fun dr => rmul (mix dr) (element (measured n_st p q u model dr) cr)).
(** A change of one unknown *)
Definition plus_at (u : nat -> R) (i : nat) (h : R) : nat -> R := fun k => if (k =? i)%nat then u k + h else u k.
