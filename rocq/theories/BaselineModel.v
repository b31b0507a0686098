(** Model of common/baseline_indices.h. *)
From Coq Require Import ZArith List Reals.
From Flocq Require Import Core.
Import ListNotations.
Open Scope Z_scope.

(** Unsigned 64-bit arithmetic (size_t). *)
(** size_t arithmetic of common/baseline_indices.h:68-113 *)
Definition w64 (x : Z) : Z := x mod 2 ^ 64.

(** common/baseline_indices.h:63. *)
Inductive order := ColumnMajor | RowMajor.

(** common/baseline_indices.h:68-72, [ComputeNBaselines]. *)
Definition n_baselines (n : Z) : Z :=
  let n_correlations := w64 (n * w64 (n - 1)) / 2 in
  w64 (n_correlations + n).

(** common/baseline_indices.h:79-88, [ComputeBaselineIndex]. *)
Definition baseline_index (a b n : Z) (o : order) : Z :=
  let row := Z.min a b in
  let col := Z.max a b in
  match o with
  | RowMajor => w64 (row * n + col - w64 (row * (row + 1)) / 2)
  | ColumnMajor => w64 (w64 (col * (col + 1)) / 2 + row)
  end.

(** IEEE-754 double rounding to nearest-even, as formalised by Flocq. *)
(** double arithmetic of common/baseline_indices.h:101-107 *)
Definition rnd64 (x : R) : R := round radix2 (FLT_exp (-1074) 53) ZnearestE x.

(** The expression [(1 + std::sqrt(x)) / 2] converted to size_t
    (common/baseline_indices.h:99-100 and 107): the integer [x] is converted to
    double, the square root, the addition and the division round to nearest,
    and the conversion to size_t truncates. *)
Definition half_root (x : Z) : Z :=
  Ztrunc (rnd64 (rnd64 (1 + rnd64 (sqrt (rnd64 (IZR x)))) / 2)).

(** Conversion to a 32-bit int (two's complement), line 109. *)
(** common/baseline_indices.h:109 *)
Definition to_int32 (x : Z) : Z := (x + 2 ^ 31) mod 2 ^ 32 - 2 ^ 31.

(** common/baseline_indices.h:94-113, [ComputeBaseline]. *)
Definition baseline_of_index (idx n : Z) (o : order) : Z * Z :=
  match o with
  | RowMajor =>
      let nbl := n_baselines n in
      let antenna := half_root (w64 (1 + 8 * w64 (nbl - idx - 1))) in
      let antenna1 := w64 (n - antenna) in
      let m := w64 (nbl - n - w64 (antenna * (antenna - 1)) / 2) in
      let antenna2 := w64 (idx - m) in
      (antenna1, antenna2)
  | ColumnMajor =>
      let antenna2 := half_root (w64 (1 + 8 * idx)) in
      let m := w64 (to_int32 (w64 (antenna2 * (antenna2 - 1)) / 2)) in
      let antenna1 := w64 (idx - m) in
      (antenna1, w64 (antenna2 - 1))
  end.

(** common/baseline_indices.h:119-130, [ComputeBaselineList]. *)
Definition baseline_list (antenna : Z) (n : nat) (o : order) : list Z :=
  map (fun i => baseline_index antenna (Z.of_nat i) (Z.of_nat n) o) (seq 0 n).
