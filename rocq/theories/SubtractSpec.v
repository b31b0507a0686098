(** Specification for subtracting the model, independent of the model of the code. *)
From Coq Require Import List Arith.
From Verif Require Import Cplx.
Import ListNotations.

(** The Jones matrix of antenna [a] and direction [d] in a vector of solutions for [n_dir] directions of [n_pol] polarizations *)
Definition jones (n_pol n_dir : nat) (sols : list cplx) (a d : nat) : mat :=
  let s p := nth ((a * n_dir + d) * n_pol + p) sols c0 in
  match n_pol with 4 => Mat (s 0) (s 1) (s 2) (s 3) | 2 => mdiag (s 0) (s 1) | _ => mdiag (s 0) (s 0) end.
(** What the instrument makes of the model of direction [d] *)
Definition seen (n_pol n_dir : nat) (sols : list cplx) (a1 a2 d : nat) (m : mat) : mat :=
  mmul (mmul (jones n_pol n_dir sols a1 d) m) (mherm (jones n_pol n_dir sols a2 d)).
(** The sum over all directions *)
Definition sum_seen (n_pol : nat) (sols : list cplx) (a1 a2 : nat) (ms : list mat) : mat :=
  fold_right madd mzero (map (fun p => seen n_pol (length ms) sols a1 a2 (fst p) (snd p)) (combine (seq 0 (length ms)) ms)).
