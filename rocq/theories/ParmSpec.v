(** What the users of the values of a parameter rely on. *)
From Coq Require Import Qcanon List Arith Bool.
From Verif Require Import QcUtil AxisSpec.
Import ListNotations.
Open Scope Qc_scope.
Open Scope nat_scope.

(** The polynomial with the coefficients c i j of x^i y^j, for i < n and j < m. *)
Definition poly (c : nat -> nat -> Qc) (n m : nat) (x y : Qc) : Qc :=
  qsum (map (fun j => qsum (map (fun i => (c i j * x ^ i * y ^ j)%Qc) (seq 0 n))) (seq 0 m)).

(** The coefficients in a list in which those of x vary fastest. *)
Definition coefficients (n : nat) (l : list Qc) (i j : nat) : Qc := nth (i + j * n) l 0%Qc.

(** A coordinate on an interval, 0 is its start and 1 its end. *)
Definition scaled (s e x : Qc) : Qc := ((x - s) / (e - s))%Qc.

(** The middle of an interval: what is kept if it is added to itself. *)
Definition middle (c : Qc * Qc) (x : Qc) : Prop := (x + x = fst c + snd c)%Qc.

(** The list l has the values on the grid with the cells gx and gy, those of x vary
   fastest; v is the value of the cell in which the point lies. *)
Definition value_at (gx gy : list (Qc * Qc)) (l : list Qc) (x y v : Qc) : Prop :=
  exists i j cx cy,
    nth_error gx i = Some cx /\ inside true x cx /\
    nth_error gy j = Some cy /\ inside true y cy /\
    nth_error l (i + j * length gx) = Some v.

(** The same, but a point outside the grid, or in a hole of it, gets the value of
   the next cell, or of the last one if there is no next one. *)
Definition value_near (gx gy : list (Qc * Qc)) (l : list Qc) (x y v : Qc) : Prop :=
  exists i j, mapped gx x i /\ mapped gy y j /\
    nth_error l (i + j * length gx) = Some v.
