(** Model of steps/NullStokes.cc: setting Stokes parameters to zero.  Simplified: exact arithmetic instead of single precision. *)
From Coq Require Import List Bool Arith QArith Qcanon.
From Verif Require Import QcUtil AverageModel AdderModel InfoModel.
Import ListNotations.
Open Scope nat_scope.

(** std::complex operators used in steps/NullStokes.cc:24-46 *)
Definition csub (a b : cplx) : cplx := {| re := re a - re b; im := im a - im b |}%Qc.
(** unary minus: steps/NullStokes.cc:25, 39 *)
Definition cneg (a : cplx) : cplx := {| re := Qcopp (re a); im := Qcopp (im a) |}.

(** Two references to visibilities [a] and [b] behind the pointer at position [i]: the first becomes [f] of both, then the second [g] of
    the first.  steps/NullStokes.cc:22-25, 29-32, 36-39, 43-46. *)
Definition change (f : cplx -> cplx -> cplx) (g : cplx -> cplx) (a b i : nat) (v : list cplx) : outcome (list cplx) :=
  match nth_error v (i + a), nth_error v (i + b) with
  | Some x, Some y => let n := cscale half (f x y) in Ok (set_nth (set_nth v (i + a) n) (i + b) (g n))
  | _, _ => Undefined
  end.
(** steps/NullStokes.cc:21-26 *)
Definition make_i_zero (i : nat) (v : list cplx) : outcome (list cplx) := change csub cneg 0 3 i v.
(** steps/NullStokes.cc:28-33 *)
Definition make_q_zero (i : nat) (v : list cplx) : outcome (list cplx) := change cadd (fun x => x) 0 3 i v.
(** steps/NullStokes.cc:35-40 *)
Definition make_u_zero (i : nat) (v : list cplx) : outcome (list cplx) := change csub cneg 1 2 i v.
(** steps/NullStokes.cc:42-47 *)
Definition make_v_zero (i : nat) (v : list cplx) : outcome (list cplx) := change cadd (fun x => x) 1 2 i v.

(** steps/NullStokes.cc:52-55: modify_i_, modify_q_, modify_u_, modify_v_ *)
Record settings := { modify_i : bool; modify_q : bool; modify_u : bool; modify_v : bool }.
(** steps/NullStokes.cc:81-92: statements after another; an undefined one makes the whole undefined *)
Definition next {A} (o : outcome A) (f : A -> outcome A) : outcome A := match o with Ok x => f x | o => o end.
(** steps/NullStokes.cc:81-92: one pass of the loop *)
Definition pass (s : settings) (i : nat) (v : list cplx) : outcome (list cplx) :=
  let o := if modify_i s then make_i_zero i v else Ok v in
  let o := if modify_q s then next o (make_q_zero i) else o in
  let o := if modify_u s then next o (make_u_zero i) else o in
  if modify_v s then next o (make_v_zero i) else o.
(** steps/NullStokes.cc:80-93: the loop; the first argument is fuel *)
Fixpoint loop (fuel : nat) (s : settings) (i : nat) (v : list cplx) : outcome (list cplx) :=
  match fuel with
  | 0 => Ok v
  | S n => if i <? length v then next (pass s i v) (loop n s (i + 4)) else Ok v
  end.
(** steps/NullStokes.cc:71-97 (process): the visibilities of the buffer afterwards; all baselines, channels and correlations after
    another *)
Definition process (s : settings) (v : list cplx) : outcome (list cplx) := loop (length v) s 0 v.
