(** What the loop of a solver is to do. *)
From Coq Require Import QArith Qcanon List Bool Arith.
From Verif Require Import QcUtil Cplx.
Import ListNotations.
Open Scope nat_scope.

(** Mean and variance of a list of numbers *)
Definition mean_of (l : list Qc) : Qc := (qsum l / qn (length l))%Qc.
Definition variance_of (l : list Qc) : Qc := (qsum (map (fun x => (x - mean_of l) * (x - mean_of l)) l) / qn (length l))%Qc.

(** Repeating something that may stop: [n] is the first number, at least one, with [stop] *)
Definition first_stop (stop : nat -> Prop) (n : nat) : Prop := 1 <= n /\ stop n /\ forall m, 1 <= m < n -> ~ stop m.

(** The average of what is known *)
Definition mean_abs (abs : cplx -> Qc) (l : list cplx) : Qc := mean_of (map abs l).
