(** What the buffer between BDA input and the solver is for: rows by the interval that they are in. *)
From Coq Require Import QArith Qcanon List Bool Arith ZArith.
From Verif Require Import QcUtil AverageModel SolveBufferModel.
Import ListNotations.
Open Scope nat_scope.

Definition qz (z : Z) : Qc := Q2Qc (inject_Z z).
(** A time is in interval [i] *)
Definition inside (c : setup) (i : Z) (t : Qc) : bool :=
  qleb (start c + qz i * duration c)%Qc t && qltb t (start c + qz (i + 1) * duration c)%Qc.
(** A time is before interval [i] *)
Definition before (c : setup) (i : Z) (t : Qc) : Prop := (t < start c + qz i * duration c)%Qc.

Section Rows.
Context {B X : Type}.
(** All rows of buffers, with their buffers *)
Definition all_rows (l : list (buffer B X)) : list (interval_row B X) := flat_map (fun b => map (pair (content b)) (rows b)) l.
(** Those of interval [i] *)
Definition rows_of (c : setup) (i : Z) (l : list (buffer B X)) : list (interval_row B X) := filter (fun p => inside c i (time (snd p))) (all_rows l).

(** When a row begins *)
Definition begin (r : row X) : Qc := (time r - half * width r)%Qc.
(** Rows of [n] baselines, from the start on, and ordered in time per baseline *)
Definition ordered (c : setup) (n : nat) (l : list (row X)) : Prop :=
  Forall (fun r => baseline r < n /\ (0 <= width r)%Qc /\ (start c <= begin r)%Qc) l /\
  ForallOrdPairs (fun r r' => baseline r = baseline r' -> (begin r <= begin r')%Qc) l.

(** The buffers given since the last time that all was cleared, and those that were ever given *)
Fixpoint given (l : list (call B X)) (acc : list (buffer B X)) : list (buffer B X) :=
  match l with
  | [] => acc
  | Append b :: l => given l (acc ++ [b])
  | Clear :: l => given l []
  | _ :: l => given l acc
  end.
Fixpoint advances (l : list (call B X)) : nat := match l with [] => 0 | Advance :: l => S (advances l) | _ :: l => advances l end.
End Rows.
