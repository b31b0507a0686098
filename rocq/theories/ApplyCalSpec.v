(** What correcting visibilities with gains means *)
From Coq Require Import List Bool Arith Qcanon.
From Verif Require Import QcUtil Cplx AverageModel ApplyCalModel.
Import ListNotations.
Open Scope nat_scope.

(** The Jones matrix of two (diagonal) or four gains; none if one of them is not finite *)
Definition matrix (g : list (option cplx)) : option mat :=
  match g with
  | [Some a; Some b] => Some (mdiag a b)
  | [Some a; Some b; Some c; Some d] => Some (Mat a b c d)
  | _ => None
  end.
(** Element (i, j) of a matrix, and of the weights of the correlations XX, XY, YX, YY *)
Definition el (m : mat) (i j : bool) : cplx := if i then if j then m3 m else m2 m else if j then m1 m else m0 m.
Definition wel (w : weights) (i j : bool) : ext := if i then if j then w3 w else w2 w else if j then w1 w else w0 w.
(** The variance of element (i, j) of A V B^H, if the elements of V are independent and have variance 1 / w *)
Definition variance (a b : mat) (w : bool -> bool -> Qc) (i j : bool) : Qc :=
  let term k l := (cnorm (el a i k) * cnorm (el b j l) / w k l)%Qc in (term false false + term false true + (term true false + term true true))%Qc.
(** The time slots are regular: slot number i *)
Definition slot_time (t0 interval : Qc) (i : nat) : Qc := (t0 + qn i * interval)%Qc.
(** Whether the gains of the antennas of a baseline are finite *)
Definition good (ga gb : list (option cplx)) : bool := match matrix ga, matrix gb with Some _, Some _ => true | _, _ => false end.
(** The visibility [s'] that [s] must become; [ga], [gb]: the gains of its antennas for every direction *)
Definition corrected (n_dir : nat) (ga gb : nat -> list (option cplx)) (s s' : sample) : Prop :=
  length (vis s') = length (vis s) /\
  (forall d v, d < n_dir -> nth_error (vis s) d = Some v ->
    nth_error (vis s') d = Some (match matrix (ga d), matrix (gb d) with Some a, Some b => mmul (mmul a v) (mherm b) | _, _ => v end)) /\
  flag s' = (if forallb (fun d => good (ga d) (gb d)) (seq 0 n_dir) then flag s else map (fun _ => true) (flag s)).
(** The weights [w'] that the weights [w], which are positive, must become: the inverse of the variance.  If a gain is not finite they stay. *)
Definition reweighted (ga gb : list (option cplx)) (s s' : sample) : Prop :=
  match matrix ga, matrix gb with
  | Some a, Some b => forall w, (forall i j, wel (weight s) i j = Fin (w i j) /\ (0 < w i j)%Qc) -> forall i j, variance a b w i j <> 0%Qc -> wel (weight s') i j = Fin (/ variance a b w i j)%Qc
  | _, _ => weight s' = weight s
  end.
