(** Boxes as sets of points. *)
From Coq Require Import Qcanon.
Open Scope Qc_scope.

(** The point is in the box or on its border. *)
Definition in_box (b : (Qc * Qc) * (Qc * Qc)) (p : Qc * Qc) : Prop :=
  (fst (fst b) <= fst p <= snd (fst b)) /\ (fst (snd b) <= snd p <= snd (snd b)).
(** The point is in the box and not on its border. *)
Definition inside_box (b : (Qc * Qc) * (Qc * Qc)) (p : Qc * Qc) : Prop :=
  (fst (fst b) < fst p < snd (fst b)) /\ (fst (snd b) < snd p < snd (snd b)).
(** The start of the box is not behind its end, as its constructor demands. *)
Definition proper (b : (Qc * Qc) * (Qc * Qc)) : Prop := fst (fst b) <= snd (fst b) /\ fst (snd b) <= snd (snd b).
