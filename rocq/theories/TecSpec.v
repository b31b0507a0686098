(** Phases and what a TEC does to them, without the code of DP3. *)
From Coq Require Import Reals List.
Import ListNotations.
Open Scope R_scope.

(** Two angles that are the same phase *)
Definition same_phase (x y : R) : Prop := exists k : Z, x = y + 2 * PI * IZR k.

(** The distance on the circle is [d]. *)
Definition phase_distance (x y d : R) : Prop := 0 <= d <= PI /\ (same_phase x (y + d) \/ same_phase x (y - d)).

(** [m] is the mean of some values with weights: pairs of value and weight *)
Definition weighted_mean (l : list (R * R)) (m : R) : Prop :=
  fold_right Rplus 0 (map (fun '(v, w) => v * w) l) = m * fold_right Rplus 0 (map snd l).

(** The phase in radians of a TEC, in TEC units, at a frequency in Hz *)
Definition tec_phase (tec nu : R) : R := - 8447972450 * tec / nu.
