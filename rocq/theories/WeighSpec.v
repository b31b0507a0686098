(** What weighting is to do: every visibility is multiplied with its own weight, unless something is wrong with its sample. *)
From Coq Require Import List Bool Arith.
Import ListNotations.
Open Scope nat_scope.

(** Regular data.  Visibility [i] of all is two floats; [n_corr] visibilities are a sample.  A sample is bad if one of its visibilities is flagged, or not finite
    in the data or in the model data of a direction. *)
Definition bad {F} (finite : F -> bool) (d : F) (n_corr : nat) (flags : list bool) (arrays : list (list F)) (s : nat) : Prop :=
  exists cr, cr < n_corr /\ (nth (s * n_corr + cr) flags false = true \/
    exists a, In a arrays /\ (finite (nth ((s * n_corr + cr) * 2) a d) = false \/ finite (nth ((s * n_corr + cr) * 2 + 1) a d) = false)).
(** One array is the weighted form of another. *)
Definition weighted {F} (mul : F -> F -> F) (d : F) (n_corr n_samples : nat) (is_bad : nat -> Prop) (w a b : list F) : Prop :=
  length b = n_samples * n_corr * 2 /\
  forall s cr p, s < n_samples -> cr < n_corr -> p < 2 ->
    let i := s * n_corr + cr in
    (is_bad s -> nth (i * 2 + p) b d = d) /\ (~ is_bad s -> nth (i * 2 + p) b d = mul (nth (i * 2 + p) a d) (nth i w d)).

(** BDA data: one element is a visibility *)
Definition bda_bad {V} (finite : V -> bool) (d : V) (flags : list bool) (arrays : list (list V)) (ch : nat) : Prop :=
  exists cr, cr < 4 /\ (nth (ch * 4 + cr) flags false = true \/ exists a, In a arrays /\ finite (nth (ch * 4 + cr) a d) = false).
Definition bda_weighted {V W} (scale : V -> W -> V) (d : V) (d0 : W) (n_channels : nat) (is_bad : nat -> Prop) (w : list W) (a b : list V) : Prop :=
  length b = length a /\
  forall ch cr, ch < n_channels -> cr < 4 ->
    let i := ch * 4 + cr in (is_bad ch -> nth i b d = d) /\ (~ is_bad ch -> nth i b d = scale (nth i a d) (nth i w d0)).
