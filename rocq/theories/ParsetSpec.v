(** Parameter sets as sets of bindings. *)
From Coq Require Import List Bool Arith Ascii String.
From Verif Require Import ParsetModel.
Import ListNotations.
Open Scope nat_scope.

(** Two characters are the same letter, in upper or lower case. *)
Definition same_letter (a b : ascii) : Prop :=
  exists i, In (nth_error (list_ascii_of_string "abcdefghijklmnopqrstuvwxyz") i, nth_error (list_ascii_of_string "ABCDEFGHIJKLMNOPQRSTUVWXYZ") i)
    [(Some a, Some b); (Some b, Some a)].
(** Two keys are the same, in the mode of the parameter set. *)
Definition same (md : mode) (a b : key) : Prop :=
  match md with NORMAL => a = b | NOCASE => Forall2 (fun x y => x = y \/ same_letter x y) a b end.

(** The key starts with the prefix; what remains is [r]. *)
Definition prefixed (md : mode) (p k r : key) : Prop := exists p', k = p' ++ r /\ same md p p'.

Section S.
Context {V : Type}.
(** The bindings [l] give key [k] the value [v]. *)
Definition gives (md : mode) (l : list (key * V)) (k : key) (v : V) : Prop := exists k0, In (k0, v) l /\ same md k0 k.
Definition has (md : mode) (l : list (key * V)) (k : key) : Prop := exists v, gives md l k v.
(** At most one binding per key. *)
Definition functional (md : mode) (l : list (key * V)) : Prop :=
  NoDup l /\ forall k1 v1 k2 v2, In (k1, v1) l -> In (k2, v2) l -> same md k1 k2 -> (k1, v1) = (k2, v2).
End S.
