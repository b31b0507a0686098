(** What a user of the parameter database expects of a grid of domains. *)
From Coq Require Import Qcanon List.
Import ListNotations.

(** The boxes of a rectangular grid with these columns and rows, row by row *)
Fixpoint boxes_of {A B} (xs : list A) (ys : list B) : list (A * B) :=
  match ys with [] => [] | y :: ys => map (fun x => (x, y)) xs ++ boxes_of xs ys end.

(** Intervals that follow each other and are equally wide *)
Fixpoint equal_steps (l : list (Qc * Qc)) : Prop :=
  match l with
  | a :: ((b :: _) as l') => snd a = fst b /\ (snd a - fst a = snd b - fst b)%Qc /\ equal_steps l'
  | _ => True
  end.

(** Intervals that are not empty, in ascending order and without overlap *)
Fixpoint ascending (l : list (Qc * Qc)) : Prop :=
  match l with
  | [] => True
  | a :: l' => (fst a < snd a)%Qc /\ match l' with [] => True | b :: _ => (snd a <= fst b)%Qc end /\ ascending l'
  end.
