(** What the Interpolate step should give, on the whole observation at once. *)
From Coq Require Import List Bool Arith ZArith.
From Verif Require Import InterpModel.
Import ListNotations.
Open Scope nat_scope.

Section Spec.
Context {V W M : Type} (A : arith V W) (nbl nch npol h : nat) (m0 : M).
Notation buf := (buf V M).

Definition at_ (xs : list buf) (t : nat) : buf := nth t xs (Build_buf [] [] m0).
Definition flag_at (xs : list buf) (t b c p : nat) : bool := nth ((b * nch + c) * npol + p) (flags (at_ xs t)) true.
Definition data_at (xs : list buf) (t b c p : nat) : V := nth ((b * nch + c) * npol + p) (data (at_ xs t)) (vzero A).
Definition wf (x : buf) : Prop := length (data x) = nbl * nch * npol /\ length (flags x) = nbl * nch * npol.

Definition near (i j : nat) : bool := (i <=? j + h) && (j <=? i + h).

(** The unflagged samples in the window around a sample, slot after slot *)
Definition neighbours (xs : list buf) (t b c p : nat) : list (nat * nat) :=
  filter (fun tc => near t (fst tc) && near c (snd tc) && negb (flag_at xs (fst tc) b (snd tc) p))
         (list_prod (seq 0 (length xs)) (seq 0 nch)).

Definition sqdist (t c t' c' : nat) : Z :=
  ((Z.of_nat t' - Z.of_nat t) * (Z.of_nat t' - Z.of_nat t) + (Z.of_nat c' - Z.of_nat c) * (Z.of_nat c' - Z.of_nat c))%Z.

Definition weighted (xs : list buf) (t b c p : nat) : V * W :=
  fold_left (fun acc tc => let w := gauss A (sqdist t c (fst tc) (snd tc)) in
               (vadd A (fst acc) (vscale A (data_at xs (fst tc) b (snd tc) p) w), wadd A (snd acc) w))
            (neighbours xs t b c p) (vzero A, wzero A).

(** The value before cleaning: unflagged samples as they are, flagged ones the weighted mean of their neighbours *)
Definition filled (xs : list buf) (t b c p : nat) : V :=
  if flag_at xs t b c p then
    let s := weighted xs t b c p in if wis0 A (snd s) then vnan A else vdiv A (fst s) (snd s)
  else data_at xs t b c p.
End Spec.
