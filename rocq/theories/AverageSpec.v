(** What averaging in time and frequency should do. *)
From Coq Require Import QArith Qcanon List Bool Arith.
From Verif Require Import QcUtil AverageModel.
Import ListNotations.
Open Scope Qc_scope.

Section Spec.
Variables (nchan cavg : nat) (int_in int_out : Qc) (minpts : nat) (minperc : Qc).

(** The samples (slot, channel) averaged into output channel [o]. *)
Definition samples (block : list tslot) (o : nat) : list (tslot * nat) :=
  flat_map (fun s => map (fun c => (s, c)) (filter (fun c => (c / cavg =? o)%nat) (seq 0 nchan))) block.

Definition good (b p : nat) (x : tslot * nat) : bool := negb (t_flag (fst x) b (snd x) p).
Definition w (b p : nat) (x : tslot * nat) : Qc := t_weight (fst x) b (snd x) p.
Definition v (b p : nat) (x : tslot * nat) : Qc := t_vis (fst x) b (snd x) p.

Definition wsum b p l := qsum (map (w b p) l).
Definition vsum b p l := qsum (map (fun x => w b p x * v b p x) l).

(** [out] is the average of the slots of [block]. *)
Definition is_average (block : list tslot) (out : tslot) : Prop :=
  (forall s, hd_error block = Some s -> t_time out - int_out * half = t_time s - int_in * half) /\
  t_exposure out = int_out /\
  (forall b i, t_uvw out b i * qn (length block) = qsum (map (fun s => t_uvw s b i) block)) /\
  forall b o p, (o < nchan_out nchan cavg)%nat ->
    let all := samples block o in
    let ok := filter (good b p) all in
    (t_flag out b o p = true <->
       wsum b p ok = 0 \/ (length ok < minpts)%nat \/ qn (length ok) < qn (length all) * minperc) /\
    (t_flag out b o p = false ->
       t_weight out b o p = wsum b p ok /\ t_vis out b o p * wsum b p ok = vsum b p ok) /\
    (t_flag out b o p = true ->
       t_weight out b o p = wsum b p all /\
       (wsum b p all <> 0 -> t_vis out b o p * wsum b p all = vsum b p all) /\
       (wsum b p all = 0 -> t_vis out b o p = 0)).
End Spec.

(** [blocks] divides [l] into consecutive blocks of [n]; only the last may be
    shorter, none is empty. *)
Definition divides_into {A} (n : nat) (l : list A) (blocks : list (list A)) : Prop :=
  concat blocks = l /\
  (forall b, In b blocks -> (1 <= length b <= n)%nat) /\
  (forall i b, nth_error blocks i = Some b -> (S i < length blocks)%nat -> length b = n).

(** Regularly spaced list. *)
Definition regular (l : list Qc) : Prop :=
  exists a d, forall i, (i < length l)%nat -> nth i l 0 = a + qn i * d.

(** Element [i] of [l'] is the sum of block [i] (of [c] elements) of [l]. *)
Definition block_sums (c : nat) (l l' : list Qc) : Prop :=
  forall i, (i < length l')%nat -> nth i l' 0 = qsum (firstn c (skipn (i * c) l)).

Definition block_means (c : nat) (l l' : list Qc) : Prop :=
  forall i, (i < length l')%nat -> nth i l' 0 * qn c = qsum (firstn c (skipn (i * c) l)).

(** The factor to average with: the one given, or the one whose averaged width is
    nearest to the wanted resolution [res], but at least 1. *)
Definition wanted_factor (given : nat) (res unit : Qc) (f : nat) : Prop :=
  ((0 < given)%nat -> f = given) /\
  (given = 0%nat -> res <= 0 -> f = 1%nat) /\
  (given = 0%nat -> 0 < res -> res < half * unit -> f = 1%nat) /\
  (given = 0%nat -> half * unit <= res -> (qn f - half) * unit <= res /\ res < (qn f + half) * unit).
