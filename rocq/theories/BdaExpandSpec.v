(** What expanding baseline dependent averaged data should do. *)
From Coq Require Import QArith Qcanon List Bool Arith ZArith.
From Verif Require Import QcUtil BdaExpandModel.
Import ListNotations.
Open Scope Qc_scope.

Definition qz (z : Z) : Qc := Q2Qc (inject_Z z).

Section Spec.
Context {V U : Type}.
Variables (nbl nchan : nat) (dt t0 : Qc) (mapping : nat -> list nat).

(** [d] is [n] time intervals, up to half an interval. *)
Definition about (d : Qc) (n : Z) : Prop :=
  (qz n - Q2Qc (1 # 2)) * dt <= d /\ d < (qz n + Q2Qc (1 # 2)) * dt.

(** The row stands for the slots [s .. s+f-1]. *)
Definition spans (r : row V U) (s f : Z) : Prop :=
  about (r_time r - r_interval r / (1 + 1) - t0) s /\ about (r_interval r) f.

Definition covers (r : row V U) (k : Z) : Prop :=
  exists s f, spans r s f /\ (s <= k < s + f)%Z.

(** Rows that the step can handle: a known baseline, at least one slot, no slot
    before the start, slot numbers in the range of int. *)
Definition valid_row (r : row V U) : Prop :=
  (r_bl r < nbl)%nat /\ exists s f, spans r s f /\ (0 <= s)%Z /\ (1 <= f)%Z /\ (s + f < 2 ^ 31)%Z.

(** How many regular channels take averaged channel [i] of baseline [b]. *)
Definition chan_factor (b i : nat) : nat :=
  length (filter (fun ch => (nth ch (mapping b) 0 =? i)%nat) (seq 0 nchan)).

(** Baseline contents of one slot made from the row. *)
Definition expands (r : row V U) (c : cells V U) : Prop :=
  c_uvw c = r_uvw r /\
  forall s f, spans r s f -> forall ch corr, (ch < nchan)%nat ->
    let i := nth ch (mapping (r_bl r)) 0%nat in
    c_vis c ch corr = r_vis r i corr /\
    c_flag c ch corr = r_flag r i corr /\
    c_weight c ch corr * qz f * qn (chan_factor (r_bl r) i) = r_weight r i corr.

(** Baseline [b] has data for slot [k]. *)
Definition has (rows : list (row V U)) (b : nat) (k : Z) : Prop :=
  exists r, In r rows /\ r_bl r = b /\ covers r k.

(** The slots written are 0, 1, 2, ... up to, not including, the first slot for
    which some baseline has no data; each slot has for each baseline the
    contents of a row covering that slot. *)
Definition expanded (rows : list (row V U)) (out : list (elem V U)) : Prop :=
  (forall k e, nth_error out k = Some e -> forall b, (b < nbl)%nat ->
     exists r c, In r rows /\ r_bl r = b /\ covers r (Z.of_nat k) /\ e_bl e b = Some c /\ expands r c) /\
  (exists b, (b < nbl)%nat /\ ~ has rows b (Z.of_nat (length out))).

(** The time stamp of slot [k]. *)
Definition slot_centre (k : nat) : Qc := t0 + qn k * dt + dt / (1 + 1).

(** Rows whose start and length are exact multiples of the interval. *)
Definition exact_row (r : row V U) : Prop :=
  exists s f, (r_time r - r_interval r / (1 + 1) = t0 + qz s * dt) /\ r_interval r = qz f * dt.
End Spec.
