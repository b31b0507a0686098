(** Specification for applying solutions to BDA rows, independent of the model of the code. *)
From Coq Require Import List Arith QArith Qcanon.
From Verif Require Import QcUtil.
Import ListNotations.

(** The frequency of channel [ch] of a row that has the original channels [edge ch] until [edge (ch + 1)] averaged; the band starts at [f0], original channels are [w] wide *)
Definition centre (f0 w : Qc) (edge : nat -> nat) (ch : nat) : Qc := (f0 + w * (qn (edge ch) + qn (edge (ch + 1)%nat)) / qn 2)%Qc.
(** The averaged channels are in order, and fill the band of [n_chan] channels *)
Definition averaged (n_chan n : nat) (edge : nat -> nat) : Prop := edge 0%nat = 0%nat /\ edge n = n_chan /\ forall i, (i < n)%nat -> (edge i < edge (i + 1))%nat.
(** The averaging respects the channel blocks: with [nb] blocks, block k starts at channel k * n_chan / nb of the unaveraged data and at channel k * n / nb of the row *)
Definition respects (n_chan nb n : nat) (edge : nat -> nat) : Prop := forall k, (k <= nb)%nat -> edge (k * n / nb)%nat = (k * n_chan / nb)%nat.
