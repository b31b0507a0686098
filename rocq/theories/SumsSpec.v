(** Specification for the sums over the slots of an interval, independent of the model. *)
From Coq Require Import List Bool Arith QArith Qcanon.
From Verif Require Import QcUtil.
Import ListNotations.
Open Scope nat_scope.

(** Channel [ch] is in block [cb] when [n_chan] channels are divided over [nb] blocks *)
Definition in_block (n_chan nb ch cb : nat) : bool := (cb * n_chan / nb <=? ch) && (ch <? (cb + 1) * n_chan / nb).
(** The weight of a correlation, if it is not flagged *)
Definition used_weight (x : Qc * bool) : Qc := if snd x then 0%Qc else fst x.
(** The correlations of the channels of a block *)
Definition block_samples (n_chan nb cb : nat) (chans : list (list (Qc * bool))) : list (Qc * bool) :=
  concat (map snd (filter (fun p => in_block n_chan nb (fst p) cb) (combine (seq 0 (length chans)) chans))).
(** The sum of the weights in block [cb] of the baselines of antenna [a]; an autocorrelation counts twice *)
Definition antenna_weight (n_chan nb a cb : nat) (slot : list (nat * nat * list (list (Qc * bool)))) : Qc :=
  qsum (map (fun b => let '(a1, a2, chans) := b in
    (qn ((if a =? a1 then 1 else 0) + (if a =? a2 then 1 else 0)) * qsum (map used_weight (block_samples n_chan nb cb chans)))%Qc) slot).
(** All correlations in a block *)
Definition all_samples (n_chan nb cb : nat) (slot : list (nat * nat * list (list (Qc * bool)))) : list (Qc * bool) :=
  concat (map (fun b => block_samples n_chan nb cb (snd b)) slot).
(** A correlation counts as there *)
Definition is_good (x : Qc * bool) : bool := qltb 0 (used_weight x).
