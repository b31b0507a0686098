(** C45: the clipper. *)
From Coq Require Import List Bool Arith Sorted Lia.
From Verif Require Import ClipModel ClipSpec ClipProofs.
Import ListNotations.
Open Scope nat_scope.

(** For all positive steps, every ascending baseline selection and every stream in which the slots that are predicted have
    ascending row numbers: every slot comes out in order; a sample is flagged exactly if it was, or if the prediction made
    for the first slot of its time block, at the first channel of its channel block, is too large for its baseline. *)
Theorem C45_clip_partial {V} (S : setup) (exceeds : V -> bool) (predict : slot -> nat -> nat -> nat -> V) xs d :
  0 < time_step S -> 0 < frequency_step S -> ascending (sel S) ->
  (forall i, i < length xs -> i mod time_step S = 0 ->
     ascending (rows (nth i xs d)) /\ rows (nth i xs d) <> [] /\ Forall (fun b => b < length (rows (nth i xs d))) (sel S)) ->
  exists ys, run S exceeds predict init xs = Some ys /\ length ys = length xs /\
    forall t, t < length xs -> rows (nth t ys d) = rows (nth t xs d) /\
      forall b c p, c < nchan S -> p < ncorr S ->
        (flags (nth t ys d) b c p = true <->
         flags (nth t xs d) b c p = true \/ clipped S exceeds (predict (nth (t / time_step S * time_step S) xs d)) b c p).
Proof.
  intros Ht Hf HA HG. apply (run_spec S exceeds predict d Ht Hf HA xs [] init HG).
  left. split; apply Nat.mod_small; assumption.
Qed.
Print Assumptions C45_clip_partial.

Definition clip_setup : setup := {| time_step := 2; frequency_step := 2; all_corr := true; nchan := 3; ncorr := 2; sel := [1; 2] |}.
Definition clip_slot (r : list nat) : slot := {| rows := r; flags := fun b c p => (b =? 0) && (c =? 1) && (p =? 0) |}.
Definition clip_list (x : slot) : list (list (list bool)) :=
  map (fun b => map (fun c => map (fun p => flags x b c p) [0; 1]) [0; 1; 2]) [0; 1; 2].
Example C45_clip_case :
  let xs := [clip_slot [10; 20; 30]; clip_slot []; clip_slot [70; 80; 90]] in
  (forall i, i < length xs -> i mod 2 = 0 ->
     ascending (rows (nth i xs (clip_slot []))) /\ rows (nth i xs (clip_slot [])) <> [] /\
     Forall (fun b => b < length (rows (nth i xs (clip_slot [])))) [1; 2]) /\
  option_map (map clip_list) (run clip_setup (fun v => v) (fun x f c p => (hd 0 (rows x) =? 10) && (f =? 1) && (c =? 1) && (p =? 1)) init xs) =
  let old := [[false; false]; [true; false]; [false; false]] in let no := [[false; false]; [false; false]; [false; false]] in
  Some [[old; no; [[false; false]; [false; false]; [true; true]]]; [old; no; [[false; false]; [false; false]; [true; true]]]; [old; no; no]].
Proof.
  split; [|reflexivity]. intros i Hi. destruct i as [|[|[|i]]]; cbn in *; try lia; intros E; try discriminate.
  all: split; [repeat constructor; lia|]; split; [discriminate|repeat constructor; lia].
Qed.

(** Missing from the full statement: slots inserted by the reader for missing times have no row numbers; when such a slot
    is the one to be predicted, nothing is mapped and the step fails. *)
Theorem C45_inserted_slot_refuted : exists S xs, 0 < time_step S /\ 0 < frequency_step S /\ ascending (sel S) /\
  rows (hd (clip_slot []) xs) = [] /\ run S (fun v : bool => v) (fun _ _ _ _ => true) init xs = None.
Proof.
  exists clip_setup, [clip_slot []; clip_slot [10; 20; 30]]. repeat split; cbn; try lia. repeat constructor; lia.
Qed.
Print Assumptions C45_inserted_slot_refuted.

(** Also missing: the rows of a slot need not ascend; then the flags of one baseline can end up at another one. *)
Theorem C45_unsorted_rows_refuted : exists S x l, ascending (sel S) /\ Forall (fun b => b < length (rows x)) (sel S) /\
  let pred := fun (_ : slot) (_ _ _ : nat) => true in
  option_map (map clip_list) (run S (fun v => v) pred init [x]) = Some [clip_list l] /\
  flags x 0 0 0 = false /\ ~ clipped S (fun v => v) (pred x) 0 0 0 /\ flags l 0 0 0 = true.
Proof.
  set (S := {| time_step := 1; frequency_step := 1; all_corr := false; nchan := 3; ncorr := 2; sel := [1] |}).
  set (x := clip_slot [30; 20; 40]).
  exists S, x, {| rows := []; flags := fun b c p => b =? 0 |}.
  split; [repeat constructor|]. split; [repeat constructor|]. split; [reflexivity|]. split; [reflexivity|]. split; [|reflexivity].
  intros (f & E & _). destruct f as [|f]; cbn in E; [discriminate|]. destruct f; discriminate.
Qed.
Print Assumptions C45_unsorted_rows_refuted.
