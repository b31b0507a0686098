(** Property C15: upsampling. *)
From Coq Require Import QArith Qcanon List Bool Arith Lia.
From Verif Require Import QcUtil AverageModel UpsampleModel UpsampleSpec UpsampleProofs.
Import ListNotations.
Open Scope Qc_scope.

(** For every stream whose slots are at least half an input interval apart and
    aligned to the output intervals within 0.4 of one (or do not overlap at all),
    the output slots are pieces of input slots, their times strictly increase, and
    every piece is present or replaced by a piece of a neighbour at that time.
    Missing for the full C15: other overlaps (false, see the refutations). *)
Theorem C15_upsample_partial :
  forall (P : Type) (ts : nat) (dt : Qc), 0 < dt -> (1 < ts)%nat ->
  forall (b : ubuf P) l, spaced ts dt (b :: l) ->
  exists out, urun ts dt (b :: l) = Some out /\ increasing dt out /\ covered ts dt (b :: l) out /\
    nothing_invented ts dt (b :: l) out.
Proof. intros P ts dt Hdt Hts. apply upsample_ok; auto. lia. Qed.
Print Assumptions C15_upsample_partial.

Definition slot (t : Z) (fl : bool) (x : nat) : ubuf nat := MkUbuf (Q2Qc (inject_Z t)) (Q2Qc 4) fl x.

(** Three slots of 4 s split in two; the second starts halfway the first. *)
Example C15_upsample_case :
  spaced 2 (Q2Qc 2) [slot 0 false 10; slot 2 true 11; slot 6 false 12] /\
  option_map (map (fun o => (this (u_time o), u_payload o)))
    (urun 2 (Q2Qc 2) [slot 0 false 10; slot 2 true 11; slot 6 false 12]) =
  Some [((-1)%Q, 10%nat); (1%Q, 10%nat); (3%Q, 11%nat); (5%Q, 12%nat); (7%Q, 12%nat)].
Proof.
  split; [|vm_compute; reflexivity].
  split; [|split; [|exact I]].
  - exists 1%nat. split; [lia|]. split; [lia|]. split; [vm_compute; discriminate|]. intros _. vm_compute. discriminate.
  - exists 2%nat. split; [lia|]. split; [lia|]. split; [vm_compute; discriminate|]. lia.
Qed.

(** Full C15 ("finishing is safe for any number of input slots") fails for the
    empty stream: finish reads prev_buffers_, which is still empty. *)
Theorem C15_empty_stream_refuted :
  forall (P : Type) (ts : nat) (dt : Qc), (0 < ts)%nat -> urun (P:=P) ts dt [] = None.
Proof.
  intros P ts dt H. unfold urun. cbn [fold_left ufinish uinit us_prev us_first us_out length].
  rewrite (proj2 (Nat.ltb_lt 0 ts) H). reflexivity.
Qed.
Print Assumptions C15_empty_stream_refuted.
Example C15_empty_stream_case : urun (P:=nat) 2 (Q2Qc 1) [] = None.
Proof. reflexivity. Qed.

Definition never_decrease {P} (out : list (ubuf P)) : Prop :=
  forall i o o', nth_error out i = Some o -> nth_error out (S i) = Some o' -> u_time o <= u_time o'.

(** Full C15 ("output times never decrease") fails even when all input times are
    whole numbers of output intervals apart and increase: 4 output slots per
    input slot, the second input slot is flagged and starts one output slot after
    the first, the third starts again one later. *)
Theorem C15_order_refuted :
  exists (l : list (ubuf nat)) out, urun 4 (Q2Qc 1) l = Some out /\
    (forall i b b', nth_error l i = Some b -> nth_error l (S i) = Some b' -> u_time b' - u_time b = 1) /\
    ~ never_decrease out.
Proof.
  exists [slot 0 false 10; slot 1 true 11; slot 2 false 12].
  eexists. split; [vm_compute; reflexivity|]. split.
  - intros [|[|[|i]]] b b' E E'; try discriminate; injection E as <-; injection E' as <-; apply qc_eq; vm_compute; reflexivity.
  - intros H. specialize (H 3%nat _ _ eq_refl eq_refl). vm_compute in H. apply H. reflexivity.
Qed.
Print Assumptions C15_order_refuted.

(** Full C15 also fails when a slot starts half an output interval off the grid. *)
Theorem C15_half_offset_refuted :
  exists (l : list (ubuf nat)) out, urun 3 (Q2Qc 2) l = Some out /\
    (forall b, In b l -> u_flagged b = false) /\ ~ never_decrease out.
Proof.
  exists [slot 0 false 10; slot 3 false 11].
  eexists. split; [vm_compute; reflexivity|]. split.
  - intros b [<-|[<-|[]]]; reflexivity.
  - intros H. specialize (H 2%nat _ _ eq_refl eq_refl). vm_compute in H. apply H. reflexivity.
Qed.
Print Assumptions C15_half_offset_refuted.

(** Full C15 ("no unflagged data is lost") fails after a flagged slot that
    repeats the time of its predecessor: first_to_flush_ becomes time_step_ and is
    never reset, and nothing more is ever output. *)
Theorem C15_stuck_refuted :
  exists l : list (ubuf nat), forall l', exists out out', urun 2 (Q2Qc 2) l = Some out /\
    urun 2 (Q2Qc 2) (l ++ l') = Some out' /\ out' = out.
Proof.
  exists [slot 0 false 10; slot 0 true 11]. intros l'.
  unfold urun. rewrite fold_left_app.
  set (s := fold_left _ [slot 0 false 10; slot 0 true 11] _).
  assert (E : exists q out, length q = 2%nat /\ s = Some (MkUstate q 2 out)).
  { subst s. do 2 eexists. split; [|vm_compute; reflexivity]. reflexivity. }
  destruct E as (q & out & Hq & E). rewrite E. clearbody s. clear E s.
  assert (F : forall q, length q = 2%nat -> ufinish 2 (Some (MkUstate q 2 out)) = Some out).
  { intros q' H. cbn [ufinish us_prev us_first us_out]. rewrite H. cbn [Nat.ltb Nat.leb andb].
    rewrite skipn_all2 by lia. now rewrite app_nil_r. }
  exists out, out. split; [now apply F|]. split; [|reflexivity].
  revert q Hq. induction l' as [|b l' IH]; intros q Hq.
  - cbn [fold_left]. now apply F.
  - cbn [fold_left uprocess us_prev us_first us_out].
    destruct q as [|x [|y [|]]]; try discriminate. cbn [skipn flush]. rewrite app_nil_r.
    apply IH. reflexivity.
Qed.
Print Assumptions C15_stuck_refuted.

(** A slot that precedes its predecessor makes process read beyond the end of the
    vector of current slots. *)
Theorem C15_backwards_refuted :
  exists l : list (ubuf nat), l <> [] /\ urun 2 (Q2Qc 2) l = None.
Proof. exists [slot 8 false 10; slot 0 false 11]. split; [discriminate|]. vm_compute. reflexivity. Qed.
Print Assumptions C15_backwards_refuted.
