(** C105: grids of the parameter database from domains in any order. *)
From Coq Require Import QArith Qcanon Lqa List Bool Permutation Sorted.
From Verif Require Import QcUtil AverageModel AxisModel DomainModel DomainSpec DomainProps BoxModel BoxSpec BoxProps GridSortModel.
Import ListNotations.
Open Scope Qc_scope.

(** Every box is before the boxes behind it. *)
Fixpoint in_order (l : list box) : Prop := match l with [] => True | b :: l' => (forall c, In c l' -> before b c = true) /\ in_order l' end.

Lemma in_order_app l m : in_order l -> in_order m -> (forall b c, In b l -> In c m -> before b c = true) -> in_order (l ++ m).
Proof.
  induction l as [|b l IH]; intros A B C; [exact B|]. destruct A as [A A']. cbn. split; [|apply IH; auto; intros; apply C; cbn; auto].
  intros c Hc. apply in_app_iff in Hc. destruct Hc as [Hc|Hc]; [auto | apply C; cbn; auto].
Qed.

(** The cells of a grid are in order. *)
Lemma boxes_in_order (xs ys : list cell) : ascending xs -> ascending ys -> in_order (boxes_of xs ys).
Proof.
  intros AX. induction ys as [|y ys IH]; intros AY; [exact I|]. cbn [boxes_of]. apply in_order_app.
  - clear - AX. induction xs as [|x xs IH]; [exact I|]. cbn [map in_order]. split; [|apply IH, AX]. intros c Hc. apply in_map_iff in Hc. destruct Hc as (x' & <- & Hx).
    apply before_spec. cbn [fst snd]. right. split; [reflexivity|]. exact (ascending_starts _ _ AX _ Hx).
  - apply IH, AY.
  - intros b c Hb Hc. apply in_map_iff in Hb. destruct Hb as (x & <- & Hx). rewrite boxes_flat in Hc. apply in_flat_map in Hc. destruct Hc as (y' & Hy & Hc).
    apply in_map_iff in Hc. destruct Hc as (x' & <- & _). apply before_spec. left. cbn [fst snd]. exact (ascending_starts _ _ AY _ Hy).
Qed.

Lemma insert_permutation b l : Permutation (insert_box b l) (b :: l).
Proof. induction l as [|c l IH]; cbn; [reflexivity|]. destruct (before b c); [reflexivity|]. rewrite IH. apply perm_swap. Qed.

Lemma sort_permutation l : Permutation (sort_boxes l) l.
Proof. induction l as [|b l IH]; cbn; [reflexivity|]. fold (sort_boxes l). now rewrite insert_permutation, IH. Qed.

(** Any two different elements have an order. *)
Definition distinct (l : list box) : Prop := forall b c, In b l -> In c l -> b = c \/ before b c = true \/ before c b = true.

Lemma insert_in_order b l : in_order l -> (forall c, In c l -> before b c = true \/ before c b = true) -> in_order (insert_box b l).
Proof.
  induction l as [|c l IH]; intros A D; [cbn; split; [intros ? [] | exact I]|]. cbn [insert_box]. destruct A as [A A']. destruct (before b c) eqn:E.
  - cbn [in_order]. split; [|split; assumption]. intros d [<-|Hd]; [exact E|]. destruct (C107_order b c d) as (_ & T & _). apply T; auto.
  - cbn [in_order]. split; [|apply IH; [exact A' | intros d Hd; apply D; now right]]. intros d Hd. apply (Permutation_in _ (insert_permutation b l)) in Hd.
    destruct Hd as [<-|Hd]; [|auto]. destruct (D c (or_introl eq_refl)) as [H|H]; [congruence | exact H].
Qed.

Lemma sort_in_order l : NoDup l -> distinct l -> in_order (sort_boxes l).
Proof.
  induction l as [|b l IH]; intros N D; [exact I|]. inversion N as [|? ? N1 N2]; subst. cbn. fold (sort_boxes l). apply insert_in_order.
  - apply IH; [exact N2|]. intros c d Hc Hd. apply D; now right.
  - intros c Hc. apply (Permutation_in _ (sort_permutation l)) in Hc. destruct (D b c (or_introl eq_refl) (or_intror Hc)) as [->|H]; [contradiction | exact H].
Qed.

Lemma in_order_unique : forall l m, in_order l -> in_order m -> Permutation l m -> l = m.
Proof.
  assert (A : forall b c, before b c = true -> before c b = true -> False).
  { intros b c H K. destruct (C107_order b c b) as (_ & T & _). destruct (C107_order b b b) as (Z & _). rewrite (T H K) in Z. discriminate. }
  induction l as [|b l IH]; intros m Hl Hm P; [apply Permutation_nil in P; now subst|]. destruct m as [|c m]; [symmetry in P; now apply Permutation_nil in P|].
  destruct Hl as [B L], Hm as [C M]. assert (E : b = c).
  { assert (Hb : In b (c :: m)) by (apply (Permutation_in _ P); now left). assert (Hc : In c (b :: l)) by (apply (Permutation_in _ (Permutation_sym P)); now left).
    destruct Hb as [->|Hb]; [reflexivity|]. destruct Hc as [->|Hc]; [reflexivity|]. destruct (A b c); auto. }
  subst c. f_equal. apply IH; auto. now apply Permutation_cons_inv in P.
Qed.

Lemma in_order_distinct l : in_order l -> distinct l /\ NoDup l.
Proof.
  induction l as [|b l IH]; intros H; [split; [intros ? ? [] | constructor]|]. destruct H as [A B]. destruct (IH B) as [D N]. split.
  - intros c d [<-|Hc] [<-|Hd]; auto.
  - constructor; [|exact N]. intros K. specialize (A b K). destruct (C107_order b b b) as (Z & _). congruence.
Qed.

(** C105: the domains of a rectangular grid can be given in any order if they are sorted: the grid is the one with these columns and rows. *)
Theorem C105_unsorted a xs ys l : xs <> [] -> ys <> [] -> ascending xs -> ascending ys -> Permutation l (boxes_of xs ys) ->
  exists ax ay, grid_of_domains a l true = Ok (ax, ay) /\ cells ax = xs /\ cells ay = ys.
Proof.
  intros NX NY AX AY P. pose proof (boxes_in_order xs ys AX AY) as O. destruct (in_order_distinct _ O) as [D N].
  assert (S : sort_boxes l = boxes_of xs ys).
  { apply in_order_unique; [|exact O|].
    - apply sort_in_order; [exact (Permutation_NoDup (Permutation_sym P) N)|]. intros b c Hb Hc. apply D; apply (Permutation_in _ P); assumption.
    - now rewrite sort_permutation. }
  destruct (C105_complete a xs ys NX NY AX AY) as (ax & ay & E & X & Y). exists ax, ay. split; [|auto]. rewrite <- S in E. unfold grid_of_domains.
  destruct l as [|b l]; [cbn in E; discriminate | exact E].
Qed.

(** C105: sorting neither loses domains nor adds any: a grid of domains in any order, with asserts, has exactly these domains as its cells. *)
Theorem C105_sorted_sound l s ax ay : l <> [] -> grid_of_domains true l s = Ok (ax, ay) -> Permutation l (boxes_of (cells ax) (cells ay)).
Proof.
  intros N E. unfold grid_of_domains in E. destruct l as [|b l]; [congruence|]. destruct (C105_sound _ _ _ E) as [H _]. rewrite <- H.
  destruct s; [symmetry; apply sort_permutation | reflexivity].
Qed.

(** Four domains, last one first *)
Example unsorted_example : exists ax ay, grid_of_domains true (rev (boxes_of [c01; c12] [c01; c24])) true = Ok (ax, ay) /\ cells ax = [c01; c12] /\ cells ay = [c01; c24] /\
  grid_of_domains true (rev (boxes_of [c01; c12] [c01; c24])) false = Throw.
Proof. do 2 eexists. repeat split; reflexivity. Qed.

Print Assumptions C105_unsorted.
Print Assumptions C105_sorted_sound.
