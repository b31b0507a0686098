(** Lemmas for PredictProps.v *)
From Coq Require Import String List Bool Arith QArith Qcanon Permutation Sorted Lia.
From Verif Require Import QcUtil Cplx InfoModel InfoProofs AverageModel GainModel DdecalProofs BeamModel PredictModel PredictSpec.
Import ListNotations.
Open Scope nat_scope.

Lemma set_nth_id {T} (l : list T) i x : nth_error l i = Some x -> set_nth l i x = l.
Proof. revert i. induction l as [|y l IH]; intros [|i]; cbn; try discriminate; [congruence|]. intros E. now rewrite IH. Qed.
Lemma resize_length {B} n fill (l : @beams B) : length (resize n fill l) = n.
Proof. unfold resize. rewrite app_length, firstn_length, repeat_length. lia. Qed.

Section Sum.
Context {V B S : Type}.
Variables (v0 : V) (vadd : V -> V -> V) (seen : B -> V -> B -> V) (antennas : nat -> nat * nat) (response : Qc -> nat -> nat -> nat -> B).
Hypothesis Hadd : additive v0 vadd seen.
Notation total := (@PredictSpec.total V B S v0 vadd seen antennas response).

Lemma add_0r a : vadd a v0 = a. Proof. destruct Hadd as (C & _ & Z & _). now rewrite C, Z. Qed.
Lemma add_assoc a b c : vadd a (vadd b c) = vadd (vadd a b) c. Proof. apply Hadd. Qed.
Lemma add_comm a b : vadd a b = vadd b a. Proof. apply Hadd. Qed.
Lemma add_0l a : vadd v0 a = a. Proof. apply Hadd. Qed.
Lemma total_app ub sim te l m bl ch : total ub sim te (l ++ m) bl ch = vadd (total ub sim te l bl ch) (total ub sim te m bl ch).
Proof. unfold PredictSpec.total. induction l as [|x l IH]; cbn; [now rewrite add_0l|]. now rewrite IH, add_assoc. Qed.
Lemma total_perm ub sim te l m bl ch : Permutation l m -> total ub sim te l bl ch = total ub sim te m bl ch.
Proof. unfold PredictSpec.total. induction 1; cbn; [reflexivity|now f_equal| |congruence]. rewrite !add_assoc. f_equal. apply add_comm. Qed.

Lemma loop_plain sim time first l : forall b model pm patch,
  exists m', source_loop v0 vadd seen antennas response false sim time first l b model pm patch = Ok (b, m') /\ forall bl ch, m' bl ch = vadd (model bl ch) (total false sim 0%Qc l bl ch).
Proof.
  induction l as [|[s p] l IH]; intros b model pm patch; cbn.
  - destruct patch; eexists; (split; [reflexivity|]); intros; cbn; now rewrite add_0r.
  - match goal with |- context [bind ?o _] => assert (E : o = Ok (b, model, pm)) by (destruct patch; reflexivity) end. rewrite E. cbn.
    destruct (IH b (fun bl ch => vadd (model bl ch) (sim s bl ch)) pm (Some p)) as (m' & -> & H). exists m'. split; [reflexivity|]. intros bl ch. rewrite H. cbn. now rewrite <- add_assoc.
Qed.
Lemma loop_beam sim time te first l : match time with Some t => t = te | None => True end -> forall b model pm p0,
  (forall p, In p (p0 :: map snd l) -> first <= p < first + length b) -> (time = None -> forall p, In p (p0 :: map snd l) -> nth_error b (p - first) = Some (response te p)) ->
  exists b' m', source_loop v0 vadd seen antennas response true sim time first l b model pm (Some p0) = Ok (b', m') /\ length b' = length b /\
    (forall p, In p (p0 :: map snd l) -> nth_error b' (p - first) = Some (response te p)) /\
    (forall p, first <= p -> nth_error b (p - first) = Some (response te p) -> nth_error b' (p - first) = Some (response te p)) /\
    forall bl ch, m' bl ch = vadd (vadd (model bl ch) (seen (response te p0 (fst (antennas bl)) ch) (pm bl ch) (response te p0 (snd (antennas bl)) ch))) (total true sim te l bl ch).
Proof.
  intros Ht.
  assert (Beam : forall b model pm p0, first <= p0 < first + length b -> (time = None -> nth_error b (p0 - first) = Some (response te p0)) ->
    exists b' m', add_beam vadd seen antennas response time b (p0 - first) p0 model pm = Ok (b', m') /\ length b' = length b /\ nth_error b' (p0 - first) = Some (response te p0) /\
    (forall p, first <= p -> p <> p0 -> nth_error b' (p - first) = nth_error b (p - first)) /\
    forall bl ch, m' bl ch = vadd (model bl ch) (seen (response te p0 (fst (antennas bl)) ch) (pm bl ch) (response te p0 (snd (antennas bl)) ch))).
  { intros b model pm p0 L N. unfold add_beam, get. destruct (nth_error b (p0 - first)) as [old|] eqn:E; [|apply nth_error_None in E; lia]. cbn.
    assert (T : match time with Some t => response t p0 | None => old end = response te p0). { destruct time as [t|]; [now subst t|]. specialize (N eq_refl). congruence. }
    eexists _, _. split; [reflexivity|]. rewrite T. split; [apply set_nth_length|]. split; [|split; [|reflexivity]].
    - rewrite set_nth_get, Nat.eqb_refl, E. reflexivity.
    - intros p Lp Np. rewrite set_nth_get. destruct (Nat.eqb_spec (p - first) (p0 - first)); [lia|reflexivity]. }
  induction l as [|[s p] l IH]; intros b model pm p0 L N.
  - cbn. destruct (Beam b model pm p0) as (b' & m' & -> & L' & H1 & H2 & H3); [apply L; now left|intros E; apply N; [exact E|now left]|].
    exists b', m'. split; [reflexivity|]. split; [exact L'|]. split; [intros q [<-|[]]; exact H1|]. split.
    + intros q Lq Hq. destruct (Nat.eq_dec q p0) as [->|Nq]; [exact H1|]. now rewrite H2.
    + intros bl ch. rewrite H3. cbn. now rewrite add_0r.
  - cbn [source_loop]. destruct (Nat.eqb_spec p p0) as [E|Np].
    + subst p0. cbn. destruct (IH b model (fun bl ch => vadd (pm bl ch) (sim s bl ch)) p) as (b' & m' & -> & L' & H1 & H2 & H3).
      { intros q Hq. apply L. now right. } { intros E q Hq. apply N; [exact E|now right]. }
      exists b', m'. split; [reflexivity|]. split; [exact L'|]. split; [intros q [<-|Hq]; [apply H1; now left|apply H1; exact Hq]|]. split; [exact H2|].
      intros bl ch. rewrite H3. destruct Hadd as (_ & _ & _ & Sa & _). rewrite Sa. unfold PredictSpec.total. cbn. rewrite <- !add_assoc. reflexivity.
    + cbn. destruct (Beam b model pm p0) as (b1 & m1 & -> & L1 & A1 & A2 & A3); [apply L; now left|intros E; apply N; [exact E|now left]|]. cbn.
      destruct (IH b1 m1 (fun bl ch => vadd v0 (sim s bl ch)) p) as (b' & m' & -> & L' & H1 & H2 & H3).
      { rewrite L1. intros q Hq. apply L. now right. }
      { intros E q Hq. destruct (Nat.eq_dec q p0) as [->|Nq]; [exact A1|]. rewrite A2; [apply N; [exact E|now right]|apply L; now right|exact Nq]. }
      exists b', m'. split; [reflexivity|]. split; [congruence|]. split.
      { intros q [<-|Hq]; [|apply H1; exact Hq]. apply H2; [|exact A1]. apply L. now left. }
      split. { intros q Lq Hq. apply H2; [exact Lq|]. destruct (Nat.eq_dec q p0) as [->|Nq]; [exact A1|]. now rewrite A2. }
      intros bl ch. rewrite H3, A3, add_0l. unfold PredictSpec.total. cbn. rewrite <- !add_assoc. reflexivity.
Qed.

Variable use_beam : bool.
Variable sources : list (S * nat).
Hypothesis sorted : StronglySorted le (map snd sources).
(** The beams of a range are those of the time [te] *)
Definition holds (te : Qc) (r : nat * nat * nat) (b : @beams B) : Prop :=
  forall s first l, source_range sources (fst (fst r)) (snd (fst r)) = (s, first) :: l -> forall p, In p (map snd ((s, first) :: l)) -> first <= p < first + length b /\ nth_error b (p - first) = Some (response te p).
Lemma ssorted_skipn {T} (R : T -> T -> Prop) l : StronglySorted R l -> forall n, StronglySorted R (skipn n l).
Proof. induction 1; intros [|n]; cbn; auto; constructor; auto. Qed.
Lemma ssorted_firstn {T} (R : T -> T -> Prop) l : StronglySorted R l -> forall n, StronglySorted R (firstn n l).
Proof. induction 1; intros [|n]; cbn; constructor; auto. apply Forall_forall. intros x Hx. rewrite Forall_forall in H0. apply H0. clear - Hx. revert l Hx. induction n; intros [|y l]; cbn; try tauto. intros [->|Hx]; auto. Qed.
Lemma ssorted_last l : forall x, StronglySorted le (x :: l) -> forall p, In p (x :: l) -> x <= p <= last (x :: l) x.
Proof.
  intros x Hs. apply StronglySorted_inv in Hs as [Hs Hf]. revert x Hf. induction l as [|y l IH]; intros x Hf p Hp.
  - destruct Hp as [<-|[]]. cbn. lia.
  - apply StronglySorted_inv in Hs as [Hs Hg]. apply Forall_cons_iff in Hf as [Hxy Hf]. pose proof (IH Hs y Hg) as H.
    replace (last (x :: y :: l) x) with (last (y :: l) y) by (cbn; destruct l; [reflexivity|]; clear; revert x y; induction l; intros; cbn in *; auto; destruct l; auto).
    destruct Hp as [<-|Hp]; [|pose proof (H p Hp); lia]. pose proof (H y (or_introl eq_refl)). lia.
Qed.
Lemma range_ok sim time te r b : fst (fst r) < length sources -> 0 < snd (fst r) -> match time with Some t => t = te | None => use_beam = true -> holds te r b end ->
  exists b' v, predict_range v0 vadd seen antennas response use_beam sources sim time (fst (fst r)) (snd (fst r)) b = Ok (b', v) /\ (use_beam = true -> holds te r b') /\
    forall bl ch, v bl ch = total use_beam sim te (source_range sources (fst (fst r)) (snd (fst r))) bl ch.
Proof.
  destruct r as [[start n] thread]. cbn [fst snd]. intros Ls Ln Ht. unfold predict_range. destruct (source_range sources start n) as [|[s first] l] eqn:E.
  { unfold source_range in E. apply (f_equal (@length _)) in E. rewrite firstn_length, skipn_length in E. cbn in E. lia. }
  destruct use_beam.
  2: { cbv zeta. match goal with |- context [source_loop _ _ _ _ _ _ _ _ _ _ ?x _ _ _] => set (b1 := x); destruct (loop_plain sim time first ((s, first) :: l) b1 (fun _ _ => v0) (fun _ _ => v0) None) as (m' & E' & H) end.
       rewrite E'. exists b1, m'. split; [reflexivity|]. split; [discriminate|]. intros bl ch. rewrite H, add_0l. reflexivity. }
  cbv zeta.
  assert (Srt : StronglySorted le (map snd ((s, first) :: l))). { rewrite <- E. unfold source_range. rewrite <- firstn_map, <- skipn_map. apply ssorted_firstn, ssorted_skipn, sorted. }
  set (b1 := match time with Some t => resize _ _ b | None => b end).
  assert (L1 : forall p, In p (first :: map snd l) -> first <= p < first + length b1).
  { intros p Hp. destruct time as [t|].
    - unfold b1. rewrite resize_length. pose proof (ssorted_last (map snd l) first Srt p Hp) as Q. cbn [map snd]. lia.
    - unfold b1. destruct (Ht eq_refl s first l E p Hp) as [Q _]. exact Q. }
  assert (N1 : time = None -> forall p, In p (first :: map snd l) -> nth_error b1 (p - first) = Some (response te p)).
  { intros ->. intros p Hp. destruct (Ht eq_refl s first l E p Hp) as [_ Q]. exact Q. }
  cbn [source_loop bind].
  destruct (loop_beam sim time te first l) with (b := b1) (model := fun _ _ : nat => v0) (pm := fun bl ch : nat => vadd v0 (sim s bl ch)) (p0 := first) as (b' & m' & E' & L' & H1 & _ & H3).
  { destruct time; [exact Ht|exact I]. } { exact L1. } { exact N1. }
  rewrite E'. exists b', m'. split; [reflexivity|]. split.
  - intros _ s' f' l' E2 p Hp. cbn [fst snd] in E2. rewrite E in E2. injection E2 as <- <- <-. split; [rewrite L'; apply L1; exact Hp|apply H1; exact Hp].
  - intros bl ch. rewrite H3, !add_0l. unfold PredictSpec.total. cbn. reflexivity.
Qed.
Lemma ranges_ok sim time te n ranges : Forall (fun r => 0 < snd (fst r) /\ fst (fst r) < length sources /\ snd r < n) ranges -> NoDup (map snd ranges) ->
  forall buffers result, length buffers = n -> match time with Some t => t = te | None => use_beam = true -> forall r b, In r ranges -> nth_error buffers (snd r) = Some b -> holds te r b end ->
  exists buffers' v, predict_ranges v0 vadd seen antennas response use_beam sources sim time ranges buffers result = Ok (buffers', v) /\ length buffers' = n /\
    (use_beam = true -> forall r b, In r ranges -> nth_error buffers' (snd r) = Some b -> holds te r b) /\ (forall k, ~ In k (map snd ranges) -> nth_error buffers' k = nth_error buffers k) /\
    forall bl ch, v bl ch = vadd (result bl ch) (total use_beam sim te (flat_map (fun r => source_range sources (fst (fst r)) (snd (fst r))) ranges) bl ch).
Proof.
  induction ranges as [|[[start m] thread] ranges IH]; intros F D buffers result L Ht.
  - exists buffers, result. cbn. split; [reflexivity|]. split; [exact L|]. split; [intros _ r b []|]. split; [reflexivity|]. intros bl ch. now rewrite add_0r.
  - apply Forall_cons_iff in F as [(Lm & Ls & Lt) F]. cbn in Lm, Ls, Lt. cbn in D. apply NoDup_cons_iff in D as [D1 D2]. cbn [predict_ranges]. unfold get at 1.
    destruct (nth_error buffers thread) as [b|] eqn:Eb; [|apply nth_error_None in Eb; lia]. cbn [bind].
    destruct (range_ok sim time te (start, m, thread) b) as (b1 & v1 & E1 & G1 & H1); [exact Ls|exact Lm| |].
    { destruct time; [exact Ht|]. intros U. apply (Ht U); [now left|exact Eb]. }
    cbn [fst snd] in E1. rewrite E1. cbn [bind].
    destruct (IH F D2 (set_nth buffers thread b1) (fun bl ch => vadd (result bl ch) (v1 bl ch))) as (bs & v & E & Lb & G & K & H).
    { now rewrite set_nth_length. }
    { destruct time; [exact Ht|]. intros U r b2 Hr. rewrite set_nth_get. destruct (Nat.eqb_spec (snd r) thread) as [X|X]; [exfalso; apply D1; rewrite <- X; now apply in_map|].
      intros Hb. apply (Ht U); [now right|exact Hb]. }
    rewrite E. exists bs, v. split; [reflexivity|]. split; [exact Lb|]. split; [|split].
    + intros U r b2 [<-|Hr] Hb2; [|eapply G; eauto]. cbn [fst snd] in Hb2. rewrite (K _ D1), set_nth_get, Nat.eqb_refl, Eb in Hb2. cbn in Hb2. injection Hb2 as <-. apply (G1 U).
    + intros k Hk. cbn in Hk. rewrite K by tauto. rewrite set_nth_get. destruct (Nat.eqb_spec k thread); [exfalso; apply Hk; left; congruence|reflexivity].
    + intros bl ch. rewrite H, H1. cbn [flat_map fst snd]. rewrite total_app, add_assoc. reflexivity.
Qed.
End Sum.
