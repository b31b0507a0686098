From Coq Require Import List Bool Lia.
From Verif Require Import FieldsModel FieldsSpec.
Import ListNotations.

Lemma has_none k : ~ has f_none k.
Proof. destruct k; simpl; discriminate. Qed.

Lemma has_or a b k : has (f_or a b) k <-> has a k \/ has b k.
Proof. destruct k; simpl; apply orb_true_iff. Qed.

Lemma has_dec f k : {has f k} + {~ has f k}.
Proof. destruct k; simpl; destruct (_ : bool); auto. Qed.

Lemma has_update v r p k :
  has (update_requirements v r p) k <-> has r k \/ (has v k /\ ~ has p k).
Proof.
  destruct k; unfold update_requirements; simpl.
  - destruct (f_data v), (f_data r), (f_data p); simpl; intuition discriminate.
  - destruct (f_flags v), (f_flags r), (f_flags p); simpl; intuition discriminate.
  - destruct (f_weights v), (f_weights r), (f_weights p); simpl; intuition discriminate.
  - destruct (f_uvw v), (f_uvw r), (f_uvw p); simpl; intuition discriminate.
Qed.

Lemma chain_required_cons s rest :
  chain_required (s :: rest) =
  update_requirements (chain_required rest) (s_required s) (s_provided s).
Proof. unfold chain_required; simpl; now rewrite fold_left_app. Qed.

Lemma chain_required_spec chain k :
  has (chain_required chain) k <-> needed_from_outside chain k.
Proof.
  induction chain as [|s rest IH].
  - split; [intros H; now apply has_none in H|].
    intros (b & s & a & E & _); destruct b; discriminate.
  - rewrite chain_required_cons, has_update, IH; split.
    + intros [H | [(b & s0 & a & -> & Hr & Hb) Hp]].
      * exists [], s, rest; repeat split; auto; intros ? [].
      * exists (s :: b), s0, a; repeat split; auto.
        intros s' [<-|Hi] Hp'; [contradiction | now apply Hb].
    + intros (b & s0 & a & E & Hr & Hb).
      destruct b as [|s1 b]; simpl in E; injection E as <- ->; [now left|].
      destruct (has_dec (s_required s) k) as [Hs|Hs]; [now left|right]; split.
      * exists b, s0, a; repeat split; auto. intros; apply Hb; simpl; auto.
      * intros Hp; apply Hs, Hb; simpl; auto.
Qed.

(** Generalised over a prefix [pre] already walked, with the invariant that the
    current accumulator is what changed since the last output in [pre]. *)
Lemma changed_app_out initial pre s k :
  s_output s = true -> ~ changed_since_output initial (pre ++ [s]) k.
Proof.
  intros Ho (older & seg & E & Hseg & H).
  destruct seg as [|x seg' _] using rev_ind.
  - destruct H as [(x & [] & _)|[-> _]].
    rewrite app_nil_r in E; destruct pre; discriminate.
  - rewrite app_assoc in E; apply app_inj_tail in E as [_ <-].
    rewrite (Hseg s) in Ho; [discriminate|apply in_or_app; simpl; auto].
Qed.

Lemma changed_app_step initial pre s k :
  s_output s = false ->
  (changed_since_output initial (pre ++ [s]) k <->
   changed_since_output initial pre k \/ has (s_provided s) k).
Proof.
  intros Ho; split.
  - intros (older & seg & E & Hseg & H).
    destruct seg as [|x seg' _] using rev_ind.
    + destruct H as [(x & [] & _)|[-> _]].
      rewrite app_nil_r in E; destruct pre; discriminate.
    + rewrite app_assoc in E; apply app_inj_tail in E as [-> <-].
      destruct H as [(y & Hy & Hp)|[-> Hi]].
      * apply in_app_or in Hy as [Hy|[<-|[]]]; [left|now right].
        exists older, seg'; repeat split; eauto.
        intros; apply Hseg, in_or_app; auto.
      * left; exists [], seg'; repeat split; eauto.
        intros; apply Hseg, in_or_app; auto.
  - intros [(older & seg & -> & Hseg & H)|Hp].
    + exists older, (seg ++ [s]); repeat split.
      * now rewrite app_assoc.
      * intros x Hx; apply in_app_or in Hx as [Hx|[<-|[]]]; auto.
      * destruct H as [(y & Hy & Hp)|H]; [left|now right].
        exists y; split; auto; apply in_or_app; auto.
    + exists pre, [s]; repeat split; auto.
      * intros x [<-|[]]; auto.
      * left; exists s; simpl; auto.
Qed.

Lemma chain_provided_gen initial chain : forall pre acc,
  (forall k, has acc k <-> changed_since_output initial pre k) ->
  let '(ws, final) := chain_provided chain acc in
  length ws = length (filter s_output chain) /\
  (forall j before s after,
      chain = before ++ s :: after -> s_output s = true ->
      j = length (filter s_output before) ->
      exists w, nth_error ws j = Some w /\
                forall k, has w k <-> changed_since_output initial (pre ++ before) k) /\
  (forall k, has final k <-> changed_since_output initial (pre ++ chain) k).
Proof.
  induction chain as [|s rest IH]; intros pre acc Hacc; simpl.
  - repeat split; auto.
    + intros j before s after E; destruct before; discriminate.
    + intros H; rewrite app_nil_r; now apply Hacc.
    + intros H; rewrite app_nil_r in H; now apply Hacc.
  - destruct (s_output s) eqn:Ho.
    + specialize (IH (pre ++ [s]) f_none).
      destruct (chain_provided rest f_none) as [ws final].
      destruct IH as (Hlen & Hws & Hfin).
      { intros k; split; intros H; [now apply has_none in H|].
        now apply changed_app_out in H. }
      repeat split.
      * simpl; now rewrite Hlen.
      * intros j before s0 after E Hs0 ->.
        destruct before as [|b0 before]; simpl in E; injection E as <- E'.
        -- simpl; exists acc; split; auto. intros k; rewrite app_nil_r; apply Hacc.
        -- simpl; rewrite Ho; simpl.
           destruct (Hws _ before s0 after E' Hs0 eq_refl) as (w & Hw & Hk).
           exists w; split; auto. intros k; rewrite Hk, <- app_assoc; reflexivity.
      * intros H; apply Hfin in H; rewrite <- app_assoc in H; exact H.
      * intros H; apply Hfin; rewrite <- app_assoc; exact H.
    + specialize (IH (pre ++ [s]) (f_or acc (s_provided s))).
      destruct (chain_provided rest _) as [ws final].
      destruct IH as (Hlen & Hws & Hfin).
      { intros k; rewrite has_or, Hacc; symmetry; now apply changed_app_step. }
      repeat split; auto.
      * intros j before s0 after E Hs0 ->.
        destruct before as [|b0 before]; simpl in E; injection E as <- E'.
        -- congruence.
        -- simpl; rewrite Ho.
           destruct (Hws _ before s0 after E' Hs0 eq_refl) as (w & Hw & Hk).
           exists w; split; auto. intros k; rewrite Hk, <- app_assoc; reflexivity.
      * intros H; apply Hfin in H; rewrite <- app_assoc in H; exact H.
      * intros H; apply Hfin; rewrite <- app_assoc; exact H.
Qed.

Lemma chain_provided_spec initial chain :
  let '(ws, final) := chain_provided chain initial in
  length ws = length (filter s_output chain) /\
  (forall before s after,
      chain = before ++ s :: after -> s_output s = true ->
      exists w, nth_error ws (length (filter s_output before)) = Some w /\
                forall k, has w k <-> changed_since_output initial before k) /\
  (forall k, has final k <-> changed_since_output initial chain k).
Proof.
  pose proof (chain_provided_gen initial chain [] initial) as H.
  destruct (chain_provided chain initial) as [ws final].
  destruct H as (H1 & H2 & H3).
  - intros k; split.
    + intros Hk; exists [], []; repeat split; auto; intros ? [].
    + intros (older & seg & E & _ & H).
      destruct older, seg; try discriminate.
      destruct H as [(s & [] & _)|[_ H]]; auto.
  - repeat split; auto; try apply H3. intros; eapply H2; eauto.
Qed.
