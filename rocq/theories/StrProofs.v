From Coq Require Import List Bool Arith ZArith Ascii Lia.
From Verif Require Import StrModel.
Import ListNotations.
Open Scope nat_scope.

Lemma lskip_spec s en : forall fuel st, en - st <= fuel -> st <= en ->
  let r := lskip fuel s st en in
  st <= r <= en /\ (forall i, st <= i < r -> isspace (at_ s i) = true) /\ (r < en -> isspace (at_ s r) = false).
Proof.
  induction fuel; intros st Hf Hs; cbn [lskip].
  - split; [lia|]. split; [intros; lia|lia].
  - destruct (Nat.ltb_spec st en); cbn [andb].
    + destruct (isspace (at_ s st)) eqn:E.
      * destruct (IHfuel (S st) ltac:(lia) ltac:(lia)) as (H1 & H2 & H3). split; [lia|]. split; [|exact H3].
        intros i Hi. destruct (Nat.eq_dec i st) as [->|]; [exact E|apply H2; lia].
      * split; [lia|]. split; [intros; lia|auto].
    + split; [lia|]. split; [intros; lia|lia].
Qed.
Lemma lskipws_spec s st en : st <= en -> let r := lskipws s st en in
  st <= r <= en /\ (forall i, st <= i < r -> isspace (at_ s i) = true) /\ (r < en -> isspace (at_ s r) = false).
Proof. intros H. apply lskip_spec; lia. Qed.

Lemma rskip_spec s st : forall fuel en, en - st <= fuel -> st <= en ->
  let r := rskip fuel s st en in
  st <= r <= en /\ (forall i, r <= i < en -> isspace (at_ s i) = true) /\ (st < r -> isspace (at_ s (r - 1)) = false).
Proof.
  induction fuel; intros en Hf Hs; cbn [rskip].
  - split; [lia|]. split; [intros; lia|lia].
  - destruct (Nat.ltb_spec st en); cbn [andb].
    + destruct (isspace (at_ s (en - 1))) eqn:E.
      * destruct (IHfuel (en - 1) ltac:(lia) ltac:(lia)) as (H1 & H2 & H3). split; [lia|]. split; [|exact H3].
        intros i Hi. destruct (Nat.eq_dec i (en - 1)) as [->|]; [exact E|apply H2; lia].
      * split; [lia|]. split; [intros; lia|auto].
    + split; [lia|]. split; [intros; lia|lia].
Qed.
Lemma rskipws_spec s st en : st <= en -> let r := rskipws s st en in
  st <= r <= en /\ (forall i, r <= i < en -> isspace (at_ s i) = true) /\ (st < r -> isspace (at_ s (r - 1)) = false).
Proof. intros H. apply rskip_spec; lia. Qed.

Lemma lskipws_unique s st en k : st <= k <= en -> (forall i, st <= i < k -> isspace (at_ s i) = true) ->
  (k < en -> isspace (at_ s k) = false) -> lskipws s st en = k.
Proof.
  intros H1 H2 H3. destruct (lskipws_spec s st en ltac:(lia)) as (A & B & C). set (r := lskipws s st en) in *.
  destruct (Nat.lt_trichotomy r k) as [H|[H|H]]; auto.
  - rewrite H2 in C by lia. specialize (C ltac:(lia)). discriminate.
  - rewrite B in H3 by lia. specialize (H3 ltac:(lia)). discriminate.
Qed.
Lemma rskipws_unique s st en k : st <= k <= en -> (forall i, k <= i < en -> isspace (at_ s i) = true) ->
  (st < k -> isspace (at_ s (k - 1)) = false) -> rskipws s st en = k.
Proof.
  intros H1 H2 H3. destruct (rskipws_spec s st en ltac:(lia)) as (A & B & C). set (r := rskipws s st en) in *.
  destruct (Nat.lt_trichotomy r k) as [H|[H|H]]; auto.
  - rewrite (B (k - 1)) in H3 by lia. specialize (H3 ltac:(lia)). discriminate.
  - rewrite (H2 (r - 1)) in C by lia. specialize (C ltac:(lia)). discriminate.
Qed.

Lemma at_app1 a b i : i < length a -> at_ (a ++ b) i = at_ a i.
Proof. intros. unfold at_. now apply app_nth1. Qed.
Lemma at_app2 a b i : at_ (a ++ b) (length a + i) = at_ b i.
Proof. unfold at_. rewrite app_nth2 by lia. f_equal. lia. Qed.
Lemma at_app2' a b i : length a <= i -> at_ (a ++ b) i = at_ b (i - length a).
Proof. intros. unfold at_. now rewrite app_nth2 by lia. Qed.
Lemma at_space a i : Forall (fun c => isspace c = true) a -> i < length a -> isspace (at_ a i) = true.
Proof. intros H Hi. rewrite Forall_forall in H. apply H. now apply nth_In. Qed.

(** A text that does not start or end with a blank. *)
Definition solid (t : list ascii) : Prop :=
  t <> [] /\ isspace (at_ t 0) = false /\ isspace (at_ t (length t - 1)) = false.
Definition spaces (a : list ascii) : Prop := Forall (fun c => isspace c = true) a.

Lemma trim_positions a t b : spaces a -> spaces b -> solid t ->
  lskipws (a ++ t ++ b) 0 (length (a ++ t ++ b)) = length a /\
  rskipws (a ++ t ++ b) (length a) (length (a ++ t ++ b)) = length a + length t.
Proof.
  intros Ha Hb (Hn & H0 & H1). rewrite !app_length. assert (0 < length t) by (destruct t; [congruence|cbn; lia]). split.
  - apply lskipws_unique; [lia| |].
    + intros i Hi. rewrite at_app1 by lia. apply at_space; auto. lia.
    + intros _. replace (length a) with (length a + 0) by lia. rewrite at_app2, at_app1 by lia. exact H0.
  - apply rskipws_unique; [lia| |].
    + intros i Hi. rewrite at_app2' by lia. rewrite at_app2' by lia. apply at_space; auto. lia.
    + intros _. rewrite at_app2' by lia. rewrite at_app1 by lia. replace (length a + length t - 1 - length a) with (length t - 1) by lia. exact H1.
Qed.

Lemma spaces_positions a : spaces a -> lskipws a 0 (length a) = length a.
Proof. intros H. apply lskipws_unique; [lia| |lia]. intros i Hi. apply at_space; auto. lia. Qed.

Lemma skip_skip {A} : forall (s : list A) i j, skipn i (skipn j s) = skipn (j + i) s.
Proof.
  induction s as [|x s IH]; intros i j; [now rewrite !skipn_nil|]. destruct j; [reflexivity|]. cbn [skipn Nat.add]. apply IH.
Qed.

Lemma space_split s : spaces s \/ exists a t b, s = a ++ t ++ b /\ spaces a /\ spaces b /\ solid t.
Proof.
  destruct (lskipws_spec s 0 (length s) ltac:(lia)) as (A1 & A2 & A3). set (st := lskipws s 0 (length s)) in *.
  destruct (rskipws_spec s st (length s) ltac:(lia)) as (B1 & B2 & B3). set (en := rskipws s st (length s)) in *.
  destruct (Nat.eq_dec st (length s)) as [E|E].
  - left. apply Forall_nth. intros i d Hi. rewrite (nth_indep s d zero Hi). apply A2. lia.
  - right. assert (Hen : st < en).
    { destruct (Nat.eq_dec st en) as [E'|]; [|lia]. rewrite (B2 st) in A3 by lia. specialize (A3 ltac:(lia)). discriminate. }
    exists (firstn st s), (firstn (en - st) (skipn st s)), (skipn en s).
    assert (Es : s = firstn st s ++ firstn (en - st) (skipn st s) ++ skipn en s).
    { rewrite <- (firstn_skipn st s) at 1. f_equal. rewrite <- (firstn_skipn (en - st) (skipn st s)) at 1. f_equal.
      rewrite skip_skip. f_equal. lia. }
    assert (L1 : length (firstn st s) = st) by (rewrite firstn_length; lia).
    assert (L2 : length (firstn (en - st) (skipn st s)) = en - st) by (rewrite firstn_length, skipn_length; lia).
    split; [exact Es|]. split; [|split].
    + apply Forall_nth. intros i d Hi. rewrite (nth_indep _ d zero Hi). rewrite L1 in Hi.
      change (isspace (at_ (firstn st s) i) = true). rewrite <- (at_app1 _ (skipn st s)) by lia. rewrite firstn_skipn. apply A2. lia.
    + apply Forall_nth. intros i d Hi. rewrite (nth_indep _ d zero Hi). rewrite skipn_length in Hi.
      change (isspace (at_ (skipn en s) i) = true). rewrite <- (at_app2 (firstn en s)). rewrite firstn_skipn, firstn_length.
      apply B2. lia.
    + assert (G : forall i, i < en - st -> at_ (firstn (en - st) (skipn st s)) i = at_ s (st + i)).
      { intros i Hi. pose proof (at_app2 (firstn st s) (firstn (en - st) (skipn st s) ++ skipn en s) i) as P.
        rewrite <- Es, L1 in P. rewrite P, at_app1 by lia. reflexivity. }
      split; [intros E0; rewrite E0 in L2; cbn in L2; lia|]. rewrite L2. split.
      * rewrite G by lia. rewrite Nat.add_0_r. apply A3. lia.
      * rewrite G by lia. replace (st + (en - st - 1)) with (en - 1) by lia. apply B3. lia.
Qed.

Lemma skipn_at s i : i < length s -> skipn i s = at_ s i :: skipn (S i) s.
Proof.
  revert i. induction s as [|x s IH]; intros i H; [cbn in H; lia|]. destruct i; [reflexivity|]. cbn [skipn]. rewrite IH by (cbn in H; lia). reflexivity.
Qed.

Lemma find_from_spec c : forall s pos, match find_from c s pos with
  | Some i => pos <= i < length s /\ at_ s i = c /\ forall j, pos <= j < i -> at_ s j <> c
  | None => forall j, pos <= j < length s -> at_ s j <> c
  end.
Proof.
  induction s as [|x s IH]; intros pos; cbn [find_from].
  - intros j Hj. cbn in Hj. lia.
  - destruct pos as [|p].
    + destruct (Ascii.eqb_spec x c) as [->|Hn].
      * split; [cbn; lia|]. split; [reflexivity|]. intros; lia.
      * specialize (IH 0). destruct (find_from c s 0) as [i|]; cbn [option_map].
        -- destruct IH as (H1 & H2 & H3). split; [cbn; lia|]. split; [exact H2|]. intros j Hj. destruct j; [exact Hn|]. apply (H3 j). lia.
        -- intros j Hj. destruct j; [exact Hn|]. apply (IH j). cbn in Hj. lia.
    + specialize (IH p). destruct (find_from c s p) as [i|]; cbn [option_map].
      * destruct IH as (H1 & H2 & H3). split; [cbn; lia|]. split; [exact H2|]. intros j Hj. destruct j; [lia|]. apply (H3 j). lia.
      * intros j Hj. destruct j; [lia|]. apply (IH j). cbn in Hj. lia.
Qed.
