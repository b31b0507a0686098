(** Proofs about the time slots that the reader delivers. *)
From Coq Require Import QArith Qround Qcanon List Bool Arith ZArith Lia Sorted.
From Verif Require Import QcUtil AverageModel InfoModel TimesModel TimesSpec.
Import ListNotations.
Open Scope nat_scope.

Lemma qnat_S k : qnat (S k) = (qnat k + 1)%Qc.
Proof. unfold qnat. rewrite Nat2Z.inj_succ. apply qc_eq. qc_unfold. unfold Z.succ. rewrite inject_Z_plus. reflexivity. Qed.
Lemma qnat_nonneg k : (0 <= qnat k)%Qc.
Proof. induction k; [discriminate|]. rewrite qnat_S. qclra. Qed.
Lemma qnat_0 : qnat 0 = 0%Qc.
Proof. reflexivity. Qed.
Lemma qnat_le i j : i <= j -> (qnat i <= qnat j)%Qc.
Proof. induction 1; [apply Qcle_refl|]. rewrite qnat_S. qclra. Qed.
Lemma mult_nonneg x y : (0 <= x -> 0 <= y -> 0 <= x * y)%Qc.
Proof. intros. replace 0%Qc with (0 * y)%Qc by ring. now apply Qcmult_le_compat_r. Qed.

Lemma filter_len {X} (f : X -> bool) l : length (filter f l) <= length l.
Proof. induction l; cbn; auto. destruct (f a); cbn; lia. Qed.

Lemma near_abs_true x y tol : near_abs x y tol = true <-> within tol x y.
Proof. unfold near_abs, within. rewrite andb_true_iff, !qleb_true. reflexivity. Qed.
Lemma near_abs_false x y tol : near_abs x y tol = false -> (tol < x - y)%Qc \/ (tol < y - x)%Qc.
Proof.
  unfold near_abs. intros H. apply andb_false_iff in H as [H|H].
  - destruct (qleb_spec (x - y)%Qc tol); [discriminate|]. left. now apply Qcnot_le_lt.
  - destruct (qleb_spec (y - x)%Qc tol); [discriminate|]. right. now apply Qcnot_le_lt.
Qed.

Section Run.
Variables (S : Type) (time : S -> Qc) (near : Qc -> Qc -> bool) (c : times).
Hypothesis Hint : (0 < interval c)%Qc.
Hypothesis Htol : (0 <= tolerance c)%Qc.
Hypothesis Hfirst : (0 < first c)%Qc.


Notation tol := (tolerance c).
Definition kept_list (k : nat) (l : list S) : list S :=
  if k =? 0 then filter (fun s => qleb (first c - tol)%Qc (time s)) l else l.

Lemma kept_all k l : Forall (fun s => first c - tol <= time s)%Qc l -> kept_list k l = l.
Proof.
  intros H. unfold kept_list. destruct (k =? 0); auto. induction H; cbn [filter]; auto.
  rewrite (proj2 (qleb_true _ _)) by auto. now rewrite IHForall.
Qed.

Lemma ordered_after s l t : ordered time tol (s :: l) -> (t <= time s)%Qc -> Forall (fun x => t <= time x)%Qc (s :: l).
Proof.
  intros H Ht. inversion H as [|? ? H1 H2]; subst. constructor; auto.
  eapply Forall_impl; [|exact H2]. cbn. intros x Hx. qclra.
Qed.

Lemma search_ok corr nxt k : (k = 0 -> corr = 0%Qc /\ nxt = first c) -> (0 < k -> (first c + corr <= nxt - interval c)%Qc) ->
  forall l prev, ordered time tol l -> Forall (fun s => prev <= time s)%Qc l ->
  (0 < k -> Forall (fun s => nxt - interval c < time s)%Qc l) ->
  let (st1, use) := search time c corr nxt prev k l in
  count st1 = k /\ pending st1 = kept_list k l /\ Forall (fun s => previous st1 <= time s)%Qc (pending st1) /\
  match use with
  | Some s => exists rest, pending st1 = s :: rest /\
      ((next st1 = nxt /\ correction st1 = corr /\ within tol (time s) nxt) \/
       (0 < k /\ next st1 = time s /\ correction st1 = (corr - (nxt - time s))%Qc /\ (time s < nxt)%Qc))
  | None => next st1 = nxt /\ correction st1 = corr /\ Forall (fun s => nxt + tol < time s)%Qc (pending st1)
  end.
Proof.
  intros H0 H1. induction l as [|s l IH]; intros prev Ho Hp Hk.
  - cbn [search count pending previous next correction]. unfold kept_list. destruct (k =? 0); repeat split; auto.
  - cbn [search]. inversion Hp as [|? ? Hp1 Hp2]; subst. inversion Ho as [|? ? Ho1 Ho2]; subst.
    destruct (qltb_spec (time s) prev) as [X|_]; [exfalso; now apply Qcle_not_lt in Hp1|].
    destruct (near_abs (time s) nxt tol) eqn:En.
    { apply near_abs_true in En. cbn [count pending previous next correction]. split; auto. split.
      - destruct (Nat.eq_dec k 0) as [Ek|Ek].
        + rewrite kept_all; auto. apply ordered_after; auto. rewrite (proj2 (H0 Ek)) in En. destruct En. qclra.
        + unfold kept_list. destruct (Nat.eqb_spec k 0); [contradiction|reflexivity].
      - split; [constructor; auto|]. exists l. split; auto. }
    apply near_abs_false in En.
    destruct (Nat.eq_dec k 0) as [Ek|Ek].
    + (* nothing delivered yet *)
      destruct (H0 Ek) as [-> ->]. replace (first c + 0)%Qc with (first c) by ring.
      assert (Hlt : qltb (first c) (time s) && qltb (time s) (first c) = false).
      { destruct (qltb_spec (first c) (time s)) as [X|X]; auto. apply qltb_false. now apply Qclt_le_weak. }
      rewrite Hlt. destruct (qltb_spec (first c) (time s)) as [X|X].
      * cbn [count pending previous next correction]. split; auto. split.
        { rewrite kept_all; auto. apply ordered_after; auto. qclra. }
        split; [constructor; auto|]. split; auto. split; auto.
        assert (Y : (first c + tol < time s)%Qc) by (destruct En; qclra).
        constructor; auto. eapply Forall_impl; [|exact Ho2]. cbn. intros x Hx. qclra.
      * apply Qcnot_lt_le in X.
        assert (Y : (time s < first c - tol)%Qc) by (destruct En; qclra).
        assert (K : kept_list k (s :: l) = kept_list k l).
        { unfold kept_list. rewrite Ek. cbn [Nat.eqb filter]. replace (qleb (first c - tol)%Qc (time s)) with false; auto.
          symmetry. destruct (qleb_spec (first c - tol)%Qc (time s)) as [Z|]; auto. exfalso. now apply Qcle_not_lt in Z. }
        rewrite K. apply IH; auto.
        -- eapply Forall_impl; [|exact Ho2]. cbn. intros x Hx. qclra.
        -- intros Hk0. lia.
    + (* something delivered before *)
      assert (K : forall l, kept_list k l = l) by (intros; unfold kept_list; destruct (Nat.eqb_spec k 0); [contradiction|reflexivity]).
      rewrite K. specialize (Hk ltac:(lia)). specialize (H1 ltac:(lia)). inversion Hk as [|? ? Hk1 Hk2]; subst.
      replace (qltb (first c + corr)%Qc (time s)) with true by (symmetry; apply qltb_true; qclra). cbn [andb].
      destruct (qltb_spec (time s) nxt) as [X|X].
      * cbn [count pending previous next correction]. split; auto. split; auto. split; [constructor; auto|].
        exists l. split; auto. right. repeat split; auto. lia.
      * apply Qcnot_lt_le in X.
        assert (Y : (nxt + tol < time s)%Qc) by (destruct En; qclra).
        replace (qltb nxt (time s)) with true by (symmetry; apply qltb_true; qclra).
        cbn [count pending previous next correction]. split; auto. split; auto. split; [constructor; auto|].
        repeat split; auto. constructor; auto. eapply Forall_impl; [|exact Ho2]. cbn. intros x Hx. qclra.
Qed.

(** Holds between two calls *)
Definition inv (st : state S) : Prop :=
  next st = (first c + correction st + qnat (count st) * interval c)%Qc /\
  (count st = 0 -> correction st = 0%Qc) /\
  ordered time tol (pending st) /\
  Forall (fun s => previous st <= time s)%Qc (pending st) /\
  (0 < count st -> Forall (fun s => next st - interval c < time s)%Qc (pending st)) /\
  (0 < count st -> (0 < next st - interval c)%Qc).

Lemma ordered_kept k l : ordered time tol l -> ordered time tol (kept_list k l).
Proof.
  intros H. unfold kept_list. destruct (k =? 0); auto. induction H as [|s l Hs IH Hf]; cbn [filter]; [constructor|].
  destruct (qleb _ _); auto. constructor; auto.
  rewrite Forall_forall in *. intros x Hx. apply filter_In in Hx as [Hx _]. auto.
Qed.

Lemma kept_nonzero k l : 0 < k -> kept_list k l = l.
Proof. intros H. unfold kept_list. destruct (Nat.eqb_spec k 0); [lia|reflexivity]. Qed.

(** One call *)
Lemma process_ok st : inv st ->
  match process time near c st with
  | None => exists e, ended near c e = true /\
      (e = next st /\ Forall (fun s => next st + tol < time s)%Qc (kept_list (count st) (pending st)) \/
       exists s rest, kept_list (count st) (pending st) = s :: rest /\
         (e = next st /\ within tol (time s) (next st) \/ 0 < count st /\ e = time s /\ (time s < next st)%Qc))
  | Some (st', (e, use)) =>
      ended near c e = false /\ inv st' /\ count st' = count st + 1 /\ next st' = (e + interval c)%Qc /\
      (0 < count st -> (next st - interval c < e)%Qc) /\ (count st = 0 -> e = next st) /\
      match use with
      | Some s => kept_list (count st) (pending st) = s :: pending st' /\ within tol e (time s) /\ (e <= next st)%Qc
      | None => kept_list (count st) (pending st) = pending st' /\ e = next st /\ Forall (fun s => e + tol < time s)%Qc (pending st')
      end
  end.
Proof.
  intros (I1 & I2 & I3 & I4 & I5 & I6). unfold process.
  assert (P1 : count st = 0 -> correction st = 0%Qc /\ next st = first c).
  { intros E. split; auto. rewrite I1, I2, E, qnat_0 by auto. ring. }
  assert (P2 : 0 < count st -> (first c + correction st <= next st - interval c)%Qc).
  { intros E. rewrite I1. destruct (count st) as [|k]; [lia|]. rewrite qnat_S.
    pose proof (mult_nonneg _ _ (qnat_nonneg k) (Qclt_le_weak _ _ Hint)) as M.
    replace ((qnat k + 1) * interval c)%Qc with (qnat k * interval c + interval c)%Qc by ring.
    generalize dependent (qnat k * interval c)%Qc. intros. qclra. }
  pose proof (search_ok (correction st) (next st) (count st) P1 P2 (pending st) (previous st) I3 I4 I5) as HS.
  destruct (search time c (correction st) (next st) (previous st) (count st) (pending st)) as [st1 use].
  destruct HS as (S1 & S2 & S3 & S4).
  assert (So : ordered time tol (pending st1)) by (rewrite S2; now apply ordered_kept).
  destruct (ended near c (next st1)) eqn:Ee.
  { exists (next st1). split; auto. destruct use as [s|].
    - right. destruct S4 as (rest & R1 & R2). exists s, rest. rewrite <- S2. split; auto.
      destruct R2 as [(R2 & R3 & R4)|(R2 & R3 & R4 & R5)]; [left|right]; repeat split; auto; apply R4.
    - left. destruct S4 as (R1 & R2 & R3). rewrite <- S2, R1. auto. }
  rewrite S1.
  assert (N : forall corr e k, e = (first c + corr + qnat k * interval c)%Qc ->
             (first c + corr + Q2Qc (inject_Z (Z.of_nat (k + 1))) * interval c)%Qc = (e + interval c)%Qc).
  { intros corr e k ->. fold (qnat (k + 1)). rewrite Nat.add_1_r, qnat_S. ring. }
  destruct use as [s|].
  - destruct S4 as (rest & R1 & R2).
    assert (Es : next st1 = (first c + correction st1 + qnat (count st) * interval c)%Qc).
    { destruct R2 as [(R2 & R3 & R4)|(R2 & R3 & R4 & R5)]; rewrite ?R2, ?R3, ?R4; auto.
      rewrite I1. ring. }
    rewrite (N _ _ _ Es). split; auto. rewrite R1 in *. cbn [tl pending count next correction previous].
    assert (W : within tol (next st1) (time s)).
    { destruct R2 as [(R2 & R3 & R4)|(R2 & R3 & R4 & R5)]; rewrite ?R2, ?R3.
      - destruct R4; split; auto.
      - unfold within. replace (time s - time s)%Qc with 0%Qc by ring. auto. }
    assert (A : Forall (fun x => next st1 < time x)%Qc rest).
    { inversion So as [|? ? So1 So2]; subst. eapply Forall_impl; [|exact So2]. cbn. intros x Hx. destruct W. qclra. }
    split; [|repeat split; auto].
    + unfold inv. cbn [pending count next correction previous]. rewrite Nat.add_1_r, qnat_S. split; [rewrite Es; ring|].
      split; [intros; lia|]. split; [now inversion So|]. split; [|split].
      * eapply Forall_impl; [|exact A]. cbn. intros x Hx. now apply Qclt_le_weak.
      * intros _. eapply Forall_impl; [|exact A]. cbn. intros x Hx. replace (next st1 + interval c - interval c)%Qc with (next st1) by ring. exact Hx.
      * intros _. replace (next st1 + interval c - interval c)%Qc with (next st1) by ring.
        destruct (Nat.eq_dec (count st) 0) as [Ek|Ek].
        { destruct R2 as [(R2 & _)|(R2 & _)]; [|lia]. rewrite R2, (proj2 (P1 Ek)). exact Hfirst. }
        specialize (I6 ltac:(lia)). destruct R2 as [(R2 & R3 & R4)|(R2 & R3 & R4 & R5)].
        -- rewrite R2. qclra.
        -- rewrite R3. specialize (I5 R2). rewrite (kept_nonzero _ _ R2) in S2. rewrite <- S2 in I5. inversion I5; subst. qclra.
    + intros Hk. destruct R2 as [(R2 & R3 & R4)|(R2 & R3 & R4 & R5)].
      * rewrite R2. qclra.
      * rewrite R3. specialize (I5 Hk). rewrite (kept_nonzero _ _ Hk) in S2. rewrite <- S2 in I5. now inversion I5.
    + intros Hk. destruct R2 as [(R2 & _)|(R2 & _)]; [auto|lia].
    + apply W. + apply W.
    + destruct R2 as [(R2 & R3 & R4)|(R2 & R3 & R4 & R5)]; [rewrite R2; apply Qcle_refl|rewrite R3; now apply Qclt_le_weak].
  - destruct S4 as (R1 & R2 & R3).
    assert (Es : next st1 = (first c + correction st1 + qnat (count st) * interval c)%Qc) by (rewrite R1, R2; auto).
    rewrite (N _ _ _ Es). split; auto. cbn [pending count next correction previous].
    split; [|repeat split; auto].
    + unfold inv. cbn [pending count next correction previous]. rewrite Nat.add_1_r, qnat_S. split; [rewrite Es; ring|].
      split; [intros; lia|]. split; auto. split; auto. split.
      * intros _. eapply Forall_impl; [|exact R3]. cbn. intros x Hx. rewrite R1. qclra.
      * intros _. replace (next st1 + interval c - interval c)%Qc with (next st1) by ring. rewrite R1.
        destruct (Nat.eq_dec (count st) 0) as [Ek|Ek]; [rewrite (proj2 (P1 Ek)); exact Hfirst|].
        specialize (I6 ltac:(lia)). qclra.
    + intros Hk. rewrite R1. qclra.
    + rewrite R1. exact R3.
Qed.


Lemma inv_next st : inv st -> (0 < next st)%Qc.
Proof.
  intros (I1 & I2 & I3 & I4 & I5 & I6). destruct (Nat.eq_dec (count st) 0) as [E|E].
  - rewrite I1, I2, E, qnat_0 by auto. replace (first c + 0 + 0 * interval c)%Qc with (first c) by ring. exact Hfirst.
  - specialize (I6 ltac:(lia)). qclra.
Qed.

Lemma ended_last e : (0 < e)%Qc -> ended near c e = true -> (last c < e)%Qc.
Proof.
  intros H E. unfold ended in E. apply orb_true_iff in E as [E|E].
  - apply andb_true_iff in E as [E _]. now apply qltb_true.
  - apply Qc_eq_bool_correct in E. subst. now apply Qclt_not_eq in H.
Qed.

(** A whole run *)
Definition good (st : state S) (outs : list (Qc * option S)) : Prop :=
  increasing outs /\
  (0 < count st -> Forall (fun x => next st - interval c < fst x)%Qc outs) /\
  (count st = 0 -> match outs with [] => True | x :: _ => fst x = next st end) /\
  Forall (fun x => ended near c (fst x) = false) outs /\
  (exists m, stored outs = firstn m (kept_list (count st) (pending st)) /\
     Forall (fun s => last c - tol < time s)%Qc (skipn m (kept_list (count st) (pending st)))) /\
  Forall (fun x => match snd x with
                   | Some s => within tol (fst x) (time s)
                   | None => (next st <= fst x)%Qc /\ Forall (fun s => ~ within tol (fst x) (time s)) (kept_list (count st) (pending st))
                   end) outs.

Lemma read_ok (Hwide : (tol + tol < interval c)%Qc) fuel : forall st outs, inv st -> read_all time near c fuel st = Some outs -> good st outs.
Proof.
  induction fuel as [|fuel IH]; intros st outs Hi H; [discriminate|]. cbn [read_all] in H.
  pose proof (process_ok st Hi) as P. destruct (process time near c st) as [[st' [e use]]|].
  - destruct (read_all time near c fuel st') as [r|] eqn:Er; [|discriminate]. injection H as <-.
    destruct P as (P1 & P2 & P3 & P4 & P5 & P6 & P7).
    destruct (IH st' r P2 Er) as (G1 & G2 & G3 & G4 & (m & G5a & G5b) & G6).
    rewrite (kept_nonzero (count st')) in G5a, G5b, G6 by lia. specialize (G2 ltac:(lia)).
    assert (A : Forall (fun x => e < fst x)%Qc r).
    { eapply Forall_impl; [|exact G2]. cbn. intros x Hx. rewrite P4 in Hx. qclra. }
    assert (Ele : (e <= next st)%Qc) by (destruct use; [apply P7|destruct P7 as (_ & -> & _); apply Qcle_refl]).
    unfold good. split; [|split; [|split; [|split; [|split]]]].
    + constructor; auto.
    + intros Hk. constructor; [apply P5, Hk|]. eapply Forall_impl; [|exact A]. cbn. intros x Hx. specialize (P5 Hk). qclra.
    + intros Hk. apply P6, Hk.
    + constructor; auto.
    + destruct use as [s|].
      * destruct P7 as (P7 & _). exists (1 + m). rewrite P7. cbn [stored flat_map snd app firstn skipn Nat.add]. fold (stored r). rewrite G5a. auto.
      * destruct P7 as (P7 & _). exists m. rewrite P7. cbn [stored flat_map snd app]. fold (stored r). rewrite G5a. auto.
    + destruct use as [s|].
      * destruct P7 as (P7 & W & _). constructor; [exact W|].
        rewrite Forall_forall in G6 |- *. intros x Hx. specialize (G6 x Hx). destruct (snd x) as [s'|]; auto.
        destruct G6 as [G6a G6b]. rewrite P4 in G6a. split.
        -- destruct (Nat.eq_dec (count st) 0) as [Ek|Ek].
           ++ rewrite <- (P6 Ek). qclra.
           ++ specialize (P5 ltac:(lia)). qclra.
        -- rewrite P7. constructor; auto. intros [W1 W2]. destruct W as [W3 W4]. qclra.
      * destruct P7 as (P7 & -> & P8). constructor; [cbn [snd fst]; split; [apply Qcle_refl|]|].
        -- rewrite P7. eapply Forall_impl; [|exact P8]. cbn. intros s Hs [W1 W2]. qclra.
        -- rewrite Forall_forall in G6 |- *. intros x Hx. specialize (G6 x Hx). destruct (snd x) as [s'|]; auto.
           destruct G6 as [G6a G6b]. rewrite P4 in G6a. split; [qclra|]. now rewrite P7.
  - injection H as <-. destruct P as (e & E1 & E2). unfold good.
    split; [constructor|]. split; [constructor|]. split; [auto|]. split; [constructor|]. split; [|constructor].
    exists 0. cbn [firstn skipn]. split; auto. pose proof (inv_next st Hi) as Hn.
    assert (So : ordered time tol (kept_list (count st) (pending st))) by (apply ordered_kept, Hi).
    destruct E2 as [[-> E2]|(s & rest & E2 & E3)].
    + apply ended_last in E1; auto. eapply Forall_impl; [|exact E2]. cbn. intros s Hs. qclra.
    + rewrite E2 in *. assert (Z : (last c - tol < time s)%Qc).
      { destruct E3 as [[-> E3]|(E3 & -> & E4)].
        - apply ended_last in E1; auto. destruct E3. qclra.
        - assert (0 < time s)%Qc.
          { destruct Hi as (_ & _ & _ & _ & I5 & I6). specialize (I5 E3). specialize (I6 E3).
            rewrite (kept_nonzero _ _ E3) in E2. rewrite E2 in I5. inversion I5; subst. qclra. }
          apply ended_last in E1; auto. qclra. }
      inversion So as [|? ? So1 So2]; subst. constructor; auto. eapply Forall_impl; [|exact So2]. cbn. intros x Hx. qclra.
Qed.

(** It ends *)
Lemma archimedes (x y : Qc) : (0 < y)%Qc -> exists m, (x < qnat m * y)%Qc.
Proof.
  intros Hy. exists (Z.to_nat (Z.max 0 (Qfloor (this (x / y)%Qc) + 1))).
  unfold qnat. rewrite Z2Nat.id by lia.
  assert (E : (x = x / y * y)%Qc). { field. intros ->. now apply Qclt_not_eq in Hy. }
  rewrite E at 1. apply Qcmult_lt_compat_r; auto.
  unfold Qclt. rewrite this_Q2Qc. eapply Qlt_le_trans; [apply Qlt_floor|].
  rewrite <- Zle_Qle. lia.
Qed.

Lemma read_ends (Hnear : forall x, (last c + interval c <= x)%Qc -> near x (last c) = false) :
  forall n m st, inv st -> length (pending st) <= n -> (last c + interval c < next st + qnat m * interval c)%Qc ->
  exists fuel outs, read_all time near c fuel st = Some outs.
Proof.
  induction n as [n IHn] using lt_wf_ind. intros m. induction m as [|m IHm]; intros st Hi Hl Hm.
  - pose proof (process_ok st Hi) as P. destruct (process time near c st) as [[st' [e use]]|] eqn:Ep.
    + destruct P as (P1 & P2 & P3 & P4 & P5 & P6 & P7). destruct use as [s|].
      * destruct (archimedes (last c + interval c - next st') (interval c) Hint) as (m' & Hm').
        assert (length (pending st') < length (pending st)).
        { destruct P7 as (P7 & _). assert (L : length (kept_list (count st) (pending st)) <= length (pending st)).
          { unfold kept_list. destruct (count st =? 0); auto. apply filter_len. }
          rewrite P7 in L. cbn in L. lia. }
        destruct (IHn (length (pending st')) ltac:(lia) m' st' P2 ltac:(lia)) as (fuel & outs & E); [qclra|].
        exists (Datatypes.S fuel), ((e, Some s) :: outs). cbn [read_all]. now rewrite Ep, E.
      * exfalso. destruct P7 as (_ & -> & _). unfold ended in P1. rewrite qnat_0 in Hm.
        replace (next st + 0 * interval c)%Qc with (next st) in Hm by ring.
        rewrite Hnear in P1 by (now apply Qclt_le_weak).
        replace (qltb (last c) (next st)) with true in P1 by (symmetry; apply qltb_true; qclra). discriminate.
    + exists 1, []. cbn [read_all]. now rewrite Ep.
  - pose proof (process_ok st Hi) as P. destruct (process time near c st) as [[st' [e use]]|] eqn:Ep.
    + destruct P as (P1 & P2 & P3 & P4 & P5 & P6 & P7). destruct use as [s|].
      * destruct (archimedes (last c + interval c - next st') (interval c) Hint) as (m' & Hm').
        assert (length (pending st') < length (pending st)).
        { destruct P7 as (P7 & _). assert (L : length (kept_list (count st) (pending st)) <= length (pending st)).
          { unfold kept_list. destruct (count st =? 0); auto. apply filter_len. }
          rewrite P7 in L. cbn in L. lia. }
        destruct (IHn (length (pending st')) ltac:(lia) m' st' P2 ltac:(lia)) as (fuel & outs & E); [qclra|].
        exists (Datatypes.S fuel), ((e, Some s) :: outs). cbn [read_all]. now rewrite Ep, E.
      * destruct P7 as (P7 & -> & _).
        assert (L : length (pending st') <= n).
        { rewrite <- P7. unfold kept_list. destruct (count st =? 0); auto. etransitivity; [apply filter_len|auto]. }
        destruct (IHm st' P2 L) as (fuel & outs & E).
        { rewrite P4. rewrite qnat_S in Hm. replace ((qnat m + 1) * interval c)%Qc with (qnat m * interval c + interval c)%Qc in Hm by ring. qclra. }
        exists (Datatypes.S fuel), ((next st, None) :: outs). cbn [read_all]. now rewrite Ep, E.
    + exists 1, []. cbn [read_all]. now rewrite Ep.
Qed.

(** * Regular measurement sets *)
Variable index : S -> nat.
Hypothesis Hwide : (tol + tol < interval c)%Qc.
Definition grid_time (k : nat) : Qc := (first c + qnat k * interval c)%Qc.

Lemma grid_time_S k : grid_time (1 + k) = (grid_time k + interval c)%Qc.
Proof. unfold grid_time. cbn [Nat.add]. rewrite qnat_S. ring. Qed.
Lemma grid_time_le i j : i <= j -> (grid_time i <= grid_time j)%Qc.
Proof.
  intros H. unfold grid_time. apply Qcplus_le_compat; [apply Qcle_refl|].
  apply Qcmult_le_compat_r; [now apply qnat_le|now apply Qclt_le_weak].
Qed.

Definition at_grid (k : nat) (st : state S) : Prop :=
  correction st = 0%Qc /\ next st = grid_time k /\ count st = k /\
  on_grid time index (first c) (interval c) tol (pending st) /\ Forall (fun s => k <= index s) (pending st) /\
  Forall (fun s => previous st <= time s)%Qc (pending st).

Lemma process_grid k st : at_grid k st -> process time near c st =
  if ended near c (grid_time k) then None
  else Some (match grid_slot index (pending st) k with
             | Some _ => MkState 0 (grid_time (1 + k)) (grid_time k) (k + 1) (tl (pending st))
             | None => MkState 0 (grid_time (1 + k)) (previous st) (k + 1) (pending st)
             end, (grid_time k, grid_slot index (pending st) k)).
Proof.
  intros (A1 & A2 & A3 & (A4 & A5) & A6 & A7). unfold process. rewrite A1, A2, A3.
  assert (N : (first c + 0 + Q2Qc (inject_Z (Z.of_nat (k + 1))) * interval c)%Qc = grid_time (1 + k)).
  { fold (qnat (k + 1)). unfold grid_time. rewrite Nat.add_comm. ring. }
  destruct (pending st) as [|s l].
  - cbn [search next correction count pending previous grid_slot find]. rewrite N. reflexivity.
  - inversion A5 as [|? ? W A5']; subst. inversion A6 as [|? ? I A6']; subst. inversion A7 as [|? ? V A7']; subst.
    inversion A4 as [|? ? A4' A4s]; subst.
    cbn [search]. destruct (qltb_spec (time s) (previous st)) as [X|_]; [exfalso; now apply Qcle_not_lt in V|].
    set (k := count st) in *. destruct (Nat.eq_dec (index s) k) as [E|E].
    + fold (grid_time (index s)) in W. rewrite E in W. rewrite (proj2 (near_abs_true _ _ _) W).
      cbn [next correction count pending previous grid_slot find tl]. rewrite E, Nat.eqb_refl, N. reflexivity.
    + assert (Y : (grid_time k + tol < time s)%Qc).
      { pose proof (grid_time_le (1 + k) (index s) ltac:(lia)) as L. rewrite grid_time_S in L.
        fold (grid_time (index s)) in W. destruct W as [W1 W2]. qclra. }
      destruct (near_abs (time s) (grid_time k) tol) eqn:En; [exfalso; apply near_abs_true in En; destruct En; qclra|].
      replace (qltb (time s) (grid_time k)) with false by (symmetry; apply qltb_false; qclra). rewrite andb_false_r.
      replace (qltb (grid_time k) (time s)) with true by (symmetry; apply qltb_true; qclra).
      assert (F : grid_slot index (s :: l) k = None).
      { unfold grid_slot. destruct (find _ _) as [x|] eqn:Ex; auto. exfalso. apply find_some in Ex as [Hx Ex]. apply Nat.eqb_eq in Ex.
        destruct Hx as [<-|Hx]; [contradiction|]. rewrite Forall_forall in A4s. specialize (A4s x Hx). lia. }
      rewrite F. cbn [next correction count pending previous]. rewrite N. reflexivity.
Qed.

Lemma read_grid N : (forall k, k < N -> ended near c (grid_time k) = false) -> ended near c (grid_time N) = true ->
  forall m k st fuel, m + k = N -> m < fuel -> at_grid k st ->
  read_all time near c fuel st = Some (map (fun j => (grid_time j, grid_slot index (pending st) j)) (seq k m)).
Proof.
  intros H1 H2. induction m as [|m IH]; intros k st fuel Hk Hf Ha; (destruct fuel as [|fuel]; [lia|]); cbn [read_all];
    rewrite (process_grid k st Ha).
  - replace k with N by lia. now rewrite H2.
  - rewrite H1 by lia. destruct Ha as (A1 & A2 & A3 & (A4 & A5) & A6 & A7).
    cbn [seq map]. destruct (pending st) as [|s l] eqn:Ep.
    + cbn [grid_slot find tl]. rewrite IH with (k := Datatypes.S k); [reflexivity|lia|lia|].
      unfold at_grid. cbn [correction next count pending previous]. repeat split; auto; try lia; constructor.
    + inversion A5 as [|? ? W A5']; subst. inversion A6 as [|? ? I A6']; subst. inversion A7 as [|? ? V A7']; subst.
      inversion A4 as [|? ? A4' A4s]; subst. set (k := count st) in *.
      destruct (Nat.eq_dec (index s) k) as [E|E].
      * assert (F : grid_slot index (s :: l) k = Some s) by (unfold grid_slot; cbn [find]; now rewrite E, Nat.eqb_refl).
        rewrite F. cbn [tl].
        rewrite IH with (k := Datatypes.S k); [|lia|lia|].
        { cbn [pending]. do 2 f_equal. apply map_ext_in. intros j Hj. apply in_seq in Hj. f_equal.
          unfold grid_slot. cbn [find]. destruct (Nat.eqb_spec (index s) j); [lia|reflexivity]. }
        unfold at_grid. cbn [correction next count pending previous]. repeat split; auto; try lia.
        -- rewrite E in A4s. eapply Forall_impl; [|exact A4s]. cbn. intros; lia.
        -- rewrite Forall_forall in *. intros x Hx. specialize (A5' x Hx). specialize (A4s x Hx).
           pose proof (grid_time_le (1 + k) (index x) ltac:(lia)) as L. rewrite grid_time_S in L.
           fold (grid_time (index x)) in A5'. destruct A5' as [W1 W2]. qclra.
      * assert (F : grid_slot index (s :: l) k = None).
        { unfold grid_slot. destruct (find _ _) as [x|] eqn:Ex; auto. exfalso. apply find_some in Ex as [Hx Ex]. apply Nat.eqb_eq in Ex.
          destruct Hx as [<-|Hx]; [contradiction|]. rewrite Forall_forall in A4s. specialize (A4s x Hx). lia. }
        rewrite F. rewrite IH with (k := Datatypes.S k); [reflexivity|lia|lia|].
        unfold at_grid. cbn [correction next count pending previous]. repeat split; auto; try lia.
        constructor; [lia|]. rewrite Forall_forall in *. intros x Hx. specialize (A4s x Hx). lia.
Qed.
End Run.
