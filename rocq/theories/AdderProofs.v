From Coq Require Import Ascii String List Bool Arith ZArith QArith Qcanon Permutation Lia ZifyBool ZifyNat.
From Verif Require FlagCountProofs.
From Verif Require Import QcUtil AverageModel AdderModel AdderSpec.
Import ListNotations.
Open Scope nat_scope.

(** * Scanning the baselines *)
Lemma have_spec parts a : have parts a = true <-> In a parts.
Proof.
  unfold have. rewrite existsb_exists. split; [intros (x & I & E); apply Nat.eqb_eq in E; now subst|intros I; exists a; now rewrite Nat.eqb_refl].
Qed.

Section Scan.
Variables (c : settings) (parts : list nat) (super : nat).

(** the entries for a new baseline with antenna [a] *)
Definition entry (a : nat) (ib : nat * (nat * nat)) : list Z :=
  let (t, x) := take c parts super (snd ib) in
  if (t =? 0)%Z then [] else if x =? a then [(t * Z.of_nat (fst ib + 1))%Z] else [].
Definition rows_for (ibs : list (nat * (nat * nat))) (a : nat) : list Z := flat_map (entry a) ibs.

Definition scan_inv (B0 : list (list Z)) (done : list (nat * (nat * nat))) (s : scan) : Prop :=
  exists new, new_bl s = map (fun a => (a, super)) new /\ NoDup new /\ (forall a, In a new <-> rows_for done a <> []) /\
    buf_rows s = B0 ++ map (rows_for done) new /\
    (forall a, newbl s a = (-1)%Z /\ ~ In a new \/ exists k, newbl s a = Z.of_nat (length B0 + k) /\ nth_error new k = Some a).

Lemma push_at_app B l i z : length B <= i -> push_at (B ++ l) i z = B ++ push_at l (i - length B) z.
Proof.
  intros H. unfold push_at. rewrite app_length, seq_app.
  assert (C : forall (X Y : Type) (a b : list X) (a' b' : list Y), length a = length a' -> combine (a ++ b) (a' ++ b') = combine a a' ++ combine b b').
  { clear. induction a as [|x a IH]; intros b [|y a'] b' H; cbn in *; try discriminate; [reflexivity|]. f_equal. apply IH. lia. }
  rewrite C by now rewrite seq_length. rewrite map_app. f_equal.
  - assert (K : forall s, s + length B <= i -> map (fun kl : nat * list Z => if fst kl =? i then snd kl ++ [z] else snd kl) (combine (seq s (length B)) B) = B).
    { clear. induction B as [|x B IH]; intros s H; [reflexivity|]. cbn in *. destruct (Nat.eqb_spec s i); [lia|]. f_equal. apply IH. lia. }
    apply K. lia.
  - cbn [Nat.add]. assert (K : forall s m, m + length B = s -> map (fun kl : nat * list Z => if fst kl =? i then snd kl ++ [z] else snd kl) (combine (seq s (length l)) l)
       = map (fun kl : nat * list Z => if fst kl =? i - length B then snd kl ++ [z] else snd kl) (combine (seq m (length l)) l)).
    { clear -H. induction l as [|x l IH]; intros s m E; [reflexivity|]. cbn. f_equal; [|apply (IH (S s) (S m)); lia].
      destruct (Nat.eqb_spec s i), (Nat.eqb_spec m (i - length B)); try reflexivity; lia. }
    now apply K.
Qed.
Lemma push_at_map new (f g : nat -> list Z) k a z : NoDup new -> nth_error new k = Some a -> g a = f a ++ [z] -> (forall x, x <> a -> g x = f x) ->
  push_at (map f new) k z = map g new.
Proof.
  intros ND E Ga Go. unfold push_at. rewrite map_length.
  assert (K : forall s, (forall j x, nth_error new j = Some x -> (x = a <-> s + j = s + k)) ->
     map (fun kl : nat * list Z => if fst kl =? s + k then snd kl ++ [z] else snd kl) (combine (seq s (length new)) (map f new)) = map g new).
  { clear ND E. revert k. induction new as [|x new IH]; intros k s H; [reflexivity|]. cbn. f_equal.
    - specialize (H 0 x eq_refl). destruct (Nat.eqb_spec s (s + k)).
      + assert (x = a) by (apply H; lia). subst. now rewrite Ga.
      + symmetry. apply Go. intros ->. assert (s + 0 = s + k) by now apply H. lia.
    - destruct k as [|k].
      + erewrite map_ext_in; [apply (IH (length new + 1) (S s))|].
        * intros j y Hj. specialize (H (S j) y Hj). assert (j < length new) by (apply nth_error_Some; congruence). lia.
        * intros [i l] Hi. cbn. apply in_combine_l, in_seq in Hi. destruct (Nat.eqb_spec i (s + 0)), (Nat.eqb_spec i (S (s + (length new + 1)))); lia || reflexivity.
      + rewrite <- (IH k (S s)); [apply map_ext; intros [i l]; cbn; replace (S (s + k)) with (s + S k) by lia; reflexivity|].
        intros j y Hj. specialize (H (S j) y Hj). lia. }
  rewrite <- (K 0); [reflexivity|]. intros j x Hj. split.
  - intros ->. cbn. symmetry. rewrite NoDup_nth_error in ND. apply ND; [apply nth_error_Some; congruence|congruence].
  - cbn. intros ->. congruence.
Qed.

Lemma scan_step_inv B0 done s ib : scan_inv B0 done s -> scan_inv B0 (done ++ [ib]) (scan_step c parts super s ib).
Proof.
  intros (new & N1 & N2 & N3 & N4 & N5). destruct ib as [i bl]. unfold scan_step.
  assert (RF : forall a, rows_for (done ++ [(i, bl)]) a = rows_for done a ++ entry a (i, bl)).
  { intros a. unfold rows_for. rewrite flat_map_app. cbn. now rewrite app_nil_r. }
  unfold entry in RF. cbn [fst snd] in RF. destruct (take c parts super bl) as [t ant].
  destruct (Z.eqb_spec t 0) as [->|Ht].
  { exists new. split; [exact N1|]. split; [exact N2|].
    assert (RF' : forall a, rows_for (done ++ [(i, bl)]) a = rows_for done a) by (intros; rewrite RF; apply app_nil_r).
    split; [intros a; rewrite RF'; apply N3|]. split; [|exact N5]. rewrite N4. f_equal. apply map_ext. intros; now rewrite RF'. }
  assert (RO : forall a, a <> ant -> rows_for (done ++ [(i, bl)]) a = rows_for done a).
  { intros a Ha. rewrite RF. destruct (Nat.eqb_spec ant a); [congruence|]. apply app_nil_r. }
  assert (RA : rows_for (done ++ [(i, bl)]) ant = rows_for done ant ++ [(t * Z.of_nat (i + 1))%Z]).
  { rewrite RF, Nat.eqb_refl. reflexivity. }
  assert (RN : forall a, rows_for (done ++ [(i, bl)]) a <> [] <-> rows_for done a <> [] \/ a = ant).
  { intros a. destruct (Nat.eq_dec a ant) as [->|Ha].
    - rewrite RA. split; [now right|]. intros _. now destruct (rows_for done ant).
    - rewrite RO by exact Ha. tauto. }
  destruct (N5 ant) as [[E NI]|(k & E & Ek)].
  - rewrite E. cbn [Z.ltb Z.compare]. cbn [newbl buf_rows new_bl]. rewrite Nat.eqb_refl.
    exists (new ++ [ant]). split; [rewrite N1, map_app; reflexivity|]. split.
    { apply (Permutation_NoDup (l := ant :: new)); [apply Permutation_cons_append|]. now constructor. }
    split. { intros a. rewrite RN, in_app_iff, N3. cbn. intuition. }
    assert (Lb : length (buf_rows s) = length B0 + length new) by now rewrite N4, app_length, map_length.
    split.
    + cbn [buf_rows]. rewrite Nat2Z.id, Lb, N4, <- app_assoc, push_at_app by lia. f_equal.
      replace (map (rows_for done) new ++ [[]]) with (map (fun a => if a =? ant then [] else rows_for done a) (new ++ [ant])).
      2:{ rewrite map_app. cbn. rewrite Nat.eqb_refl. f_equal. apply map_ext_in. intros a Ha. destruct (Nat.eqb_spec a ant); [subst; contradiction|reflexivity]. }
      apply (push_at_map _ _ _ _ ant).
      * apply (Permutation_NoDup (l := ant :: new)); [apply Permutation_cons_append|]. now constructor.
      * replace (length B0 + length new - length B0) with (length new) by lia. rewrite nth_error_app2, Nat.sub_diag by lia. reflexivity.
      * rewrite RA, Nat.eqb_refl. replace (rows_for done ant) with (@nil Z); [reflexivity|]. destruct (rows_for done ant) eqn:R; [reflexivity|].
        exfalso. apply NI, N3. rewrite R. discriminate.
      * intros x Hx. rewrite RO by exact Hx. destruct (Nat.eqb_spec x ant); [contradiction|reflexivity].
    + cbn [newbl]. intros a. destruct (Nat.eqb_spec a ant) as [->|Ha].
      * right. exists (length new). split; [now rewrite Lb|]. rewrite nth_error_app2, Nat.sub_diag by lia. reflexivity.
      * destruct (N5 a) as [[Ea NIa]|(k & Ea & Ek)].
        -- left. split; [exact Ea|]. rewrite in_app_iff. cbn. intuition.
        -- right. exists k. split; [exact Ea|]. rewrite nth_error_app1; [exact Ek|]. apply nth_error_Some. congruence.
  - rewrite E. destruct (Z.ltb_spec (Z.of_nat (length B0 + k)) 0); [lia|]. cbn [newbl buf_rows new_bl]. rewrite E.
    exists new. split; [exact N1|]. split; [exact N2|]. split.
    { intros a. rewrite RN, N3. split; [now left|]. intros [H'| ->]; [exact H'|]. apply N3. apply nth_error_In in Ek. exact Ek. }
    split; [|exact N5]. cbn [buf_rows]. rewrite N4, Nat2Z.id, push_at_app by lia. f_equal.
    replace (length B0 + k - length B0) with k by lia. apply (push_at_map _ _ _ _ ant); auto.
Qed.

Lemma form_one_spec bls B0 bls' B' : form_one c bls B0 super parts = (bls', B') ->
  exists new, bls' = bls ++ map (fun a => (a, super)) new /\ B' = B0 ++ map (rows_for (combine (seq 0 (length bls)) bls)) new /\ NoDup new /\
    forall a, In a new <-> rows_for (combine (seq 0 (length bls)) bls) a <> [].
Proof.
  unfold form_one. set (ibs := combine (seq 0 (length bls)) bls). intros E.
  assert (I : forall l done s, scan_inv B0 done s -> scan_inv B0 (done ++ l) (fold_left (scan_step c parts super) l s)).
  { induction l as [|ib l IH]; intros done s H; [now rewrite app_nil_r|]. cbn. replace (done ++ ib :: l) with ((done ++ [ib]) ++ l) by now rewrite <- app_assoc.
    apply IH. now apply scan_step_inv. }
  specialize (I ibs [] {| newbl := fun _ => (-1)%Z; buf_rows := B0; new_bl := [] |}).
  destruct I as (new & N1 & N2 & N3 & N4 & N5).
  { exists []. split; [reflexivity|]. split; [constructor|]. split; [cbn; tauto|]. split; [cbn; now rewrite app_nil_r|]. intros a. left. split; [reflexivity|]. intros []. }
  cbn [app] in *. injection E as <- <-. exists new. rewrite N1. auto.
Qed.
End Scan.

(** * Expansion to the original baselines *)
Lemma expand_length n B : length (expand conjugated from n B) = n + length B.
Proof.
  unfold expand. assert (K : forall es, length (fold_left (expand_one conjugated from) B es) = length es + length B).
  { induction B as [|zs B IH]; intros es; cbn; [lia|]. rewrite IH. unfold expand_one. rewrite app_length. cbn. lia. }
  rewrite K, map_length, seq_length. reflexivity.
Qed.
Definition combined (es : list (list use)) (zs : list Z) : list use := flat_map (fun z => map (flip (conjugated z)) (nth (from z) es [])) zs.
Lemma expand_app n B L : (forall zs z, In zs L -> In z zs -> from z < n + length B) ->
  expand conjugated from n (B ++ L) = expand conjugated from n B ++ map (combined (expand conjugated from n B)) L.
Proof.
  intros H. unfold expand at 1. rewrite fold_left_app. fold (expand conjugated from n B).
  assert (K : forall L ex, (forall zs z, In zs L -> In z zs -> from z < length (expand conjugated from n B)) ->
    fold_left (expand_one conjugated from) L (expand conjugated from n B ++ ex) = expand conjugated from n B ++ ex ++ map (combined (expand conjugated from n B)) L).
  { clear. induction L as [|zs L IH]; intros ex H; cbn; [now rewrite app_nil_r|]. unfold expand_one at 2. rewrite <- app_assoc. rewrite IH.
    - f_equal. rewrite <- app_assoc. f_equal. cbn. f_equal. unfold combined. rewrite !flat_map_concat_map. f_equal.
      apply map_ext_in. intros z Hz. f_equal. apply app_nth1. apply (H zs); [now left|exact Hz].
    - intros zs' z H1 H2. apply (H zs'); [now right|exact H2]. }
  specialize (K L []). rewrite app_nil_r in K. apply K. rewrite expand_length. exact H.
Qed.
Lemma expand_orig n B i : i < n -> nth i (expand conjugated from n B) [] = [(i, false)].
Proof.
  intros H. induction B as [|zs B IH] using rev_ind.
  - unfold expand. cbn. rewrite (nth_indep _ [] [(0, false)]) by now rewrite map_length, seq_length.
    rewrite (map_nth (fun i => [(i, false)])), seq_nth by exact H. reflexivity.
  - unfold expand. rewrite fold_left_app. cbn. fold (expand conjugated from n B). unfold expand_one.
    rewrite app_nth1 by (rewrite expand_length; lia). exact IH.
Qed.

Lemma in_combine_seq {X} (l : list X) s i x : In (i, x) (combine (seq s (length l)) l) <-> s <= i /\ nth_error l (i - s) = Some x.
Proof.
  revert s. induction l as [|y l IH]; intros s; cbn [length seq combine].
  - split; [intros []|]. intros [_ H]. destruct (i - s); discriminate.
  - cbn [In]. rewrite IH. split.
    + intros [H|[H1 H2]]; [injection H as <- <-; rewrite Nat.sub_diag; auto|].
      split; [lia|]. replace (i - s) with (S (i - S s)) by lia. exact H2.
    + intros [H1 H2]. destruct (Nat.eq_dec i s) as [->|N]; [left; rewrite Nat.sub_diag in H2; injection H2 as ->; reflexivity|].
      right. split; [lia|]. replace (i - s) with (S (i - S s)) in H2 by lia. exact H2.
Qed.
Lemma in_rows_for c parts super bls a z : In z (rows_for c parts super (combine (seq 0 (length bls)) bls) a) <->
  exists i bl t, nth_error bls i = Some bl /\ take c parts super bl = (t, a) /\ t <> 0%Z /\ z = (t * Z.of_nat (i + 1))%Z.
Proof.
  unfold rows_for. rewrite in_flat_map. split.
  - intros ([i bl] & I & H). apply in_combine_seq in I as [_ I]. rewrite Nat.sub_0_r in I. unfold entry in H. cbn [fst snd] in H.
    destruct (take c parts super bl) as [t x] eqn:T. destruct (Z.eqb_spec t 0); [destruct H|]. destruct (Nat.eqb_spec x a) as [->|]; [|destruct H].
    destruct H as [<-|[]]. now exists i, bl, t.
  - intros (i & bl & t & I & T & N & ->). exists (i, bl). split; [apply in_combine_seq; rewrite Nat.sub_0_r; split; [lia|exact I]|].
    unfold entry. cbn [fst snd]. rewrite T. destruct (Z.eqb_spec t 0); [contradiction|]. rewrite Nat.eqb_refl. now left.
Qed.
Lemma take_unit c parts super bl t a : take c parts super bl = (t, a) -> t <> 0%Z -> (t = 1 \/ t = -1)%Z.
Proof.
  destruct bl as [a1 a2]. unfold take. destruct (have parts a1), (have parts a2); try destruct (make_auto c && Bool.eqb (sum_auto c) (a1 =? a2)); intros [= <- <-]; tauto.
Qed.
Lemma from_entry t i : (t = 1 \/ t = -1)%Z -> from (t * Z.of_nat (i + 1)) = i.
Proof. unfold from. intros [->| ->]; lia. Qed.
Lemma conj_entry t i : (t = 1 \/ t = -1)%Z -> conjugated (t * Z.of_nat (i + 1)) = (t <? 0)%Z.
Proof. unfold conjugated. intros [->| ->]; lia. Qed.

Lemma in_combined c parts super bls a es u : In u (combined es (rows_for c parts super (combine (seq 0 (length bls)) bls) a)) <->
  exists i bl t v, nth_error bls i = Some bl /\ take c parts super bl = (t, a) /\ t <> 0%Z /\ In v (nth i es []) /\ u = flip (t <? 0)%Z v.
Proof.
  unfold combined. rewrite in_flat_map. split.
  - intros (z & I & H). apply in_rows_for in I as (i & bl & t & I & T & N & ->). assert (U := take_unit _ _ _ _ _ _ T N).
    rewrite from_entry, conj_entry in H by exact U. apply in_map_iff in H as (v & <- & V). now exists i, bl, t, v.
  - intros (i & bl & t & v & I & T & N & V & ->). assert (U := take_unit _ _ _ _ _ _ T N).
    exists (t * Z.of_nat (i + 1))%Z. split; [apply in_rows_for; now exists i, bl, t|]. rewrite from_entry, conj_entry by exact U. now apply in_map.
Qed.
Lemma flip_inj b u v : flip b u = flip b v -> u = v.
Proof. destruct u as [i x], v as [j y]. unfold flip. cbn. intros [= -> H]. f_equal. destruct b, x, y; cbn in H; congruence. Qed.
Lemma flip_flip b u : flip b (flip b u) = u.
Proof. destruct u as [i x], b, x; reflexivity. Qed.

Lemma NoDup_combined c parts super bls a es : 
  (forall i bl t, nth_error bls i = Some bl -> take c parts super bl = (t, a) -> t <> 0%Z -> NoDup (nth i es [])) ->
  (forall i j bl bl' t t' v, nth_error bls i = Some bl -> take c parts super bl = (t, a) -> t <> 0%Z ->
     nth_error bls j = Some bl' -> take c parts super bl' = (t', a) -> t' <> 0%Z ->
     In v (map (flip (t <? 0)%Z) (nth i es [])) -> In v (map (flip (t' <? 0)%Z) (nth j es [])) -> i = j) ->
  NoDup (combined es (rows_for c parts super (combine (seq 0 (length bls)) bls) a)).
Proof.
  intros H1 H2. unfold combined. apply FlagCountProofs.NoDup_flat_map.
  - unfold rows_for. apply FlagCountProofs.NoDup_flat_map.
    + apply (NoDup_map_inv fst). assert (K : forall (l : list (nat * nat)) s, map fst (combine (seq s (length l)) l) = seq s (length l)).
      { clear. induction l as [|b l IH]; intros s; [reflexivity|]. cbn. f_equal. apply IH. }
      rewrite K. apply seq_NoDup.
    + intros [i bl] _. unfold entry. cbn [fst snd]. destruct (take c parts super bl) as [t x]. destruct (t =? 0)%Z; [constructor|].
      destruct (x =? a); constructor; [intros []|constructor].
    + intros [i bl] [j bl'] z I J. apply in_combine_seq in I as [_ I]. apply in_combine_seq in J as [_ J]. unfold entry. cbn [fst snd].
      destruct (take c parts super bl) as [t x] eqn:T, (take c parts super bl') as [t' x'] eqn:T'.
      destruct (Z.eqb_spec t 0) as [|N]; [intros []|]. destruct (x =? a); [|intros []]. intros [<-|[]].
      destruct (Z.eqb_spec t' 0) as [|N']; [intros []|]. destruct (x' =? a); [|intros []]. intros [E|[]].
      assert (U := take_unit _ _ _ _ _ _ T N). assert (U' := take_unit _ _ _ _ _ _ T' N').
      assert (i = j) by nia. subst j. congruence.
  - intros z I. apply in_rows_for in I as (i & bl & t & I & T & N & ->). assert (U := take_unit _ _ _ _ _ _ T N). rewrite from_entry by exact U.
    apply FinFun.Injective_map_NoDup; [|eapply H1; eauto]. intros x y. apply flip_inj.
  - intros z z' v I J. apply in_rows_for in I as (i & bl & t & I & T & N & ->). apply in_rows_for in J as (j & bl' & t' & J & T' & N' & ->).
    assert (U := take_unit _ _ _ _ _ _ T N). assert (U' := take_unit _ _ _ _ _ _ T' N'). rewrite !from_entry, !conj_entry by assumption.
    intros V V'. assert (i = j) by (eapply (H2 i j); eauto). subst j. congruence.
Qed.

(** * All superstations *)
Lemma NoDup_app_intro {X} (a b : list X) : NoDup a -> NoDup b -> (forall x, In x a -> In x b -> False) -> NoDup (a ++ b).
Proof.
  induction 1 as [|x a Hx Ha IH]; intros Hb HD; cbn; [exact Hb|]. constructor.
  - rewrite in_app_iff. intros [H|H]; [contradiction|]. apply (HD x); [now left|exact H].
  - apply IH; [exact Hb|]. intros y H1 H2. apply (HD y); [now right|exact H2].
Qed.

Section Form.
Variables (c : settings) (orig : list (nat * nat)) (nold : nat) (all : list (list nat)).
Hypothesis Horig : forall i a b, nth_error orig i = Some (a, b) -> a < nold /\ b < nold.
Hypothesis Hparts : forall k p, In p (nth k all []) -> p < nold.
Hypothesis Hdisj : forall j k p, In p (nth j all []) -> In p (nth k all []) -> j = k.

Definition partner (k x : nat) : Prop := x < nold /\ ~ In x (nth k all []) \/ nold <= x <= nold + k.
Definition spec_of (k x : nat) (u : use) : Prop :=
  if x =? nold + k then inside (make_auto c) (sum_auto c) orig (nth k all []) u else link orig (stands nold all x) (nth k all []) u.
Definition inv (j : nat) (bls : list (nat * nat)) (B : list (list Z)) : Prop :=
  exists newl, bls = orig ++ newl /\ length newl = length B /\ NoDup newl /\
  (forall r x s, nth_error newl r = Some (x, s) -> exists k, k < j /\ s = nold + k /\ partner k x /\ (exists u, spec_of k x u) /\
     NoDup (nth (length orig + r) (expand conjugated from (length orig) B) []) /\
     forall u, In u (nth (length orig + r) (expand conjugated from (length orig) B) []) <-> spec_of k x u) /\
  (forall k x u, k < j -> partner k x -> spec_of k x u -> In (x, nold + k) newl).

(** which baselines are used for superstation [j], given the invariant *)
Lemma used_baselines j bls B i bl t a : inv j bls B -> nth_error bls i = Some bl -> take c (nth j all []) (nold + j) bl = (t, a) -> t <> 0%Z ->
  let E := nth i (expand conjugated from (length orig) B) [] in
  (i < length orig /\ nth_error orig i = Some bl /\ E = [(i, false)]) \/
  (exists r y k, i = length orig + r /\ k < j /\ bl = (y, nold + k) /\ In y (nth j all []) /\ ~ In y (nth k all []) /\ t = (-1)%Z /\ a = nold + k /\
     NoDup E /\ forall u, In u E <-> link orig [y] (nth k all []) u).
Proof.
  intros (newl & -> & HL & HN & HR & HX) I T N E. destruct (Nat.lt_ge_cases i (length orig)) as [L|L].
  - left. rewrite nth_error_app1 in I by exact L. split; [exact L|]. split; [exact I|]. now apply expand_orig.
  - right. rewrite nth_error_app2 in I by exact L. destruct bl as [y s]. destruct (HR _ _ _ I) as (k & Hk & -> & HP & _ & HD & HU).
    exists (i - length orig), y, k. replace (length orig + (i - length orig)) with i in * by lia.
    unfold take in T. assert (NS : have (nth j all []) (nold + k) = false).
    { apply not_true_iff_false. rewrite have_spec. intros X. apply Hparts in X. lia. }
    rewrite NS in T. destruct (have (nth j all []) y) eqn:Hy.
    2:{ injection T as <- <-. contradiction. }
    apply have_spec in Hy. injection T as <- <-. assert (y < nold) by (eapply Hparts; eauto).
    split; [lia|]. split; [exact Hk|]. split; [reflexivity|]. split; [exact Hy|].
    assert (NY : ~ In y (nth k all [])) by (intros X; assert (j = k) by (eapply Hdisj; eauto); lia).
    split; [exact NY|]. split; [reflexivity|]. split; [reflexivity|]. split; [exact HD|].
    intros u. unfold E. rewrite (HU u). unfold spec_of, stands. destruct (Nat.eqb_spec y (nold + k)); [lia|]. destruct (Nat.ltb_spec y nold); [reflexivity|lia].
Qed.

Lemma take_orig j a1 a2 t a : a1 < nold -> a2 < nold -> (take c (nth j all []) (nold + j) (a1, a2) = (t, a) /\ t <> 0%Z) <->
  (In a1 (nth j all []) /\ In a2 (nth j all []) /\ make_auto c = true /\ (sum_auto c = true <-> a1 = a2) /\ t = 1%Z /\ a = nold + j) \/
  (In a1 (nth j all []) /\ ~ In a2 (nth j all []) /\ t = (-1)%Z /\ a = a2) \/
  (~ In a1 (nth j all []) /\ In a2 (nth j all []) /\ t = 1%Z /\ a = a1).
Proof.
  intros H1 H2. rewrite <- !have_spec. unfold take. destruct (have (nth j all []) a1), (have (nth j all []) a2).
  - destruct (make_auto c); cbn [andb].
    + destruct (Nat.eqb_spec a1 a2), (sum_auto c); cbn [Bool.eqb]; (split; [intros [[= <- <-] N]; intuition congruence|intros [X|[X|X]]; intuition congruence]).
    + split; [intros [[= <- <-] N]; intuition congruence|intros [X|[X|X]]; intuition congruence].
  - split; [intros [[= <- <-] N]; intuition congruence|intros [X|[X|X]]; intuition congruence].
  - split; [intros [[= <- <-] N]; intuition congruence|intros [X|[X|X]]; intuition congruence].
  - split; [intros [[= <- <-] N]; intuition congruence|intros [X|[X|X]]; intuition congruence].
Qed.

Lemma step_members j bls B a u : inv j bls B -> j < length all ->
  (In u (combined (expand conjugated from (length orig) B) (rows_for c (nth j all []) (nold + j) (combine (seq 0 (length bls)) bls) a)) <->
   partner j a /\ spec_of j a u).
Proof.
  intros HI Hj. rewrite in_combined. split.
  - intros (i & bl & t & v & I & T & N & V & ->). destruct (used_baselines _ _ _ _ _ _ _ HI I T N) as [(L & I' & E)|(r & y & k & -> & Hk & -> & Hy & NY & -> & -> & ND & HU)].
    + rewrite E in V. destruct V as [<-|[]]. destruct bl as [a1 a2]. destruct (Horig _ _ _ I') as [L1 L2].
      destruct (proj1 (take_orig j a1 a2 t a L1 L2) (conj T N)) as [(I1 & I2 & M & S & -> & ->)|[(I1 & I2 & -> & ->)|(I1 & I2 & -> & ->)]].
      * split; [right; lia|]. unfold spec_of. rewrite Nat.eqb_refl. unfold inside. cbn. split; [exact M|]. split; [reflexivity|].
        exists a1, a2. auto.
      * split; [left; auto|]. unfold spec_of, stands. destruct (Nat.eqb_spec a2 (nold + j)); [lia|]. destruct (Nat.ltb_spec a2 nold); [|lia].
        exists a2, a1. cbn. auto.
      * split; [left; auto|]. unfold spec_of, stands. destruct (Nat.eqb_spec a1 (nold + j)); [lia|]. destruct (Nat.ltb_spec a1 nold); [|lia].
        exists a1, a2. cbn. auto.
    + apply HU in V as (p & q & [<-|[]] & Hq & Hi). split; [right; lia|]. unfold spec_of, stands. destruct (Nat.eqb_spec (nold + k) (nold + j)); [lia|].
      destruct (Nat.ltb_spec (nold + k) nold); [lia|]. replace (nold + k - nold) with k by lia.
      exists q, y. split; [exact Hq|]. split; [exact Hy|]. destruct v as [i' b]. cbn in *. destruct b; exact Hi.
  - intros [HP HS]. pose proof HI as (newl & Eb & HL & HN & HR & HX). destruct HP as [[La NI]|La].
    + unfold spec_of, stands in HS. destruct (Nat.eqb_spec a (nold + j)); [lia|]. destruct (Nat.ltb_spec a nold); [|lia].
      destruct HS as (p & q & [<-|[]] & Hq & Hi). destruct u as [i b]. cbn [fst snd] in Hi.
      assert (Li : i < length orig) by (apply nth_error_Some; congruence).
      exists i, (if b then (q, a) else (a, q)), (if b then (-1)%Z else 1%Z), (i, false).
      split; [rewrite Eb, nth_error_app1 by exact Li; exact Hi|].
      assert (Lq : q < nold) by (eapply Hparts; eauto).
      assert (TT : take c (nth j all []) (nold + j) (if b then (q, a) else (a, q)) = (if b then (-1)%Z else 1%Z, a) /\ (if b then (-1)%Z else 1%Z) <> 0%Z).
      { destruct b; apply take_orig; auto; [right; left|right; right]; auto. }
      destruct TT as [T N]. split; [exact T|]. split; [exact N|]. split; [rewrite expand_orig by exact Li; now left|]. destruct b; reflexivity.
    + unfold spec_of in HS. destruct (Nat.eqb_spec a (nold + j)) as [Ea|Na].
      * destruct HS as (M & Su & p & q & Hp & Hq & Hi & S). destruct u as [i b]. cbn in Su, Hi. subst b.
        assert (Li : i < length orig) by (apply nth_error_Some; congruence).
        exists i, (p, q), 1%Z, (i, false). split; [rewrite Eb, nth_error_app1 by exact Li; exact Hi|].
        destruct (proj2 (take_orig j p q 1%Z a (Hparts _ _ Hp) (Hparts _ _ Hq))) as [T N].
        { left. repeat split; auto; apply S. }
        split; [exact T|]. split; [exact N|]. split; [rewrite expand_orig by exact Li; now left|]. reflexivity.
      * assert (Ek : exists k, a = nold + k /\ k < j) by (exists (a - nold); lia). destruct Ek as (k & -> & Hk).
        unfold stands in HS. destruct (Nat.ltb_spec (nold + k) nold); [lia|]. replace (nold + k - nold) with k in HS by lia.
        destruct HS as (p & q & Hp & Hq & Hi). assert (Lq : q < nold) by (eapply Hparts; eauto).
        assert (NQ : ~ In q (nth k all [])) by (intros X; assert (j = k) by (eapply Hdisj; eauto); lia).
        assert (PQ : partner k q) by (left; auto).
        assert (SQ : forall v, link orig [q] (nth k all []) v <-> spec_of k q v).
        { intros v. unfold spec_of, stands. destruct (Nat.eqb_spec q (nold + k)); [lia|]. destruct (Nat.ltb_spec q nold); [reflexivity|lia]. }
        assert (LV : link orig [q] (nth k all []) (flip true u)).
        { exists q, p. split; [now left|]. split; [exact Hp|]. destruct u as [i b]. cbn in *. destruct b; exact Hi. }
        assert (IN := HX k q (flip true u) Hk PQ (proj1 (SQ _) LV)). apply In_nth_error in IN as (r & Er).
        destruct (HR _ _ _ Er) as (k' & Hk' & Ek & _ & _ & _ & HU). assert (k' = k) by lia. subst k'.
        exists (length orig + r), (q, nold + k), (-1)%Z, (flip true u).
        split; [rewrite Eb, nth_error_app2 by lia; replace (length orig + r - length orig) with r by lia; exact Er|].
        split. { unfold take. replace (have (nth j all []) q) with true by (symmetry; now apply have_spec).
                 replace (have (nth j all []) (nold + k)) with false; [reflexivity|]. symmetry. apply not_true_iff_false. rewrite have_spec.
                 intros X. apply Hparts in X. lia. }
        split; [lia|]. split; [apply HU, SQ, LV|]. symmetry. apply (flip_flip true).
Qed.

Lemma step_nodup j bls B a : inv j bls B ->
  NoDup (combined (expand conjugated from (length orig) B) (rows_for c (nth j all []) (nold + j) (combine (seq 0 (length bls)) bls) a)).
Proof.
  intros HI. apply NoDup_combined.
  - intros i bl t I T N. destruct (used_baselines _ _ _ _ _ _ _ HI I T N) as [(_ & _ & E)|(r & y & k & _ & _ & _ & _ & _ & _ & _ & ND & _)]; [|exact ND].
    rewrite E. repeat constructor. intros [].
  - intros i i' bl bl' t t' v I T N I' T' N' V V'.
    pose proof (used_baselines _ _ _ _ _ _ _ HI I T N) as U. pose proof (used_baselines _ _ _ _ _ _ _ HI I' T' N') as U'. cbv zeta in U, U'.
    destruct U as [(L & J & E)|(r & y & k & Ei & Hk & Eb & Hy & NY & Et & Ea & ND & HU)], U' as [(L' & J' & E')|(r' & y' & k' & Ei' & Hk' & Eb' & Hy' & NY' & Et' & Ea' & ND' & HU')].
    + rewrite E in V. rewrite E' in V'. destruct V as [<-|[]], V' as [X|[]]. apply (f_equal fst) in X. unfold flip in X. cbn [fst] in X. auto.
    + exfalso. destruct bl as [a1 a2]. destruct (Horig _ _ _ J) as [L1 L2]. rewrite Ea' in T.
      destruct (proj1 (take_orig j a1 a2 t (nold + k') L1 L2) (conj T N)) as [(_ & _ & _ & _ & _ & X)|[(_ & _ & _ & X)|(_ & _ & _ & X)]]; lia.
    + exfalso. destruct bl' as [a1 a2]. destruct (Horig _ _ _ J') as [L1 L2]. rewrite Ea in T'.
      destruct (proj1 (take_orig j a1 a2 t' (nold + k) L1 L2) (conj T' N')) as [(_ & _ & _ & _ & _ & X)|[(_ & _ & _ & X)|(_ & _ & _ & X)]]; lia.
    + assert (k' = k) by lia. subst k' t t'. apply in_map_iff in V as (w & <- & V). apply in_map_iff in V' as (w' & Ew & V').
      apply flip_inj in Ew. subst w'. apply HU in V as (p & q & [<-|[]] & Hq & Hi). apply HU' in V' as (p' & q' & [<-|[]] & Hq' & Hi').
      assert (y = y') by (rewrite Hi in Hi'; destruct (snd w); congruence). subst y'.
      destruct HI as (newl & -> & HL & HN & _). rewrite Eb in I. rewrite Eb' in I'.
      rewrite nth_error_app2 in I, I' by lia. rewrite NoDup_nth_error in HN.
      assert (i - length orig = i' - length orig); [|lia]. apply HN; [apply nth_error_Some; congruence|congruence].
Qed.

Lemma form_one_inv j bls B bls' B' : inv j bls B -> j < length all -> form_one c bls B (nold + j) (nth j all []) = (bls', B') -> inv (j + 1) bls' B'.
Proof.
  intros HI Hj F. destruct (form_one_spec _ _ _ _ _ _ _ F) as (new & -> & -> & NDn & Hnew). clear F.
  pose proof HI as (newl & Eb & HL & HN & HR & HX). set (rf := rows_for c (nth j all []) (nold + j) (combine (seq 0 (length bls)) bls)) in *.
  assert (EX : expand conjugated from (length orig) (B ++ map rf new) =
               expand conjugated from (length orig) B ++ map (combined (expand conjugated from (length orig) B)) (map rf new)).
  { apply expand_app. intros zs z Z1 Z2. apply in_map_iff in Z1 as (a & <- & _). apply in_rows_for in Z2 as (i & bl & t & I & T & N & ->).
    rewrite from_entry by (eapply take_unit; eauto). assert (i < length bls) by (apply nth_error_Some; congruence). rewrite Eb, app_length in *. lia. }
  assert (HM : forall a, In a new <-> exists u, partner j a /\ spec_of j a u).
  { intros a. rewrite Hnew. split.
    - intros H. destruct (rf a) as [|z zs] eqn:R; [congruence|]. assert (Iz : In z (rf a)) by (rewrite R; now left).
      unfold rf in Iz. apply in_rows_for in Iz as (i & bl & t & I & T & N & _).
      assert (exists v, In v (nth i (expand conjugated from (length orig) B) [])) as (v & V).
      { destruct (used_baselines _ _ _ _ _ _ _ HI I T N) as [(_ & _ & ->)|(r & y & k & Ei & Hk & E & Hy & NY & _ & _ & _ & HU)]; [eexists; now left|].
        subst bl. rewrite Eb, Ei, nth_error_app2 in I by lia. replace (length orig + r - length orig) with r in I by lia.
        destruct (HR _ _ _ I) as (k' & Hk' & E' & _ & (u & U) & _ & HU'). exists u. rewrite Ei. now apply HU'. }
      exists (flip (t <? 0)%Z v). apply (step_members j bls B a); auto. apply in_combined. now exists i, bl, t, v.
    - intros (u & U). apply (step_members j bls B a u HI Hj) in U. apply in_combined in U as (i & bl & t & v & I & T & N & _).
      intros R. assert (X : In (t * Z.of_nat (i + 1))%Z (rf a)) by (apply in_rows_for; now exists i, bl, t). rewrite R in X. destruct X. }
  set (old := expand conjugated from (length orig) B) in *. assert (Lo : length old = length bls) by (unfold old; rewrite expand_length, Eb, app_length; lia).
  exists (newl ++ map (fun a => (a, nold + j)) new). split; [rewrite Eb; now rewrite app_assoc|]. split; [rewrite !app_length, !map_length; lia|].
  split; [|split].
  - apply NoDup_app_intro; [exact HN|apply FinFun.Injective_map_NoDup; [intros x y [=]; auto|exact NDn]|].
    intros [x s] H1 H2. apply In_nth_error in H1 as (r & H1). destruct (HR _ _ _ H1) as (k & Hk & -> & _).
    apply in_map_iff in H2 as (a & [= -> E] & _). lia.
  - intros r x s E. destruct (Nat.lt_ge_cases r (length newl)) as [L|L].
    + rewrite nth_error_app1 in E by exact L. destruct (HR _ _ _ E) as (k & Hk & Es & HP & HE & HD & HU). exists k.
      split; [lia|]. split; [exact Es|]. split; [exact HP|]. split; [exact HE|]. rewrite EX, app_nth1 by (rewrite Lo, Eb, app_length; lia).
      split; [exact HD|exact HU].
    + rewrite nth_error_app2 in E by exact L. rewrite nth_error_map in E. destruct (nth_error new (r - length newl)) as [a|] eqn:Ea; [|discriminate].
      cbn in E. injection E as <- <-. exists j. split; [lia|]. split; [reflexivity|].
      assert (Ia := nth_error_In _ _ Ea). apply HM in Ia as (u & HP & HS). split; [exact HP|]. split; [now exists u|].
      assert (EN : nth (length orig + r) (old ++ map (combined old) (map rf new)) [] = combined old (rf a)).
      { rewrite app_nth2 by (rewrite Lo, Eb, app_length; lia). rewrite Lo, Eb, app_length, map_map.
        replace (length orig + r - (length orig + length newl)) with (r - length newl) by lia.
        apply nth_error_nth. rewrite nth_error_map, Ea. reflexivity. }
      rewrite EX, EN. split; [now apply step_nodup|]. intros v. unfold old, rf. rewrite (step_members j bls B a v HI Hj). tauto.
  - intros k x u Hk HP HS. apply in_or_app. destruct (Nat.eq_dec k j) as [->|N].
    + right. apply in_map_iff. exists x. split; [reflexivity|]. apply HM. now exists u.
    + left. apply (HX k x u); auto. lia.
Qed.

Lemma form_inv : forall rest j bls B bls' B', inv j bls B -> (forall i, nth i rest [] = nth (j + i) all []) -> j + length rest = length all ->
  form c bls B (nold + j) rest = (bls', B') -> inv (length all) bls' B'.
Proof.
  induction rest as [|parts rest IH]; intros j bls B bls' B' HI HR HL F.
  - cbn in *. injection F as <- <-. rewrite Nat.add_0_r in HL. now rewrite <- HL.
  - cbn [form] in F. assert (Ep : parts = nth j all []) by (specialize (HR 0); cbn in HR; now rewrite Nat.add_0_r in HR).
    destruct (form_one c bls B (nold + j) parts) as [b1 B1] eqn:F1. rewrite Ep in F1. cbn in HL. pose proof (form_one_inv j bls B b1 B1 HI ltac:(lia) F1) as HI1.
    rewrite <- Nat.add_assoc in F. apply (IH (j + 1) b1 B1 bls' B' HI1); [|lia|exact F]. intros i. specialize (HR (S i)). cbn in HR. rewrite HR. f_equal. lia.
Qed.
End Form.
