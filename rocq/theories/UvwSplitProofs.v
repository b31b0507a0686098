(** Lemmas on the splitting of baseline coordinates. *)
From Coq Require Import List Bool Arith ZArith Lia ZifyBool Relations.
From Verif Require Import InfoModel InfoProofs DdecalProofs UvwSplitModel UvwSplitSpec.
Import ListNotations.
Open Scope nat_scope.

Lemma nth_set {T} (l : list T) i x a d : nth a (set_nth l i x) d = if (a =? i) && (i <? length l) then x else nth a l d.
Proof.
  pose proof (set_nth_get l i x a) as H. destruct (Nat.eqb_spec a i) as [E|E]; cbn [andb].
  - subst a. destruct (Nat.ltb_spec i (length l)).
    + apply nth_error_nth. rewrite H. destruct (nth_error l i) eqn:G; auto. apply nth_error_None in G. lia.
    + rewrite !nth_overflow; auto. now rewrite set_nth_length.
  - destruct (nth_error l a) eqn:G.
    + rewrite (nth_error_nth _ _ _ G). now apply nth_error_nth.
    + rewrite !nth_overflow; auto; apply nth_error_None; auto.
Qed.
Lemma first_unknown_none : forall known, first_unknown known = None -> forall a, a < length known -> nth a known false = true.
Proof.
  induction known as [|k known IH]; cbn; [lia|]. destruct k; [|discriminate]. intros H [|a] Ha; auto. apply IH; [|lia].
  destruct (first_unknown known); auto; discriminate.
Qed.
Lemma first_unknown_some : forall known r, first_unknown known = Some r -> r < length known /\ nth r known false = false.
Proof.
  induction known as [|k known IH]; cbn; [discriminate|]. intros r. destruct k.
  - destruct (first_unknown known) as [q|]; [|discriminate]. intros H. injection H as <-. destruct (IH q eq_refl). split; auto. lia.
  - intros H. injection H as <-. split; auto. lia.
Qed.
Definition unknown (known : list bool) : nat := length (filter negb known).
Lemma unknown_le : forall k k', length k = length k' -> (forall a, nth a k false = true -> nth a k' false = true) -> unknown k' <= unknown k.
Proof.
  unfold unknown. induction k as [|b k IH]; intros [|b' k'] L H; try discriminate; auto. cbn [filter]. injection L as L.
  assert (K : length (filter negb k') <= length (filter negb k)) by (apply IH; auto; intros a; apply (H (S a))).
  pose proof (H 0) as Hz. cbn in Hz. destruct b, b'; cbn [negb length]; try lia; discriminate (Hz eq_refl).
Qed.
Lemma unknown_lt : forall k k' r, length k = length k' -> (forall a, nth a k false = true -> nth a k' false = true) -> r < length k ->
  nth r k false = false -> nth r k' false = true -> unknown k' < unknown k.
Proof.
  unfold unknown. induction k as [|b k IH]; intros [|b' k'] r L H Hr E E'; try discriminate; cbn [length] in *; [lia|]. injection L as L. cbn [filter].
  assert (H' : forall a, nth a k false = true -> nth a k' false = true) by (intros a; apply (H (S a))).
  destruct r; cbn [nth] in *.
  - subst. cbn [negb length]. pose proof (unknown_le k k' L H'). unfold unknown in *. lia.
  - assert (length (filter negb k') < length (filter negb k)) by (apply (IH _ r); auto; lia).
    pose proof (H 0) as Hz. cbn in Hz. destruct b, b'; cbn [negb length]; try lia; discriminate (Hz eq_refl).
Qed.

Section Search.
Variable bls : list (nat * nat).
Variable nant : nat.
Definition inside : Prop := forall i a b, nth_error bls i = Some (a, b) -> a < nant /\ b < nant.
Notation kn st a := (nth a (s_known st) false).

Lemma visit_known ref st ib : length (s_known (visit ref st ib)) = length (s_known st) /\ forall a, kn st a = true -> kn (visit ref st ib) a = true.
Proof.
  destruct ib as [i [a1 a2]]. cbn. destruct (Bool.eqb _ _); auto. destruct (a1 =? ref); [|destruct (a2 =? ref); auto]; cbn [s_known];
    (split; [apply set_nth_length|]); intros a H; rewrite nth_set, H; now destruct (_ && _).
Qed.
Lemma fold_known ref : forall l st, length (s_known (fold_left (visit ref) l st)) = length (s_known st) /\
  forall a, kn st a = true -> kn (fold_left (visit ref) l st) a = true.
Proof.
  induction l as [|ib l IH]; intros st; cbn [fold_left]; auto. destruct (IH (visit ref st ib)) as [L K]. destruct (visit_known ref st ib) as [L' K'].
  split; [congruence|auto].
Qed.
(** After the scan for a known station, all its baselines have two known stations *)
Lemma fold_reached ref : forall l st i a b, kn st ref = true -> In (i, (a, b)) l -> a < length (s_known st) -> b < length (s_known st) -> a = ref \/ b = ref ->
  kn (fold_left (visit ref) l st) a = true /\ kn (fold_left (visit ref) l st) b = true.
Proof.
  induction l as [|ib l IH]; intros st i a b Hr Hin Ha Hb Hab; [destruct Hin|]. cbn [fold_left]. destruct Hin as [E|Hin].
  - subst ib. destruct (fold_known ref l (visit ref st (i, (a, b)))) as [_ M].
    assert (G : kn (visit ref st (i, (a, b))) a = true /\ kn (visit ref st (i, (a, b))) b = true).
    { cbn. destruct (Bool.eqb (kn st a) (kn st b)) eqn:E.
      - apply eqb_prop in E. destruct Hab; subst ref; rewrite Hr in E; split; congruence.
      - destruct (Nat.eqb_spec a ref) as [E1|E1].
        + subst a. cbn [s_known]. rewrite !nth_set, Hr, Nat.eqb_refl. replace (b <? _) with true by lia. split; auto. now destruct (_ && _).
        + destruct Hab as [|Hab]; [contradiction|]. subst b. rewrite Nat.eqb_refl. cbn [s_known]. rewrite !nth_set, Hr, Nat.eqb_refl.
          replace (a <? _) with true by lia. split; auto. now destruct (_ && _). }
    destruct G. auto.
  - destruct (visit_known ref st ib) as [L K]. apply (IH _ i); auto; rewrite L; auto.
Qed.

Section Values.
Variables (V : Type) (add sub : V -> V -> V) (zero : V) (uvw : list V) (x : nat -> V).
Definition laws : Prop :=
  (forall p q g, add (sub p g) (sub q p) = sub q g) /\ (forall p q g, sub (sub q g) (sub q p) = sub p g) /\
  (forall p q g, sub (sub q g) (sub p g) = sub q p) /\ (forall p, sub p p = zero).
Definition measured : Prop := forall i a b, nth_error bls i = Some (a, b) -> nth i uvw zero = sub (x b) (x a).
Notation value found := (split V add sub zero nant found bls uvw).
Hypothesis Hl : laws.
Hypothesis Hm : measured.
Hypothesis Hi : inside.

Lemma split_one_length ant i : length (split_one V add sub zero bls uvw ant i) = length ant.
Proof. unfold split_one. destruct (i <? 0)%Z; destruct (nth _ bls (0, 0)); apply set_nth_length. Qed.
Lemma split_length found : length (value found) = nant.
Proof.
  unfold split. assert (G : forall l ant, length (fold_left (split_one V add sub zero bls uvw) l ant) = length ant).
  { induction l; intros ant; cbn; auto. rewrite IHl. apply split_one_length. }
  rewrite G. apply repeat_length.
Qed.
Lemma split_app found i : value (found ++ [i]) = split_one V add sub zero bls uvw (value found) i.
Proof. unfold split. now rewrite fold_left_app. Qed.

(** The stations known so far have the coordinates of their position, up to those of their group; those of a group that is closed have no
    baseline to others.  [v0] is for the current group. *)
Record good (v0 : V) (j : nat) (st : search) : Prop := Good {
  g_len : length (s_known st) = nant;
  g_nodup : NoDup (s_members st);
  g_members : forall m, In m (s_members st) -> m < nant /\ kn st m = true;
  g_pending : forall i a b, nth_error bls i = Some (a, b) -> kn st a <> kn st b ->
    exists k, j <= k /\ nth_error (s_members st) k = Some (if kn st a then a else b);
  g_values : exists g : nat -> V, (forall a, a < nant -> nth a (value (s_found st)) zero = if kn st a then sub (x a) (g a) else zero) /\
    (forall i a b, nth_error bls i = Some (a, b) -> kn st a = true -> kn st b = true -> g a = g b) /\
    (forall m, In m (s_members st) -> g m = v0) }.

Lemma numbered_in i b : In (i, b) (numbered bls) -> nth_error bls i = Some b.
Proof.
  intros H. unfold numbered in H. apply In_nth_error in H as (k & H). rewrite combine_nth_error, seq_nth_error in H.
  destruct (Nat.ltb_spec k (length bls)); [|discriminate]. destruct (nth_error bls k) eqn:E; [|discriminate]. injection H as <- <-. exact E.
Qed.
Lemma numbered_all i b : nth_error bls i = Some b -> In (i, b) (numbered bls).
Proof.
  intros H. unfold numbered. apply nth_error_In with i. rewrite combine_nth_error, seq_nth_error, H.
  assert (i < length bls) by (apply nth_error_Some; congruence). destruct (Nat.ltb_spec i (length bls)); [reflexivity|lia].
Qed.

(** A new station [n], found from the member [m] *)
Lemma good_add v0 j st m n index : good v0 j st -> j < length (s_members st) -> In m (s_members st) -> n < nant -> kn st n = false ->
  (forall v, nth m (value (s_found st)) zero = sub (x m) v ->
     split_one V add sub zero bls uvw (value (s_found st)) index = set_nth (value (s_found st)) n (sub (x n) v)) ->
  good v0 j (MkSearch (s_found st ++ [index]) (set_nth (s_known st) n true) (s_members st ++ [n])).
Proof.
  intros [G1 G2 G3 G4 (g & G5 & G6 & G7)] Hj Hm0 Hn Kn HS. destruct (G3 m Hm0) as [Lm Km].
  assert (Kn' : forall a, nth a (set_nth (s_known st) n true) false = (a =? n) || kn st a).
  { intros a. rewrite nth_set, G1. replace (n <? nant) with true by lia. rewrite andb_true_r. now destruct (a =? n). }
  assert (Nm : n <> m) by (intros ->; congruence).
  constructor; cbn [s_known s_members s_found].
  - now rewrite set_nth_length.
  - apply NoDup_rev in G2. rewrite <- (rev_involutive (s_members st ++ [n])). apply NoDup_rev. rewrite rev_app_distr. cbn [rev app]. constructor; auto.
    rewrite <- in_rev. intros H. destruct (G3 n H). congruence.
  - intros a Ha. rewrite Kn'. apply in_app_iff in Ha as [Ha|[<-|[]]]; [destruct (G3 a Ha) as [? ->]; rewrite orb_true_r; auto|rewrite Nat.eqb_refl; auto].
  - intros i a b E K. rewrite !Kn' in *.
    assert (Last : exists k, j <= k /\ nth_error (s_members st ++ [n]) k = Some n).
    { exists (length (s_members st)). split; [lia|]. rewrite nth_error_app2, Nat.sub_diag by lia. reflexivity. }
    destruct (Nat.eqb_spec a n) as [Ea|Ea]; cbn [orb] in *; [subst a; exact Last|].
    destruct (Nat.eqb_spec b n) as [Eb|Eb]; cbn [orb] in *.
    + subst b. destruct (kn st a); [congruence|exact Last].
    + destruct (G4 i a b E K) as (k & Hk & Ek). exists k. split; auto. rewrite nth_error_app1; auto. apply nth_error_Some. congruence.
  - rewrite split_app, (HS (g m)) by (rewrite G5, Km by auto; reflexivity). exists (fun a => if a =? n then g m else g a). split; [|split].
    + intros a Ha. rewrite Kn', nth_set, split_length. replace (n <? nant) with true by lia. rewrite andb_true_r. destruct (Nat.eqb_spec a n).
      * now subst. * cbn [orb]. now apply G5.
    + intros i a b E. rewrite !Kn'. pose proof (G6 i a b E) as G. pose proof (G4 i a b E) as P.
      assert (Q : forall c, kn st c = true -> (exists k, j <= k /\ nth_error (s_members st) k = Some c) -> g c = g m).
      { intros c _ (k & _ & Hk). rewrite (G7 c) by (eapply nth_error_In; eauto). now rewrite G7. }
      destruct (Nat.eqb_spec a n) as [Ea|Ea], (Nat.eqb_spec b n) as [Eb|Eb]; cbn [orb]; auto.
      * subst a. intros _ Kb. symmetry. apply Q; auto. rewrite Kn, Kb in P. apply P. discriminate.
      * subst b. intros Ka _. apply Q; auto. rewrite Kn, Ka in P. apply P. discriminate.
    + intros c Hc. destruct (Nat.eqb_spec c n) as [Ec|Ec]; [now apply G7|]. apply in_app_iff in Hc as [Hc|[Hc|[]]]; [auto|congruence].
Qed.
Lemma visit_good v0 j ref st i a b : good v0 j st -> nth_error (s_members st) j = Some ref -> nth_error bls i = Some (a, b) ->
  good v0 j (visit ref st (i, (a, b))) /\ nth_error (s_members (visit ref st (i, (a, b)))) j = Some ref.
Proof.
  intros G Hr E. assert (Hj : j < length (s_members st)) by (apply nth_error_Some; congruence). destruct (Hi i a b E) as [Ha Hb].
  pose proof (g_members _ _ _ G ref (nth_error_In _ _ Hr)) as [Lr Kr]. assert (Kin : In ref (s_members st)) by (eapply nth_error_In; eauto).
  assert (Eb : nth i bls (0, 0) = (a, b)) by now apply nth_error_nth. destruct Hl as (L1 & L2 & _ & _). cbn.
  destruct (Bool.eqb (kn st a) (kn st b)) eqn:K; [auto|]. apply eqb_false_iff in K. destruct (Nat.eqb_spec a ref) as [E1|E1].
  - subst a. split; [|cbn [s_members]; now rewrite nth_error_app1].
    apply good_add with ref; auto. { rewrite Kr in K. now destruct (kn st b). }
    intros v Hv. unfold split_one. replace (Z.of_nat i <? 0)%Z with false by lia. rewrite Nat2Z.id, Eb, Hv, (Hm i ref b E), L1. reflexivity.
  - destruct (Nat.eqb_spec b ref) as [E2|E2]; [|auto]. subst b. split; [|cbn [s_members]; now rewrite nth_error_app1].
    apply good_add with ref; auto. { rewrite Kr in K. now destruct (kn st a). }
    intros v Hv. unfold split_one. replace (- Z.of_nat (i + 1) <? 0)%Z with true by lia.
    replace (Z.to_nat (- - Z.of_nat (i + 1) - 1)) with i by lia. rewrite Eb, Hv, (Hm i a ref E), L2. reflexivity.
Qed.
Lemma fold_good v0 j ref : forall l st, (forall i b, In (i, b) l -> nth_error bls i = Some b) -> good v0 j st -> nth_error (s_members st) j = Some ref ->
  good v0 j (fold_left (visit ref) l st) /\ nth_error (s_members (fold_left (visit ref) l st)) j = Some ref.
Proof.
  induction l as [|[i [a b]] l IH]; intros st Hin G Hr; cbn [fold_left]; auto.
  destruct (visit_good v0 j ref st i a b G Hr) as [G' Hr']. { apply Hin. now left. } apply IH; auto. intros i' b' H. apply Hin. now right.
Qed.
Lemma scan_good v0 : forall fuel j st, good v0 j st -> nant <= j + fuel -> exists j', good v0 j' (scan bls fuel j st) /\
  nth_error (s_members (scan bls fuel j st)) j' = None /\ length (s_known (scan bls fuel j st)) = length (s_known st) /\
  forall a, kn st a = true -> kn (scan bls fuel j st) a = true.
Proof.
  induction fuel as [|fuel IH]; intros j st G Hf; cbn [scan].
  - exists j. split; auto. split; auto. apply nth_error_None. apply Nat.le_trans with nant; [|lia].
    rewrite <- (seq_length nant 0). apply NoDup_incl_length; [apply G|]. intros m Hm0. apply in_seq. apply G in Hm0. lia.
  - destruct (nth_error (s_members st) j) as [ref|] eqn:Hr; [|exists j; auto].
    destruct (fold_good v0 j ref (numbered bls) st (fun i b => numbered_in i b) G Hr) as [G' Hr'].
    destruct (fold_known ref (numbered bls) st) as [L K]. pose proof (g_members _ _ _ G ref (nth_error_In _ _ Hr)) as [Lr Kr].
    destruct (IH (j + 1) (fold_left (visit ref) (numbered bls) st)) as (j' & A & B & C & D); [|lia|].
    + destruct G' as [G1 G2 G3 G4 G5]. constructor; auto. intros i a b E Kab. destruct (G4 i a b E Kab) as (k & Hk & Ek).
      destruct (Nat.eq_dec k j) as [Ej|]; [|exists k; split; auto; lia]. exfalso. subst k. rewrite Hr' in Ek. injection Ek as Ek.
      destruct (Hi i a b E) as [Ha Hb]. destruct (fold_reached ref (numbered bls) st i a b) as [R1 R2]; auto.
      * now apply numbered_all. * rewrite (g_len _ _ _ G). auto. * rewrite (g_len _ _ _ G). auto.
      * destruct (kn (fold_left (visit ref) (numbered bls) st) a); auto.
      * congruence.
    + exists j'. split; auto. split; auto. split; [congruence|auto].
Qed.

(** Between the groups *)
Definition closed (found : list Z) (known : list bool) : Prop :=
  length known = nant /\
  (forall i a b, nth_error bls i = Some (a, b) -> nth a known false = nth b known false) /\
  exists g : nat -> V, (forall a, a < nant -> nth a (value found) zero = if nth a known false then sub (x a) (g a) else zero) /\
    (forall i a b, nth_error bls i = Some (a, b) -> nth a known false = true -> nth b known false = true -> g a = g b).
Lemma group_closed found known r : closed found known -> first_unknown known = Some r ->
  let st := scan bls nant 0 (MkSearch found (set_nth known r true) [r]) in
  closed (s_found st) (s_known st) /\ unknown (s_known st) < unknown known.
Proof.
  intros (C1 & C2 & g & C3 & C4) F. apply first_unknown_some in F as [Fr Kr]. rewrite C1 in Fr. destruct Hl as (_ & _ & _ & L4).
  assert (K : forall a, nth a (set_nth known r true) false = (a =? r) || nth a known false).
  { intros a. rewrite nth_set, C1. replace (r <? nant) with true by lia. rewrite andb_true_r. now destruct (a =? r). }
  assert (G : good (x r) 0 (MkSearch found (set_nth known r true) [r])).
  { constructor; cbn [s_known s_members s_found].
    - now rewrite set_nth_length.
    - repeat constructor. auto.
    - intros m [<-|[]]. rewrite K, Nat.eqb_refl. auto.
    - intros i a b E. rewrite !K. specialize (C2 i a b E). destruct (Nat.eqb_spec a r) as [Ea|Ea], (Nat.eqb_spec b r) as [Eb|Eb]; cbn [orb]; subst;
        try congruence; intros _; exists 0; split; auto; cbn; try congruence; rewrite C2, Kr; reflexivity.
    - exists (fun a => if a =? r then x r else g a). split; [|split].
      + intros a Ha. rewrite K. destruct (Nat.eqb_spec a r); cbn [orb]; auto. subst a. rewrite C3, Kr, L4 by auto. reflexivity.
      + intros i a b E. rewrite !K. pose proof (C2 i a b E) as Cab. destruct (Nat.eqb_spec a r) as [Ea|Ea], (Nat.eqb_spec b r) as [Eb|Eb]; cbn [orb]; auto.
        * subst. rewrite <- Cab, Kr. discriminate. * subst. rewrite Cab, Kr. discriminate. * now apply (C4 i).
      + intros m [<-|[]]. now rewrite Nat.eqb_refl. }
  cbv zeta. destruct (scan_good (x r) nant 0 _ G ltac:(lia)) as (j & G' & N & L & M). cbn [s_known] in L, M. rewrite set_nth_length in L. split.
  - destruct G' as [G1 G2 G3 G4 (g' & G5 & G6 & _)]. split; auto. split.
    + intros i a b E. destruct (Bool.bool_dec (nth a (s_known (scan bls nant 0 (MkSearch found (set_nth known r true) [r]))) false)
        (nth b (s_known (scan bls nant 0 (MkSearch found (set_nth known r true) [r]))) false)) as [H|H]; auto. exfalso.
      destruct (G4 i a b E H) as (k & Hk & Ek). apply nth_error_None in N. assert (k < length (s_members (scan bls nant 0 (MkSearch found (set_nth known r true) [r])))) by (apply nth_error_Some; congruence). lia.
    + exists g'. auto.
  - apply unknown_lt with r; auto.
    + intros a Ka. apply M. rewrite K, Ka. apply orb_true_r.
    + lia.
    + apply M. now rewrite K, Nat.eqb_refl.
Qed.
Lemma loop_closed : forall fuel found known, closed found known -> unknown known <= fuel ->
  exists known', closed (groups_loop bls nant fuel found known) known' /\ forall a, a < nant -> nth a known' false = true.
Proof.
  induction fuel as [|fuel IH]; intros found known C U; cbn [groups_loop].
  - exists known. split; auto. intros a Ha. destruct (nth a known false) eqn:E; auto. exfalso. destruct C as (C1 & _).
    assert (In false (filter negb known)). { apply filter_In. split; auto. rewrite <- E. apply nth_In. lia. }
    unfold unknown in U. destruct (filter negb known); cbn in *; [tauto|lia].
  - destruct (first_unknown known) as [r|] eqn:F.
    + destruct (group_closed found known r C F) as [C' U']. apply IH; auto. lia.
    + exists known. split; auto. intros a Ha. destruct C as (C1 & _). apply first_unknown_none; auto. lia.
Qed.
Theorem setup_gives : gives sub zero bls (value (setup nant bls)) uvw.
Proof.
  destruct (loop_closed nant [] (repeat false nant)) as (known & (C1 & C2 & g & C3 & C4) & All).
  - split; [apply repeat_length|]. assert (R : forall a, nth a (repeat false nant) false = false) by (intros a; destruct (Nat.ltb_spec a nant); [|rewrite nth_overflow; auto; rewrite repeat_length; auto];
      pose proof (repeat_spec nant false (nth a (repeat false nant) false)) as Q; apply Q, nth_In; now rewrite repeat_length).
    split. { intros i a b _. now rewrite !R. } exists x. split; [|intros i a b _; rewrite R; discriminate].
    intros a Ha. rewrite R. unfold split. cbn. pose proof (repeat_spec nant zero (nth a (repeat zero nant) zero)) as Q. apply Q, nth_In. now rewrite repeat_length.
  - unfold unknown. clear. induction nant; cbn; lia.
  - intros i a b E. destruct (Hi i a b E) as [Ha Hb]. fold (setup nant bls) in C3. rewrite !C3, !All by auto.
    rewrite (C4 i a b E) by auto. destruct Hl as (_ & _ & L3 & _). rewrite L3. symmetry. now apply Hm.
Qed.
End Values.
End Search.

(** * The selection of baselines *)
Definition number {T} (p : T -> bool) (l : list T) : nat := length (filter p l).
Lemma number_app {T} (p : T -> bool) l l' : number p (l ++ l') = number p l + number p l'.
Proof. unfold number. now rewrite filter_app, app_length. Qed.
Lemma number_set {T} (p : T -> bool) d y : forall l i, i < length l ->
  number p (set_nth l i y) + Nat.b2n (p (nth i l d)) = number p l + Nat.b2n (p y).
Proof.
  unfold number. induction l as [|z l IH]; intros [|i] H; cbn [length] in H; try lia.
  - cbn. destruct (p z), (p y); cbn; lia.
  - cbn [set_nth nth filter]. specialize (IH i ltac:(lia)). destruct (p z); cbn [length]; lia.
Qed.
Lemma number_ext {T} (p : T -> bool) d : forall l l', length l = length l' -> (forall i, i < length l -> p (nth i l d) = p (nth i l' d)) -> number p l = number p l'.
Proof.
  unfold number. induction l as [|z l IH]; intros [|z' l'] L H; try discriminate; auto. injection L as L. cbn [filter].
  assert (E : length (filter p l) = length (filter p l')) by (apply IH; auto; intros i Hi; apply (H (S i)); cbn; lia).
  pose proof (H 0 ltac:(cbn; lia)) as Hz. cbn in Hz. rewrite Hz. destruct (p z'); cbn; lia.
Qed.
Lemma number_one {T} (p : T -> bool) d : forall l i j, number p l <= 1 -> i < length l -> j < length l -> p (nth i l d) = true -> p (nth j l d) = true -> i = j.
Proof.
  unfold number. assert (G : forall (l : list T) i, i < length l -> p (nth i l d) = true -> 0 < length (filter p l)).
  { intros l i Hi E. assert (In (nth i l d) (filter p l)) by (apply filter_In; split; auto; now apply nth_In). destruct (filter p l); cbn in *; [tauto|lia]. }
  induction l as [|z l IH]; intros [|i] [|j] N Hi Hj Ei Ej; cbn [length nth filter] in *; try lia.
  - rewrite Ei in N. cbn in N. specialize (G l j ltac:(lia) Ej). lia.
  - rewrite Ej in N. cbn in N. specialize (G l i ltac:(lia) Ei). lia.
  - f_equal. apply IH; auto; try lia. destruct (p z); cbn in N; lia.
Qed.
Definition none {T} (o : option T) : bool := match o with None => true | Some _ => false end.
Definition filled {T} (l : list T) : bool := match l with [] => false | _ => true end.

Section Select.
Variables (nant : nat) (bls : list (nat * nat)).
Notation grp st a := (nth a (l_group st) None).
Notation mem st g := (nth g (l_groups st) []).
Hypothesis Hi : inside bls nant.

Definition cross (i : nat) : bool := let '(a, b) := nth i bls (0, 0) in negb (a =? b).
Record sound (st : selection) : Prop := Sound {
  d_len : length (l_group st) = nant;
  d_in : forall a g, grp st a = Some g -> g < length (l_groups st) /\ In a (mem st g);
  d_of : forall a g, In a (mem st g) -> a < nant /\ grp st a = Some g;
  d_linked : forall a b g, grp st a = Some g -> grp st b = Some g -> linked bls (l_chosen st) a b;
  d_count : number none (l_group st) + number filled (l_groups st) + number cross (l_chosen st) = nant;
  d_valid : forall i, In i (l_chosen st) -> i < length bls }.

Lemma linked_more c c' a b : (forall i, In i c -> In i c') -> linked bls c a b -> linked bls c' a b.
Proof.
  intros H L. induction L as [a b (i & Hi' & E)|a|a b L IH|a b c0 L1 IH1 L2 IH2].
  - apply rst_step. exists i. auto.
  - apply rst_refl.
  - now apply rst_sym.
  - now apply rst_trans with b.
Qed.
Lemma linked_step c i a b : nth_error bls i = Some (a, b) -> linked bls (c ++ [i]) a b.
Proof. intros E. apply rst_step. exists i. split; auto. apply in_app_iff. right. now left. Qed.
Lemma grp_inside st a g : sound st -> grp st a = Some g -> a < nant.
Proof. intros S H. destruct (Nat.ltb_spec a nant); auto. rewrite nth_overflow in H; [discriminate|]. rewrite (d_len _ S). auto. Qed.
Lemma fold_set_len {T} (y : T) : forall old l, length (fold_left (fun m a => set_nth m a y) old l) = length l.
Proof. induction old; intros l; cbn; auto. now rewrite IHold, set_nth_length. Qed.
Lemma fold_set_get {T} (y d : T) : forall old l a, (forall b, In b old -> b < length l) ->
  (In a old -> nth a (fold_left (fun m a => set_nth m a y) old l) d = y) /\
  (~ In a old -> nth a (fold_left (fun m a => set_nth m a y) old l) d = nth a l d).
Proof.
  induction old as [|b old IH]; intros l a H; cbn [fold_left]. { split; [intros []|auto]. }
  assert (Hb : b < length l) by (apply H; now left). destruct (IH (set_nth l b y) a) as [A B]. { intros c Hc. rewrite set_nth_length. apply H. now right. }
  split.
  - intros [E|E]; auto. subst b. destruct (in_dec Nat.eq_dec a old); auto. rewrite B, nth_set, Nat.eqb_refl by auto. now replace (a <? length l) with true by lia.
  - intros N. rewrite B by (intros E; apply N; now right). rewrite nth_set. replace (a =? b) with false; auto. symmetry. apply Nat.eqb_neq. intros E. apply N. now left.
Qed.
Lemma linked_sym c a b : linked bls c a b -> linked bls c b a.
Proof. apply rst_sym. Qed.
Lemma linked_trans c a b d : linked bls c a b -> linked bls c b d -> linked bls c a d.
Proof. apply rst_trans. Qed.
Lemma linked_refl c a : linked bls c a a.
Proof. apply rst_refl. Qed.

Lemma choose_sound st i a b : sound st -> nth_error bls i = Some (a, b) ->
  match choose st i a b with
  | None => exists g, grp st a = Some g /\ grp st b = Some g
  | Some st' => sound st' /\ l_chosen st' = l_chosen st ++ [i] /\ exists g, grp st' a = Some g /\ grp st' b = Some g
  end.
Proof.
  intros [S1 S2 S3 S4 S5 S6] E. destruct (Hi i a b E) as [Ha Hb]. pose proof (nth_error_nth _ _ (0, 0) E) as En.
  assert (Li : i < length bls) by (apply nth_error_Some; congruence).
  assert (Cr : cross i = negb (a =? b)) by (unfold cross; now rewrite En).
  assert (Xi : number cross [i] = Nat.b2n (negb (a =? b))) by (unfold number; cbn [filter]; rewrite Cr; now destruct (a =? b)).
  assert (V : forall k, In k (l_chosen st ++ [i]) -> k < length bls). { intros k Hk. apply in_app_iff in Hk as [Hk|[<-|[]]]; auto. }
  assert (Lk : linked bls (l_chosen st ++ [i]) a b) by now apply linked_step.
  assert (Lm : forall c d, linked bls (l_chosen st) c d -> linked bls (l_chosen st ++ [i]) c d).
  { intros c d. apply linked_more. intros k Hk. apply in_app_iff. auto. }
  unfold choose. destruct (grp st a) as [g|] eqn:Ga, (grp st b) as [h|] eqn:Gb.
  - (* both known *)
    destruct (Nat.eqb_spec g h) as [Egh|Ngh]; [subst; eauto|].
    destruct (S2 a g Ga) as [Lg Ig]. destruct (S2 b h Gb) as [Lh Ih].
    assert (Hold : forall c, In c (mem st h) -> c < length (l_group st)) by (intros c Hc; rewrite S1; now apply (S3 c h)).
    set (old := mem st h) in *. set (gr := fold_left (fun m a0 => set_nth m a0 (Some g)) old (l_group st)).
    assert (Gr : forall c, nth c gr None = if in_dec Nat.eq_dec c old then Some g else grp st c).
    { intros c. subst gr. destruct (fold_set_get (Some g) None old (l_group st) c Hold) as [A B]. destruct (in_dec Nat.eq_dec c old); auto. }
    assert (Iold : forall c, In c old <-> grp st c = Some h).
    { intros c. split. { intros Hc. now apply S3. } intros Hc. now apply S2 in Hc. }
    assert (Mm : forall k, nth k (set_nth (set_nth (l_groups st) g (mem st g ++ old)) h []) [] = if k =? h then [] else if k =? g then mem st g ++ old else mem st k).
    { intros k. rewrite nth_set, set_nth_length. replace (h <? length (l_groups st)) with true by lia. rewrite andb_true_r. destruct (k =? h); auto.
      rewrite nth_set. replace (g <? length (l_groups st)) with true by lia. now rewrite andb_true_r. }
    split; [|split; [reflexivity|]].
    + constructor; cbn [l_group l_groups l_chosen]; auto.
      * subst gr. now rewrite fold_set_len.
      * intros c k. rewrite Gr, !set_nth_length, Mm. destruct (in_dec Nat.eq_dec c old) as [Ic|Ic].
        -- intros H. injection H as <-. split; auto. replace (g =? h) with false by (symmetry; now apply Nat.eqb_neq). rewrite Nat.eqb_refl. apply in_app_iff. auto.
        -- intros H. destruct (S2 c k H) as [Lk' Ik]. split; auto. destruct (Nat.eqb_spec k h) as [Ek|Ek]. { subst k. exfalso. apply Ic. now apply Iold. }
           destruct (Nat.eqb_spec k g); auto. subst k. apply in_app_iff. auto.
      * intros c k. rewrite Gr, Mm. destruct (Nat.eqb_spec k h) as [Ek|Ek]; [intros []|]. destruct (Nat.eqb_spec k g) as [Ekg|Ekg].
        -- subst k. intros Hc. apply in_app_iff in Hc as [Hc|Hc].
           ++ destruct (S3 c g Hc) as [Lc Gc]. split; auto. destruct (in_dec Nat.eq_dec c old); auto.
           ++ destruct (S3 c h Hc) as [Lc Gc]. split; auto. destruct (in_dec Nat.eq_dec c old); auto. contradiction.
        -- intros Hc. destruct (S3 c k Hc) as [Lc Gc]. split; auto. destruct (in_dec Nat.eq_dec c old) as [Ic|Ic]; auto. apply Iold in Ic. congruence.
      * intros c d k. rewrite !Gr. assert (Q : forall e, In e old -> linked bls (l_chosen st ++ [i]) a e).
        { intros e He. apply Iold in He. apply linked_trans with b; auto. apply Lm. now apply (S4 b e h). }
        assert (Q' : forall e, grp st e = Some g -> linked bls (l_chosen st ++ [i]) a e) by (intros e He; apply Lm; now apply (S4 a e g)).
        destruct (in_dec Nat.eq_dec c old) as [Ic|Ic], (in_dec Nat.eq_dec d old) as [Id|Id]; intros H1 H2.
        -- apply linked_trans with a; auto. apply linked_sym. auto.
        -- injection H1 as <-. apply linked_trans with a; auto. apply linked_sym. auto.
        -- injection H2 as <-. apply linked_trans with a; auto. apply linked_sym. auto.
        -- apply Lm. eapply S4; eauto.
      * rewrite number_app. assert (Nn : number none gr = number none (l_group st)).
        { apply number_ext with None. { subst gr. apply fold_set_len. } intros c _. rewrite Gr. destruct (in_dec Nat.eq_dec c old) as [Ic|Ic]; auto.
          apply Iold in Ic. rewrite Ic. reflexivity. }
        rewrite Nn. pose proof (number_set filled [] (mem st g ++ old) (l_groups st) g Lg) as N1.
        pose proof (number_set filled [] [] (set_nth (l_groups st) g (mem st g ++ old)) h ltac:(now rewrite set_nth_length)) as N2.
        rewrite nth_set in N2. replace (h =? g) with false in N2 by (symmetry; apply Nat.eqb_neq; auto). cbn [andb] in N2.
        assert (F1 : filled (mem st g) = true) by (destruct (mem st g); [destruct Ig|reflexivity]).
        assert (F2 : filled (mem st h) = true) by (destruct (mem st h); [destruct Ih|reflexivity]).
        assert (F3 : filled (mem st g ++ old) = true) by (destruct (mem st g); [destruct Ig|reflexivity]).
        rewrite F1, F3 in N1. rewrite F2 in N2. cbn [Nat.b2n filled] in N1, N2.
        assert (Na : a <> b) by (intros ->; congruence). rewrite Xi. replace (a =? b) with false by (symmetry; now apply Nat.eqb_neq). cbn [negb Nat.b2n]. fold old. lia.
    + exists g. cbn [l_group]. rewrite !Gr. split; [destruct (in_dec Nat.eq_dec a old); auto|]. destruct (in_dec Nat.eq_dec b old) as [Ib|Ib]; auto. exfalso. apply Ib. now apply Iold.
  - (* only a known *)
    destruct (S2 a g Ga) as [Lg Ig]. assert (Na : b <> a) by (intros ->; congruence).
    assert (Gr : forall c, nth c (set_nth (l_group st) b (Some g)) None = if c =? b then Some g else grp st c).
    { intros c. rewrite nth_set, S1. replace (b <? nant) with true by lia. now rewrite andb_true_r. }
    assert (Mm : forall k, nth k (set_nth (l_groups st) g (mem st g ++ [b])) [] = if k =? g then mem st g ++ [b] else mem st k).
    { intros k. rewrite nth_set. replace (g <? length (l_groups st)) with true by lia. now rewrite andb_true_r. }
    split; [|split; [reflexivity|]].
    + constructor; cbn [l_group l_groups l_chosen]; auto.
      * now rewrite set_nth_length.
      * intros c k. rewrite Gr, set_nth_length, Mm. destruct (Nat.eqb_spec c b).
        -- subst c. intros H. injection H as <-. split; auto. rewrite Nat.eqb_refl. apply in_app_iff. right. now left.
        -- intros H. destruct (S2 c k H). split; auto. destruct (Nat.eqb_spec k g); auto. subst k. apply in_app_iff. auto.
      * intros c k. rewrite Gr, Mm. destruct (Nat.eqb_spec k g) as [Ek|Ek].
        -- subst k. intros Hc. apply in_app_iff in Hc as [Hc|[<-|[]]].
           ++ destruct (S3 c g Hc) as [Lc Gc]. split; auto. destruct (Nat.eqb_spec c b); auto.
           ++ split; auto. now rewrite Nat.eqb_refl.
        -- intros Hc. destruct (S3 c k Hc) as [Lc Gc]. split; auto. destruct (Nat.eqb_spec c b); auto. congruence.
      * intros c d k. rewrite !Gr. assert (Q : forall e, grp st e = Some g -> linked bls (l_chosen st ++ [i]) b e).
        { intros e He. apply linked_trans with a; [now apply linked_sym|]. apply Lm. now apply (S4 a e g). }
        destruct (Nat.eqb_spec c b), (Nat.eqb_spec d b); intros H1 H2; subst; try (injection H1 as <-); try (injection H2 as <-); auto.
        -- apply linked_refl. -- apply linked_sym. auto. -- apply Lm. eapply S4; eauto.
      * rewrite number_app. pose proof (number_set none None (Some g) (l_group st) b ltac:(lia)) as N1. rewrite Gb in N1. cbn [none Nat.b2n] in N1.
        pose proof (number_set filled [] (mem st g ++ [b]) (l_groups st) g Lg) as N2.
        assert (F1 : filled (mem st g) = true) by (destruct (mem st g); [destruct Ig|reflexivity]).
        assert (F3 : filled (mem st g ++ [b]) = true) by (destruct (mem st g); reflexivity).
        rewrite F1, F3 in N2. cbn [Nat.b2n] in N2. rewrite Xi. replace (a =? b) with false by (symmetry; apply Nat.eqb_neq; auto). cbn [negb Nat.b2n]. lia.
    + exists g. cbn [l_group]. rewrite !Gr, Nat.eqb_refl. destruct (Nat.eqb_spec a b); auto.
  - (* only b known *)
    rename h into g. destruct (S2 b g Gb) as [Lg Ig]. assert (Na : a <> b) by (intros ->; congruence).
    assert (Gr : forall c, nth c (set_nth (l_group st) a (Some g)) None = if c =? a then Some g else grp st c).
    { intros c. rewrite nth_set, S1. replace (a <? nant) with true by lia. now rewrite andb_true_r. }
    assert (Mm : forall k, nth k (set_nth (l_groups st) g (mem st g ++ [a])) [] = if k =? g then mem st g ++ [a] else mem st k).
    { intros k. rewrite nth_set. replace (g <? length (l_groups st)) with true by lia. now rewrite andb_true_r. }
    split; [|split; [reflexivity|]].
    + constructor; cbn [l_group l_groups l_chosen]; auto.
      * now rewrite set_nth_length.
      * intros c k. rewrite Gr, set_nth_length, Mm. destruct (Nat.eqb_spec c a).
        -- subst c. intros H. injection H as <-. split; auto. rewrite Nat.eqb_refl. apply in_app_iff. right. now left.
        -- intros H. destruct (S2 c k H). split; auto. destruct (Nat.eqb_spec k g); auto. subst k. apply in_app_iff. auto.
      * intros c k. rewrite Gr, Mm. destruct (Nat.eqb_spec k g) as [Ek|Ek].
        -- subst k. intros Hc. apply in_app_iff in Hc as [Hc|[<-|[]]].
           ++ destruct (S3 c g Hc) as [Lc Gc]. split; auto. destruct (Nat.eqb_spec c a); auto.
           ++ split; auto. now rewrite Nat.eqb_refl.
        -- intros Hc. destruct (S3 c k Hc) as [Lc Gc]. split; auto. destruct (Nat.eqb_spec c a); auto. congruence.
      * intros c d k. rewrite !Gr. assert (Q : forall e, grp st e = Some g -> linked bls (l_chosen st ++ [i]) a e).
        { intros e He. apply linked_trans with b; auto. apply Lm. now apply (S4 b e g). }
        destruct (Nat.eqb_spec c a), (Nat.eqb_spec d a); intros H1 H2; subst; try (injection H1 as <-); try (injection H2 as <-); auto.
        -- apply linked_refl. -- apply linked_sym. auto. -- apply Lm. eapply S4; eauto.
      * rewrite number_app. pose proof (number_set none None (Some g) (l_group st) a ltac:(lia)) as N1. rewrite Ga in N1. cbn [none Nat.b2n] in N1.
        pose proof (number_set filled [] (mem st g ++ [a]) (l_groups st) g Lg) as N2.
        assert (F1 : filled (mem st g) = true) by (destruct (mem st g); [destruct Ig|reflexivity]).
        assert (F3 : filled (mem st g ++ [a]) = true) by (destruct (mem st g); reflexivity).
        rewrite F1, F3 in N2. cbn [Nat.b2n] in N2. rewrite Xi. replace (a =? b) with false by (symmetry; apply Nat.eqb_neq; auto). cbn [negb Nat.b2n]. lia.
    + exists g. cbn [l_group]. rewrite !Gr, Nat.eqb_refl. destruct (Nat.eqb_spec b a); auto.
  - (* none known *)
    set (n := length (l_groups st)).
    assert (Gr : forall c, nth c (set_nth (set_nth (l_group st) a (Some n)) b (Some n)) None = if (c =? a) || (c =? b) then Some n else grp st c).
    { intros c. rewrite !nth_set, set_nth_length, S1. replace (b <? nant) with true by lia. replace (a <? nant) with true by lia. rewrite !andb_true_r.
      destruct (c =? a), (c =? b); reflexivity. }
    assert (Mm : forall k, nth k (l_groups st ++ [[a; b]]) [] = if k =? n then [a; b] else mem st k).
    { intros k. subst n. destruct (Nat.eqb_spec k (length (l_groups st))) as [Ek|Ek].
      - subst k. rewrite app_nth2, Nat.sub_diag by lia. reflexivity.
      - destruct (Nat.ltb_spec k (length (l_groups st))). { now rewrite app_nth1. } rewrite !nth_overflow; auto. rewrite app_length. cbn. lia. }
    assert (Gn : forall c, grp st c <> Some n). { intros c H. destruct (S2 c n H). subst n. lia. }
    split; [|split; [reflexivity|]].
    + constructor; cbn [l_group l_groups l_chosen]; auto.
      * now rewrite !set_nth_length.
      * intros c k. rewrite Gr, app_length, Mm. cbn [length]. destruct ((c =? a) || (c =? b)) eqn:C.
        -- intros H. injection H as <-. fold n. split; [lia|]. rewrite Nat.eqb_refl. destruct (Nat.eqb_spec c a); [subst; now left|]. right. left. symmetry. now apply Nat.eqb_eq.
        -- intros H. destruct (S2 c k H). split; [lia|]. destruct (Nat.eqb_spec k n); auto. subst k. now apply Gn in H.
      * intros c k. rewrite Gr, Mm. destruct (Nat.eqb_spec k n) as [Ek|Ek].
        -- subst k. intros [<-|[<-|[]]]; rewrite Nat.eqb_refl, ?orb_true_r; auto.
        -- intros Hc. destruct (S3 c k Hc) as [Lc Gc]. split; auto. destruct ((c =? a) || (c =? b)) eqn:C; auto. exfalso.
           apply orb_true_iff in C as [C|C]; apply Nat.eqb_eq in C; congruence.
      * assert (Q : forall c, (c =? a) || (c =? b) = true -> linked bls (l_chosen st ++ [i]) a c).
        { intros c C. apply orb_true_iff in C as [C|C]; apply Nat.eqb_eq in C; subst c; auto. apply linked_refl. }
        intros c d k. rewrite !Gr. destruct ((c =? a) || (c =? b)) eqn:C1, ((d =? a) || (d =? b)) eqn:C2; intros H1 H2.
        -- apply linked_trans with a; auto. apply linked_sym. auto.
        -- injection H1 as <-. now apply Gn in H2.
        -- injection H2 as <-. now apply Gn in H1.
        -- apply Lm. eapply S4; eauto.
      * rewrite !number_app. pose proof (number_set none None (Some n) (l_group st) a ltac:(lia)) as N1. rewrite Ga in N1. cbn [none Nat.b2n] in N1.
        pose proof (number_set none None (Some n) (set_nth (l_group st) a (Some n)) b ltac:(rewrite set_nth_length; lia)) as N2.
        rewrite nth_set, S1 in N2. replace (a <? nant) with true in N2 by lia. rewrite andb_true_r in N2.
        assert (X1 : number filled [[a; b]] = 1) by reflexivity. rewrite X1. rewrite Xi. rewrite (Nat.eqb_sym b a) in N2.
        destruct (a =? b); cbn [none Nat.b2n negb length] in *; rewrite ?Gb in N2; cbn [none Nat.b2n] in N2; lia.
    + exists n. cbn [l_group]. rewrite !Gr, !Nat.eqb_refl, orb_true_r. auto.
Qed.

Lemma choose_more st i a b st' : choose st i a b = Some st' -> l_chosen st' = l_chosen st ++ [i].
Proof. unfold choose. destruct (grp st a), (grp st b); try destruct (_ =? _); intros E; try discriminate; injection E as <-; reflexivity. Qed.
Lemma loop_more : forall order st i, In i (l_chosen st) -> In i (l_chosen (select_loop nant bls order st)).
Proof.
  induction order as [|k order IH]; intros st i H; cbn [select_loop]; auto. destruct (nth k bls (0, 0)) as [a b]. destruct (choose st k a b) as [st'|] eqn:E; auto.
  assert (In i (l_chosen st')) by (rewrite (choose_more _ _ _ _ _ E); apply in_app_iff; auto). destruct (_ =? _); auto.
Qed.
Lemma loop_of : forall order st i, In i (l_chosen (select_loop nant bls order st)) -> In i (l_chosen st) \/ In i order.
Proof.
  induction order as [|k order IH]; intros st i H; cbn [select_loop] in H; auto. destruct (nth k bls (0, 0)) as [a b]. destruct (choose st k a b) as [st'|] eqn:E.
  - assert (M : In i (l_chosen st') -> In i (l_chosen st) \/ In i (k :: order)).
    { rewrite (choose_more _ _ _ _ _ E). intros M. apply in_app_iff in M as [M|[<-|[]]]; auto. right. now left. }
    destruct (_ =? _); auto. destruct (IH _ _ H); auto. right. now right.
  - destruct (IH _ _ H); auto. right. now right.
Qed.
Lemma all_linked st a0 g0 : sound st -> nth a0 (l_group st) None = Some g0 -> number cross (l_chosen st) = nant - 1 ->
  forall a b, a < nant -> b < nant -> linked bls (l_chosen st) a b.
Proof.
  intros S H0 N. pose proof (grp_inside _ _ _ S H0) as L0. pose proof (d_count _ S) as C. destruct (d_in _ S _ _ H0) as [G0 M0].
  assert (P : forall (T : Type) (p : T -> bool) d l i, i < length l -> p (nth i l d) = true -> 0 < number p l).
  { intros T p d l i Hk E. unfold number. assert (In (nth i l d) (filter p l)) by (apply filter_In; split; auto; now apply nth_In). destruct (filter p l); cbn in *; [tauto|lia]. }
  assert (F0 : forall g, (exists a, In a (mem st g)) -> filled (mem st g) = true) by (intros g (c & Hc); destruct (mem st g); [destruct Hc|reflexivity]).
  assert (0 < number filled (l_groups st)) by (apply (P _ filled [] (l_groups st) g0 G0); apply F0; eauto).
  assert (Z0 : number none (l_group st) = 0) by (clear - C N H L0; lia). assert (O1 : number filled (l_groups st) <= 1) by (clear - C N H L0; lia).
  assert (K : forall a, a < nant -> exists g, grp st a = Some g).
  { intros a Ha. destruct (grp st a) as [g|] eqn:E; eauto. assert (0 < number none (l_group st)) by (apply (P _ none None (l_group st) a); [rewrite (d_len _ S); auto|now rewrite E]). lia. }
  intros a b Ha Hb. destruct (K a Ha) as [g Eg]. destruct (K b Hb) as [h Eh]. destruct (d_in _ S _ _ Eg) as [Lg Mg]. destruct (d_in _ S _ _ Eh) as [Lh Mh].
  assert (g = h) by (apply (number_one filled [] (l_groups st)); auto; apply F0; eauto). subst h. now apply (d_linked _ S _ _ g).
Qed.
(** The antennas of a baseline are linked by baselines that were selected and do not come after it *)
Lemma loop_path : forall crosses autos st, sound st -> number cross (l_chosen st) = length (l_chosen st) ->
  (forall i, In i crosses -> i < length bls /\ cross i = true) ->
  forall l1 i l2 a b, crosses = l1 ++ i :: l2 -> nth_error bls i = Some (a, b) ->
  exists c, linked bls c a b /\ forall j, In j c -> In j (l_chosen (select_loop nant bls (crosses ++ autos) st)) /\ (In j (l_chosen st) \/ In j (l1 ++ [i])).
Proof.
  induction crosses as [|k crosses IH]; intros autos st S N Hc l1 i l2 a b El E; [destruct l1; discriminate|].
  destruct (Hc k (or_introl eq_refl)) as [Lk Ck]. cbn [app select_loop]. destruct (nth k bls (0, 0)) as [p q] eqn:Ek.
  assert (Ek' : nth_error bls k = Some (p, q)) by (rewrite <- Ek; now apply nth_error_nth'). pose proof (choose_sound st k p q S Ek') as G.
  assert (Hk : In k (l1 ++ [i])) by (destruct l1; injection El as -> _; now left).
  destruct (choose st k p q) as [st'|] eqn:Ech.
  - destruct G as (S' & C' & g & Gp & Gq). assert (N' : number cross (l_chosen st') = length (l_chosen st')).
    { rewrite C', number_app, app_length, N. unfold number. cbn [filter]. rewrite Ck. reflexivity. }
    assert (B : forall j, In j (l_chosen st') -> In j (l_chosen st) \/ In j (l1 ++ [i])).
    { intros j J. rewrite C' in J. apply in_app_iff in J as [J|[<-|[]]]; auto. }
    destruct (Nat.eqb_spec (length (l_chosen st')) (nant - 1)) as [Eq|Nl].
    + exists (l_chosen st'). split; auto. destruct (Hi i a b E). apply (all_linked st' p g); auto. lia.
    + destruct l1 as [|k' l1]; cbn [app] in El; injection El as -> El.
      * rewrite Ek' in E. injection E as <- <-. exists (l_chosen st'). split; [now apply (d_linked _ S' p q g)|]. intros j J. split; auto. now apply loop_more.
      * destruct (IH autos st' S' N' ltac:(intros j Hj; apply Hc; now right) l1 i l2 a b El E) as (c & Lc & Hj). exists c. split; auto. intros j J. destruct (Hj j J) as [J1 J2]. split; auto.
        destruct J2 as [J2|J2]; auto. right. now right.
  - destruct G as (g & Gp & Gq). destruct l1 as [|k' l1]; cbn [app] in El; injection El as -> El.
    + rewrite Ek' in E. injection E as <- <-. exists (l_chosen st). split; [now apply (d_linked _ S p q g)|]. intros j J. split; auto. now apply loop_more.
    + destruct (IH autos st S N ltac:(intros j Hj; apply Hc; now right) l1 i l2 a b El E) as (c & Lc & Hj). exists c. split; auto. intros j J. destruct (Hj j J) as [J1 J2]. split; auto.
      destruct J2 as [J2|J2]; auto. right. now right.
Qed.
Lemma start_sound : sound (MkSelection [] (repeat None nant) []).
Proof.
  assert (R : forall a, nth a (repeat (@None nat) nant) None = None).
  { intros a. destruct (nth_in_or_default a (repeat (@None nat) nant) None) as [I|I]; auto. now apply repeat_spec in I. }
  constructor; cbn [l_group l_groups l_chosen].
  - apply repeat_length.
  - intros a g. rewrite R. discriminate.
  - intros a g H. destruct g; destruct H.
  - intros a b g. rewrite R. discriminate.
  - unfold number. cbn. clear. induction nant; cbn; auto.
  - intros i [].
Qed.
Theorem select_path order : (forall i, In i order -> i < length bls) ->
  (forall l1 l2, order = l1 ++ l2 -> forall i j, In i l1 -> In j l2 -> cross j = true -> cross i = true) ->
  forall l1 i l2 a b, order = l1 ++ i :: l2 -> nth_error bls i = Some (a, b) ->
  exists c, linked bls c a b /\ forall j, In j c -> In j (select nant bls order) /\ In j (l1 ++ [i]).
Proof.
  intros V A l1 i l2 a b Eo E. destruct (cross i) eqn:Ci.
  - assert (D : exists m autos, l2 = m ++ autos /\ (forall j, In j m -> cross j = true) /\ (forall j, In j autos -> cross j = false)).
    { clear - A Eo. assert (B : forall m1 m2, l2 = m1 ++ m2 -> forall i j, In i m1 -> In j m2 -> cross j = true -> cross i = true).
      { intros m1 m2 Em k j K J. apply (A (l1 ++ i :: m1) m2); auto. { rewrite Eo, Em, <- app_assoc. reflexivity. } apply in_app_iff. right. now right. }
      clear A Eo. induction l2 as [|k l IH]. { exists [], []. repeat split; intros j []. }
      destruct IH as (cr & au & E & Hc & Hu). { intros m1 m2 -> p q P Q. apply (B (k :: m1) m2 eq_refl); auto. now right. }
      destruct (cross k) eqn:Ck.
      - exists (k :: cr), au. rewrite E. split; auto. split; auto. intros j [<-|J]; auto.
      - exists [], (k :: l). split; auto. split; [intros j []|]. intros j [<-|J]; auto. destruct (cross j) eqn:Cj; auto.
        rewrite <- Ck. symmetry. apply (B [k] l eq_refl k j); auto. now left. }
    destruct D as (m & au & Em & Hc & _). pose proof start_sound as S0.
    destruct (loop_path (l1 ++ i :: m) au (MkSelection [] (repeat None nant) []) S0 eq_refl) with (l1 := l1) (i := i) (l2 := m) (a := a) (b := b) as (c & Lc & Hj); auto.
    + intros j J. split. { apply V. rewrite Eo, Em. rewrite in_app_iff in *. destruct J as [J|[J|J]]; auto; [right; now left|right; right; apply in_app_iff; auto]. }
      apply in_app_iff in J as [J|[<-|J]]; auto. apply (A l1 (i :: l2) Eo j i); auto. now left.
    + exists c. split; auto. intros j J. destruct (Hj j J) as [J1 [[]|J2]]. split; auto. unfold select. rewrite Eo, Em. now rewrite <- app_assoc in J1.
  - unfold cross in Ci. rewrite (nth_error_nth _ _ _ E) in Ci. apply negb_false_iff, Nat.eqb_eq in Ci. subst. exists []. split; [apply linked_refl|intros j []].
Qed.
Theorem select_linked order : (forall i, In i order -> i < length bls) ->
  (forall l1 l2, order = l1 ++ l2 -> forall i j, In i l1 -> In j l2 -> cross j = true -> cross i = true) ->
  forall i a b, In i order -> nth_error bls i = Some (a, b) -> linked bls (select nant bls order) a b.
Proof.
  intros V A i a b I E. apply in_split in I as (l1 & l2 & Eo). destruct (select_path order V A l1 i l2 a b Eo E) as (c & Lc & Hj).
  apply linked_more with c; auto. intros j J. now apply Hj.
Qed.
Lemma loop_sound : forall order st, sound st -> (forall i, In i order -> i < length bls) -> sound (select_loop nant bls order st).
Proof.
  induction order as [|k order IH]; intros st S V; cbn [select_loop]; auto. destruct (nth k bls (0, 0)) as [p q] eqn:Ek.
  assert (Ek' : nth_error bls k = Some (p, q)) by (rewrite <- Ek; apply nth_error_nth'; apply V; now left). pose proof (choose_sound st k p q S Ek') as G.
  assert (V' : forall i, In i order -> i < length bls) by (intros i I; apply V; now right).
  destruct (choose st k p q) as [st'|]; auto. destruct G as (S' & _). destruct (_ =? _); auto.
Qed.
Lemma select_few order : 0 < nant -> (forall i, In i order -> i < length bls) -> number cross (select nant bls order) < nant.
Proof.
  intros H0 V. pose proof (loop_sound order _ start_sound V) as S. unfold select. set (st := select_loop nant bls order _) in *. pose proof (d_count _ S) as C.
  assert (P : forall (T : Type) (p : T -> bool) d l i, i < length l -> p (nth i l d) = true -> 0 < number p l).
  { intros T p d l i Hk E. unfold number. assert (In (nth i l d) (filter p l)) by (apply filter_In; split; auto; now apply nth_In). destruct (filter p l); cbn in *; [tauto|lia]. }
  destruct (grp st 0) as [g|] eqn:E.
  - destruct (d_in _ S _ _ E) as [L M]. assert (0 < number filled (l_groups st)) by (apply (P _ filled [] _ g L); destruct (mem st g); [destruct M|reflexivity]). lia.
  - assert (0 < number none (l_group st)) by (apply (P _ none None _ 0); [rewrite (d_len _ S); auto|now rewrite E]). lia.
Qed.
Lemma select_of order i : In i (select nant bls order) -> In i order.
Proof. intros H. apply loop_of in H as [[]|H]; auto. Qed.
End Select.

(** * The indices found are those of baselines *)
Definition index_ok (bls : list (nat * nat)) (i : Z) : Prop := (- Z.of_nat (length bls) <= i < Z.of_nat (length bls))%Z.
Lemma visit_ok bls ref st ib : fst ib < length bls -> Forall (index_ok bls) (s_found st) -> Forall (index_ok bls) (s_found (visit ref st ib)).
Proof.
  destruct ib as [i [a1 a2]]. cbn [fst]. intros L H. unfold visit. destruct (Bool.eqb _ _); auto. unfold index_ok in *.
  destruct (a1 =? ref); [|destruct (a2 =? ref); auto]; cbn [s_found]; apply Forall_app; split; auto; constructor; auto; lia.
Qed.
Lemma fold_ok bls ref : forall l st, (forall ib, In ib l -> fst ib < length bls) -> Forall (index_ok bls) (s_found st) -> Forall (index_ok bls) (s_found (fold_left (visit ref) l st)).
Proof. induction l as [|ib l IH]; intros st L H; cbn [fold_left]; auto. apply IH. { intros; apply L; now right. } apply visit_ok; auto. apply L. now left. Qed.
Lemma scan_ok bls : forall fuel j st, Forall (index_ok bls) (s_found st) -> Forall (index_ok bls) (s_found (scan bls fuel j st)).
Proof.
  induction fuel; intros j st H; cbn [scan]; auto. destruct (nth_error _ _); auto. apply IHfuel. apply fold_ok; auto.
  intros [i b] I. apply numbered_in in I. cbn. apply nth_error_Some. congruence.
Qed.
Lemma groups_ok bls nant : forall fuel found known, Forall (index_ok bls) found -> Forall (index_ok bls) (groups_loop bls nant fuel found known).
Proof. induction fuel; intros found known H; cbn [groups_loop]; auto. destruct (first_unknown known); auto. apply IHfuel. apply scan_ok. auto. Qed.
Lemma setup_ok bls nant : Forall (index_ok bls) (setup nant bls).
Proof. apply groups_ok. constructor. Qed.

(** * Splitting by the baselines that were selected *)
Section Selected.
Variables (V : Type) (add sub : V -> V -> V) (zero : V) (nant : nat) (bls : list (nat * nat)) (uvw : list V).
Variable x : nat -> V.
Lemma split_selected order : (forall i, In i (select nant bls order) -> i < length bls) ->
  split V add sub zero nant (setup_selected nant bls order) bls uvw =
  split V add sub zero nant (setup nant (map (fun bl => nth bl bls (0, 0)) (select nant bls order))) (map (fun bl => nth bl bls (0, 0)) (select nant bls order))
    (map (fun bl => nth bl uvw zero) (select nant bls order)).
Proof.
  intros Hv. unfold setup_selected. set (chosen := select nant bls order) in *. set (sel := map (fun bl => nth bl bls (0, 0)) chosen).
  pose proof (setup_ok sel nant) as F. unfold split. generalize (repeat zero nant). induction F as [|z l Hz F IH]; intros ant; cbn [map fold_left]; auto.
  rewrite IH. f_equal. clear IH F. unfold index_ok in Hz. subst sel. rewrite map_length in Hz.
  assert (M : forall k, k < length chosen -> nth k (map (fun bl => nth bl bls (0, 0)) chosen) (0, 0) = nth (nth k chosen 0%nat) bls (0, 0)).
  { intros k Hk. set (g := fun bl => nth bl bls (0, 0)). rewrite (nth_indep _ (0, 0) (g 0)) by now rewrite map_length. apply (map_nth g). }
  assert (U : forall k, k < length chosen -> nth k (map (fun bl => nth bl uvw zero) chosen) zero = nth (nth k chosen 0%nat) uvw zero).
  { intros k Hk. set (g := fun bl => nth bl uvw zero). rewrite (nth_indep _ zero (g 0)) by now rewrite map_length. apply (map_nth g). }
  unfold split_one. destruct (Z.leb_spec 0 z).
  - replace (Z.of_nat (nth (Z.to_nat z) chosen 0%nat) <? 0)%Z with false by lia. replace (z <? 0)%Z with false by lia. rewrite Nat2Z.id, M, U by lia. reflexivity.
  - replace (- Z.of_nat (nth (Z.to_nat (- z - 1)) chosen 0%nat) - 1 <? 0)%Z with true by lia. replace (z <? 0)%Z with true by lia.
    replace (Z.to_nat (- (- Z.of_nat (nth (Z.to_nat (- z - 1)) chosen 0%nat) - 1) - 1)) with (nth (Z.to_nat (- z - 1)) chosen 0%nat) by lia. rewrite M, U by lia. reflexivity.
Qed.
Theorem selected_gives order : laws V add sub zero -> measured bls V sub zero uvw x -> inside bls nant ->
  (forall i, In i order <-> i < length bls) ->
  (forall l1 l2, order = l1 ++ l2 -> forall i j, In i l1 -> In j l2 -> cross bls j = true -> cross bls i = true) ->
  gives sub zero bls (split V add sub zero nant (setup_selected nant bls order) bls uvw) uvw.
Proof.
  intros Hl Hm Hi Ho Ha. assert (Hv : forall i, In i (select nant bls order) -> i < length bls) by (intros i I; apply Ho; now apply select_of in I).
  rewrite split_selected by auto. set (chosen := select nant bls order) in *. set (sel := map (fun bl => nth bl bls (0, 0)) chosen). set (us := map (fun bl => nth bl uvw zero) chosen).
  assert (Es : forall k a b, nth_error sel k = Some (a, b) -> exists i, nth_error chosen k = Some i /\ nth_error bls i = Some (a, b)).
  { intros k a b E. subst sel. rewrite nth_error_map in E. destruct (nth_error chosen k) as [i|] eqn:Ei; [|discriminate]. injection E as E. exists i. split; auto. rewrite <- E.
    apply nth_error_nth'. apply Hv. now apply nth_error_In in Ei. }
  assert (Is : inside sel nant) by (intros k a b E; destruct (Es k a b E) as (i & _ & E'); apply (Hi i a b E')).
  assert (Ms : measured sel V sub zero us x).
  { intros k a b E. destruct (Es k a b E) as (i & Ei & E'). subst us. apply nth_error_nth. rewrite nth_error_map, Ei. cbn. f_equal. now apply Hm. }
  pose proof (setup_gives sel nant V add sub zero us x Hl Ms Is) as G. set (st := split V add sub zero nant (setup nant sel) sel us) in *.
  assert (L : forall a b, linked bls chosen a b -> sub (nth b st zero) (nth a st zero) = sub (x b) (x a)).
  { destruct Hl as (L1 & L2 & L3 & L4). intros a b R. induction R as [a b (i & I & E)|a|a b R IH|a b c R1 IH1 R2 IH2].
    - apply In_nth_error in I as (k & Ek). assert (Ek' : nth_error sel k = Some (a, b)) by (subst sel; rewrite nth_error_map, Ek; cbn; f_equal; now apply nth_error_nth).
      rewrite (G k a b Ek'). now apply Ms.
    - now rewrite !L4.
    - rewrite <- (L2 (nth a st zero) (nth b st zero) (nth b st zero)), <- (L2 (x a) (x b) (x b)), !L4. now f_equal.
    - rewrite <- (L1 (nth b st zero) (nth c st zero) (nth a st zero)), <- (L1 (x b) (x c) (x a)). now f_equal. }
  intros i a b E. rewrite (Hm i a b E). apply L. apply select_linked with (i := i); auto.
  - intros j J. now apply Ho.
  - apply Ho. apply nth_error_Some. congruence.
Qed.
End Selected.
