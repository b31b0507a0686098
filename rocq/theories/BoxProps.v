(** C107: boxes of the parameter database. *)
From Coq Require Import QArith Qcanon Lqa List Bool.
From Verif Require Import QcUtil AverageModel AxisModel DomainModel BoxModel BoxSpec.
Open Scope Qc_scope.

Lemma half_twice x : x * half + x * half = x.
Proof. replace (x * half + x * half) with (x * (half + half)) by ring. replace (half + half) with 1 by (now apply Qc_is_canon). ring. Qed.

(** The number halfway *)
Lemma middle a b : exists m, m + m = a + b.
Proof. exists ((a + b) * half). apply half_twice. Qed.

Lemma less_spec a b : less a b = true <-> a < b.
Proof. unfold less. destruct (Qclt_le_dec a b) as [H|H]; split; intros K; auto; [discriminate | exfalso; qclra]. Qed.

Lemma near_spec a b : near a b = true <-> a = b.
Proof. unfold near. destruct (Qc_eq_dec a b); split; auto; discriminate. Qed.

Lemma not_less a b : negb (less a b) = true <-> b <= a.
Proof. unfold less. destruct (Qclt_le_dec a b) as [H|H]; cbn; split; intros K; auto; [discriminate | exfalso; qclra]. Qed.

Lemma below_spec a b : less a b && negb (near a b) = true <-> a < b.
Proof.
  rewrite andb_true_iff, less_spec, negb_true_iff. split; [tauto|]. intros H. split; [exact H|]. destruct (near a b) eqn:E; [|reflexivity]. apply near_spec in E. exfalso. qclra.
Qed.

Lemma above_spec a b : less a b && negb (near b a) = true <-> a < b.
Proof.
  rewrite andb_true_iff, less_spec, negb_true_iff. split; [tauto|]. intros H. split; [exact H|]. destruct (near b a) eqn:E; [|reflexivity]. apply near_spec in E. exfalso. qclra.
Qed.

Lemma at_least a b : negb (less a b) || near a b = true <-> b <= a.
Proof. rewrite orb_true_iff, not_less, near_spec. split; [intros [H|H]; [exact H | qclra] | auto]. Qed.

Lemma at_most a b : negb (less b a) || near a b = true <-> a <= b.
Proof. rewrite orb_true_iff, not_less, near_spec. split; [intros [H|H]; [exact H | qclra] | auto]. Qed.

Lemma min_le a b c : c <= min a b <-> c <= a /\ c <= b.
Proof. unfold min. destruct (less b a) eqn:E; [apply less_spec in E | assert (K : negb (less b a) = true) by (now rewrite E); apply not_less in K]; (split; [intros H; split; qclra | intros [H1 H2]; qclra]). Qed.
Lemma min_lt a b c : c < min a b <-> c < a /\ c < b.
Proof. unfold min. destruct (less b a) eqn:E; [apply less_spec in E | assert (K : negb (less b a) = true) by (now rewrite E); apply not_less in K]; (split; [intros H; split; qclra | intros [H1 H2]; qclra]). Qed.
Lemma max_le a b c : max a b <= c <-> a <= c /\ b <= c.
Proof. unfold max. destruct (less a b) eqn:E; [apply less_spec in E | assert (K : negb (less a b) = true) by (now rewrite E); apply not_less in K]; (split; [intros H; split; qclra | intros [H1 H2]; qclra]). Qed.
Lemma max_lt a b c : max a b < c <-> a < c /\ b < c.
Proof. unfold max. destruct (less a b) eqn:E; [apply less_spec in E | assert (K : negb (less a b) = true) by (now rewrite E); apply not_less in K]; (split; [intros H; split; qclra | intros [H1 H2]; qclra]). Qed.

(** A box contains another one, as borders *)
Lemma contains_borders a b : contains a b = true <-> (fst (fst a) <= fst (fst b) /\ snd (fst b) <= snd (fst a)) /\ fst (snd a) <= fst (snd b) /\ snd (snd b) <= snd (snd a).
Proof. unfold contains. rewrite !andb_true_iff, !at_least, !at_most. tauto. Qed.

(** C107: a box contains another one exactly if all points of that one, with its border, are points of it. *)
Theorem C107_contains a b : proper b -> contains a b = true <-> forall p, in_box b p -> in_box a p.
Proof.
  intros [PX PY]. rewrite contains_borders. unfold in_box. split.
  - intros ((A & B) & C & D) p ((E & F) & G & H). repeat split; qclra.
  - intros H. destruct (H (fst (fst b), fst (snd b))) as ((A & _) & B & _); [cbn; repeat split; auto; qclra|].
    destruct (H (snd (fst b), snd (snd b))) as ((_ & C) & _ & D); [cbn; repeat split; auto; qclra|]. cbn in *. auto.
Qed.

(** A number in both intervals *)
Lemma common a1 a2 b1 b2 : a1 <= a2 -> b1 < b2 -> b1 < a2 -> a1 < b2 -> exists x, (a1 <= x <= a2) /\ (b1 < x < b2).
Proof.
  intros A B C D. destruct (middle (max a1 b1) (min a2 b2)) as [m Hm]. exists m. revert Hm.
  unfold max, min. destruct (less a1 b1) eqn:E, (less b2 a2) eqn:F.
  all: try (apply less_spec in E); try (apply less_spec in F).
  all: try (assert (K : negb (less a1 b1) = true) by (now rewrite E); apply not_less in K).
  all: try (assert (K' : negb (less b2 a2) = true) by (now rewrite F); apply not_less in K').
  all: intros Hm; repeat split; qclra.
Qed.

(** C107: a box intersects a box that is not empty exactly if a point of it, or of its border, is inside of the other one. *)
Theorem C107_intersects a b : proper a -> proper b -> empty b = false -> intersects a b = true <-> exists p, in_box a p /\ inside_box b p.
Proof.
  intros [AX AY] [BX BY] E. unfold empty in E. apply orb_false_iff in E. destruct E as [EX EY].
  assert (NX : fst (fst b) < snd (fst b)) by (destruct (Qclt_le_dec (fst (fst b)) (snd (fst b))) as [H|H]; [exact H|]; assert (Z : near (fst (fst b)) (snd (fst b)) = true) by (apply near_spec; now apply Qcle_antisym); congruence).
  assert (NY : fst (snd b) < snd (snd b)) by (destruct (Qclt_le_dec (fst (snd b)) (snd (snd b))) as [H|H]; [exact H|]; assert (Z : near (fst (snd b)) (snd (snd b)) = true) by (apply near_spec; now apply Qcle_antisym); congruence).
  assert (I : intersects a b = true <-> (fst (fst b) < snd (fst a) /\ fst (fst a) < snd (fst b)) /\ fst (snd b) < snd (snd a) /\ fst (snd a) < snd (snd b)).
  { unfold intersects. rewrite <- !andb_assoc, !andb_true_iff.
    pose proof (below_spec (fst (fst b)) (snd (fst a))) as P1. pose proof (above_spec (fst (fst a)) (snd (fst b))) as P2.
    pose proof (below_spec (fst (snd b)) (snd (snd a))) as P3. pose proof (above_spec (fst (snd a)) (snd (snd b))) as P4. rewrite andb_true_iff in P1, P2, P3, P4. tauto. }
  rewrite I. unfold in_box, inside_box. split.
  - intros ((A & B) & C & D). destruct (common _ _ _ _ AX NX A B) as (x & X1 & X2). destruct (common _ _ _ _ AY NY C D) as (y & Y1 & Y2). exists (x, y). cbn. auto.
  - intros (p & ((A & B) & C & D) & (E & F) & G & H). repeat split; qclra.
Qed.

Lemma no_inside p : ~ inside_box no_box p.
Proof. intros ((A & B) & _). cbn in A, B. qclra. Qed.

(** C107: the points inside of the intersection of two boxes are those inside of both; without such a point it is empty. *)
Theorem C107_intersect a b : (forall p, inside_box (intersect a b) p <-> inside_box a p /\ inside_box b p) /\
  (empty (intersect a b) = true <-> ~ exists p, inside_box a p /\ inside_box b p) /\
  ((exists p, inside_box a p /\ inside_box b p) -> forall p, in_box (intersect a b) p <-> in_box a p /\ in_box b p).
Proof.
  unfold intersect. set (sx := max _ _). set (sy := max _ (fst (snd b))). set (ex := min _ _). set (ey := min _ (snd (snd b))).
  assert (C : less sx ex && negb (near sx ex) && less sy ey && negb (near sy ey) = true <-> sx < ex /\ sy < ey).
  { rewrite <- andb_assoc, andb_true_iff, !below_spec. tauto. }
  assert (M : forall p, inside_box a p /\ inside_box b p <-> (sx < fst p /\ fst p < ex) /\ sy < snd p /\ snd p < ey).
  { intros p. unfold inside_box, sx, sy, ex, ey. rewrite !max_lt, !min_lt. tauto. }
  assert (N : forall p, in_box a p /\ in_box b p <-> (sx <= fst p /\ fst p <= ex) /\ sy <= snd p /\ snd p <= ey).
  { intros p. unfold in_box, sx, sy, ex, ey. rewrite !max_le, !min_le. tauto. }
  assert (X : (exists p, inside_box a p /\ inside_box b p) <-> sx < ex /\ sy < ey).
  { split.
    - intros (p & H). apply M in H. destruct H as ((A & B) & D & E). split; qclra.
    - intros [A B]. destruct (middle sx ex) as [x Hx]. destruct (middle sy ey) as [y Hy]. exists (x, y). apply M. cbn [fst snd]. clearbody sx sy ex ey. repeat split; qclra. }
  destruct (less sx ex && _ && _ && _) eqn:Q.
  - assert (L : sx < ex /\ sy < ey) by (apply C; reflexivity). split; [intros p; rewrite M; unfold inside_box; cbn; tauto|]. split.
    + unfold empty. cbn [fst snd]. rewrite X, orb_true_iff, !near_spec. destruct L as [L1 L2]. split; [intros [E|E]; exfalso; qclra | tauto].
    + intros _ p. rewrite N. unfold in_box. cbn. tauto.
  - assert (L : ~ (sx < ex /\ sy < ey)) by (rewrite <- C; discriminate). split.
    + intros p. split; [intros H; destruct (no_inside _ H)|]. intros H. exfalso. apply L, X. eauto.
    + split; [|intros H; exfalso; apply L, X, H]. rewrite X. split; [intros _; exact L | reflexivity].
Qed.

(** C107: the union of two boxes is the smallest box that contains both. *)
Theorem C107_unite a b c : proper a -> proper b -> contains (unite a b) a = true /\ contains (unite a b) b = true /\ proper (unite a b) /\
  (contains c a = true -> contains c b = true -> contains c (unite a b) = true).
Proof.
  intros [AX AY] [BX BY]. rewrite !contains_borders. unfold unite, proper. cbn [fst snd].
  assert (L : forall x y, min x y <= x /\ min x y <= y) by (intros x y; apply min_le, Qcle_refl).
  assert (G : forall x y, x <= max x y /\ y <= max x y) by (intros x y; apply max_le, Qcle_refl).
  pose proof (L (fst (fst a)) (fst (fst b))) as [L1 L2]. pose proof (L (fst (snd a)) (fst (snd b))) as [L3 L4].
  pose proof (G (snd (fst a)) (snd (fst b))) as [G1 G2]. pose proof (G (snd (snd a)) (snd (snd b))) as [G3 G4].
  split; [tauto|]. split; [tauto|]. split; [split; qclra|]. intros ((A & B) & C & D) ((E & F) & H & I). rewrite !min_le, !max_le. tauto.
Qed.

(** C107: a box from center and width has that center and that width. *)
Theorem C107_center x w y h : let b := make_box x w y h false in
  center (fst b) = x /\ width (fst b) = w /\ center (snd b) = y /\ width (snd b) = h /\ (0 <= w -> 0 <= h -> proper b).
Proof.
  assert (C : forall x w, ((x - w * half) + (w + (x - w * half))) * half = x).
  { intros c v. pose proof (half_twice v) as H. set (t := v * half) in *. replace (c - t + (v + (c - t))) with (c + c) by (rewrite <- H; ring). rewrite <- (half_twice c) at 3. ring. }
  cbn. unfold center, width, proper. cbn [fst snd]. split; [apply C|]. split; [ring|]. split; [apply C|]. split; [ring|].
  intros A B. set (t := w * half). set (u := h * half). clearbody t u. split; qclra.
Qed.

(** C107: a box is empty exactly if no point is inside of it. *)
Theorem C107_empty b : proper b -> empty b = true <-> forall p, ~ inside_box b p.
Proof.
  intros [PX PY]. unfold empty, inside_box. rewrite orb_true_iff, !near_spec. split.
  - intros [E|E] p ((A & B) & C & D); qclra.
  - intros H. destruct (Qclt_le_dec (fst (fst b)) (snd (fst b))) as [L|L]; [|left; now apply Qcle_antisym].
    destruct (Qclt_le_dec (fst (snd b)) (snd (snd b))) as [M|M]; [|right; now apply Qcle_antisym].
    exfalso. destruct (middle (fst (fst b)) (snd (fst b))) as [x Hx]. destruct (middle (fst (snd b)) (snd (snd b))) as [y Hy]. apply (H (x, y)). cbn [fst snd]. repeat split; qclra.
Qed.

Lemma before_spec a b : before a b = true <-> fst (snd a) < fst (snd b) \/ fst (snd a) = fst (snd b) /\ fst (fst a) < fst (fst b).
Proof. unfold before. now rewrite orb_true_iff, andb_true_iff, !less_spec, near_spec. Qed.

(** C107: boxes can be sorted: the order is strict, and boxes without an order start at the same point. *)
Theorem C107_order a b c : before a a = false /\ (before a b = true -> before b c = true -> before a c = true) /\
  (before a b = false -> before b a = false -> fst (fst a) = fst (fst b) /\ fst (snd a) = fst (snd b)).
Proof.
  split; [|split].
  - destruct (before a a) eqn:E; [|reflexivity]. apply before_spec in E. destruct E as [E|[_ E]]; exfalso; qclra.
  - rewrite !before_spec. intros [A|[A A']] [B|[B B']]; [left; qclra | left; qclra | left; qclra | right; split; qclra].
  - intros A B. assert (A' : ~ before a b = true) by congruence. assert (B' : ~ before b a = true) by congruence. rewrite before_spec in A', B'.
    destruct (Qclt_le_dec (fst (snd a)) (fst (snd b))) as [L|L]; [tauto|]. destruct (Qclt_le_dec (fst (snd b)) (fst (snd a))) as [M|M]; [tauto|].
    assert (E : fst (snd a) = fst (snd b)) by now apply Qcle_antisym. split; [|exact E]. rewrite E in A', B'.
    destruct (Qclt_le_dec (fst (fst a)) (fst (fst b))) as [L'|L']; [tauto|]. destruct (Qclt_le_dec (fst (fst b)) (fst (fst a))) as [M'|M']; [tauto|]. now apply Qcle_antisym.
Qed.

(** 1 to 2 and 2 to 3 in both directions, and a box around the first one *)
Definition b12 : box := ((1, 1 + 1), (1, 1 + 1)).
Definition b23 : box := ((1 + 1, 1 + 1 + 1), (1 + 1, 1 + 1 + 1)).
Definition b03 : box := ((0, 1 + 1 + 1), (0, 1 + 1 + 1)).

(** C107, a finding: a box without points inside of it is said to be intersected by a box around it, against the description of [intersects]; their intersection is empty. *)
Theorem C107_intersects_refuted : exists a b, proper a /\ proper b /\ intersects a b = true /\ empty (intersect a b) = true /\ ~ exists p, in_box a p /\ inside_box b p.
Proof.
  exists b03, ((1, 1), (1, 1)). split; [split; discriminate|]. split; [split; discriminate|]. split; [reflexivity|]. split; [reflexivity|].
  intros (p & _ & (A & B) & _). cbn in A, B. qclra.
Qed.

(** C107, a finding: an empty intersection is the box from (0,0) to (0,0), so that the union with it has points that are not in the other box. *)
Theorem C107_unite_refuted : exists a b, proper a /\ proper b /\ empty (intersect a b) = true /\ exists p, in_box (unite (intersect a b) b) p /\ ~ in_box b p.
Proof.
  exists b12, b23. split; [split; discriminate|]. split; [split; discriminate|]. split; [reflexivity|]. exists (0, 0). split; [repeat split; discriminate|].
  intros ((A & _) & _). revert A. cbn. apply Qclt_not_le. reflexivity.
Qed.

(** The boxes overlap, touch or contain each other. *)
Example box_example : intersects b12 b03 = true /\ intersects b12 b23 = false /\ contains b03 b12 = true /\ contains b12 b03 = false /\
  intersect b12 b03 = b12 /\ unite b12 b23 = ((1, 1 + 1 + 1), (1, 1 + 1 + 1)) /\ empty b12 = false /\ before b12 b23 = true.
Proof. repeat split; reflexivity. Qed.
Example box_proper : proper b12 /\ proper b23 /\ proper b03.
Proof. repeat split; discriminate. Qed.

Print Assumptions C107_contains.
Print Assumptions C107_intersects.
Print Assumptions C107_intersect.
Print Assumptions C107_unite.
Print Assumptions C107_center.
Print Assumptions C107_empty.
Print Assumptions C107_order.
Print Assumptions C107_intersects_refuted.
Print Assumptions C107_unite_refuted.
