(** Lemmas about the arrays of gain calibration. *)
From Coq Require Import Reals List Arith Bool Lia Permutation Lra.
From Verif Require Import RealCplx AverageModel StefModel StefSpec StefProofs CalModel CalSpec.
Import ListNotations.
Open Scope nat_scope.

(** * Positions *)
Lemma radix n a b x y : a < n -> b < n -> a + n * x = b + n * y -> a = b /\ x = y.
Proof.
  intros A B E. assert (x = y); [|subst; lia].
  assert (Hx : (a + n * x) / n = x) by (rewrite Nat.mul_comm, Nat.div_add by lia; rewrite Nat.div_small; lia).
  assert (Hy : (b + n * y) / n = y) by (rewrite Nat.mul_comm, Nat.div_add by lia; rewrite Nat.div_small; lia).
  congruence.
Qed.
Lemma position_inj c p q : inside c p -> inside c q ->
  position c (st2 p) (pol2 p) (time p) (ch p) (pol1 p) (st1 p) = position c (st2 q) (pol2 q) (time q) (ch q) (pol1 q) (st1 q) -> p = q.
Proof.
  destruct p as [s2 p2 t h p1 s1], q as [s2' p2' t' h' p1' s1']. unfold inside, position. cbn [st2 pol2 time ch pol1 st1]. intros (A & B & C' & D & E & F) (A' & B' & C'' & D' & E' & F') H.
  destruct (radix _ _ _ _ _ A A' H) as [-> H1]. destruct (radix _ _ _ _ _ B B' H1) as [-> H2]. destruct (radix _ _ _ _ _ C' C'' H2) as [-> H3].
  destruct (radix _ _ _ _ _ D D' H3) as [-> H4]. destruct (radix _ _ _ _ _ E E' H4) as [-> ->]. reflexivity.
Qed.

(** * Cells *)
Lemma cell_range s ch : 0 < cell_chan s <= n_channels s -> ch < n_channels s -> ch mod cell_chan s < cell_size s (ch / cell_chan s).
Proof.
  intros [A B] L. unfold cell_size. pose proof (Nat.div_mod ch (cell_chan s) ltac:(lia)) as E. pose proof (Nat.mod_upper_bound ch (cell_chan s) ltac:(lia)) as M.
  set (q := ch / cell_chan s) in *. set (r := ch mod cell_chan s) in *. destruct (Nat.ltb_spec (n_channels s) ((q + 1) * cell_chan s)) as [H|H]; [|exact M].
  assert (K : ((q + 1) * cell_chan s) mod n_channels s = (q + 1) * cell_chan s - n_channels s).
  { rewrite <- (Nat.mod_small ((q + 1) * cell_chan s - n_channels s) (n_channels s)) by nia.
    replace ((q + 1) * cell_chan s) with ((q + 1) * cell_chan s - n_channels s + 1 * n_channels s) at 1 by lia. apply Nat.mod_add. lia. }
  rewrite K. nia.
Qed.
Lemma cell_bound s f i : 0 < cell_chan s <= n_channels s -> f < n_cells s -> i < cell_size s f -> f * cell_chan s + i < n_channels s /\ i < cell_chan s.
Proof.
  intros [A B] F I. unfold n_cells, cell_size in *. pose proof (Nat.div_mod (n_channels s) (cell_chan s) ltac:(lia)) as E. pose proof (Nat.mod_upper_bound (n_channels s) (cell_chan s) ltac:(lia)) as M.
  set (n := n_channels s / cell_chan s) in *. set (r := n_channels s mod cell_chan s) in *.
  destruct (Nat.ltb_spec (n_channels s) ((f + 1) * cell_chan s)) as [H|H]; [|split; nia].
  assert (F' : f = n /\ 0 < r). { destruct (Nat.ltb_spec (cell_chan s * n) (n_channels s)); nia. } destruct F' as [-> R].
  assert (K : ((n + 1) * cell_chan s) mod n_channels s = (n + 1) * cell_chan s - n_channels s).
  { rewrite <- (Nat.mod_small ((n + 1) * cell_chan s - n_channels s) (n_channels s)) by nia.
    replace ((n + 1) * cell_chan s) with ((n + 1) * cell_chan s - n_channels s + 1 * n_channels s) at 1 by lia. apply Nat.mod_add. lia. }
  rewrite K in I. split; nia.
Qed.
Lemma cell_index s f i : i < cell_chan s -> (f * cell_chan s + i) / cell_chan s = f /\ (f * cell_chan s + i) mod cell_chan s = i.
Proof.
  intros I. rewrite Nat.add_comm. split; [rewrite Nat.div_add by lia; rewrite Nat.div_small; lia|rewrite Nat.mod_add by lia; apply Nat.mod_small; lia].
Qed.

(** * Writes *)
Definition write := (nat * nat * (rc * rc))%type.
Definition put_write (a : arrays) (w : write) : arrays := put a (fst (fst w)) (snd (fst w)) (snd w).
Lemma put_all ws : forall a f k, (forall v, ~ In (f, k, v) ws) -> fold_left put_write ws a f k = a f k.
Proof.
  induction ws as [|[[f' k'] v'] ws IH]; intros a f k N; [reflexivity|]. cbn [fold_left]. rewrite IH by (intros v I; apply (N v); now right). unfold put_write, put. cbn [fst snd].
  destruct (Nat.eqb_spec f f') as [->|]; [|reflexivity]. destruct (Nat.eqb_spec k k') as [->|]; [|reflexivity]. elim (N v'). now left.
Qed.
Lemma put_unique ws : forall a f k v, In (f, k, v) ws -> (forall v', In (f, k, v') ws -> v' = v) -> fold_left put_write ws a f k = v.
Proof.
  induction ws as [|w ws IH]; intros a f k v I U; [destruct I|]. cbn [fold_left].
  destruct (in_dec (fun x y : nat * nat => ltac:(decide equality; apply Nat.eq_dec)) (f, k) (map fst ws)) as [J|J].
  - apply in_map_iff in J as ([[f' k'] v'] & E & J). cbn in E. injection E as -> ->. assert (v' = v) by (apply U; now right). subst v'.
    apply IH; auto. intros v' K. apply U. now right.
  - rewrite put_all by (intros v' K; apply J; apply (in_map fst) in K; exact K). destruct I as [->|I]; [|elim J; apply (in_map fst) in I; exact I].
    unfold put_write, put. cbn [fst snd]. now rewrite !Nat.eqb_refl.
Qed.
Definition w_corr (s : setting) (b : slot) (t h bl a1 a2 cr : nat) : list write :=
  let c := cell_config s (h / cell_chan s) in
  [(h / cell_chan s, position c a1 (cr / cr_div s) t (h mod cell_chan s) (cr mod 2) a2, (rscale (sqrt (weight b bl h cr)) (data b bl h cr), rscale (sqrt (weight b bl h cr)) (model b bl h cr)));
   (h / cell_chan s, position c a2 (cr mod 2) t (h mod cell_chan s) (cr / cr_div s) a1,
     (rscale (sqrt (weight b bl h cr)) (rconj (data b bl h cr)), rscale (sqrt (weight b bl h cr)) (rconj (model b bl h cr))))].
Definition w_baseline (s : setting) (b : slot) (t h bl : nat) : list write :=
  if negb (selected s bl) then []
  else let '(a1, a2) := nth bl (baselines s) (0, 0) in
    if ((a1 =? a2) || flag b bl h)%bool then [] else flat_map (w_corr s b t h bl a1 a2) (seq 0 (n_corr s)).
Definition w_fill (s : setting) (order : list nat) (b : slot) (t : nat) : list write :=
  flat_map (fun h => flat_map (w_baseline s b t h) (seq 0 (length (baselines s)))) order.
Lemma fold_writes {A} (f : arrays -> A -> arrays) (g : A -> list write) l : (forall a x, f a x = fold_left put_write (g x) a) ->
  forall a, fold_left f l a = fold_left put_write (flat_map g l) a.
Proof. intros H. induction l as [|x l IH]; intros a; [reflexivity|]. cbn [fold_left flat_map]. now rewrite fold_left_app, H, IH. Qed.
Lemma fill_writes s order b t a : fill s order b t a = fold_left put_write (w_fill s order b t) a.
Proof.
  unfold fill, w_fill. apply fold_writes. clear a. intros a h. apply fold_writes. clear a. intros a bl. unfold fill_baseline, w_baseline.
  destruct (negb (selected s bl)); [reflexivity|]. destruct (nth bl (baselines s) (0, 0)) as [a1 a2]. destruct (_ || _)%bool; [reflexivity|]. apply fold_writes. reflexivity.
Qed.
Fixpoint w_all (s : setting) (t : nat) (l : list (list nat * slot)) : list write :=
  match l with [] => [] | (order, b) :: l => w_fill s order b t ++ w_all s (S t) l end.
Lemma fill_all_writes s l : fill_all s l = fold_left put_write (w_all s 0 l) (fun _ _ => (rc0, rc0)).
Proof.
  unfold fill_all. generalize (fun _ _ : nat => (rc0, rc0)) 0. induction l as [|[order b] l IH]; intros a t; [reflexivity|]. cbn [fold_left w_all]. rewrite IH, fold_left_app, fill_writes. reflexivity.
Qed.
Lemma in_w_all s l : forall t0 w, In w (w_all s t0 l) <-> exists t order b, nth_error l t = Some (order, b) /\ In w (w_fill s order b (t0 + t)).
Proof.
  induction l as [|[order b] l IH]; intros t0 w; cbn [w_all].
  - split; [intros []|]. intros (t & o & b & H & _). destruct t; discriminate.
  - rewrite in_app_iff, IH. split.
    + intros [I|(t & o & b' & H & I)]; [exists 0, order, b; rewrite Nat.add_0_r; auto|]. exists (S t), o, b'. split; [exact H|]. now rewrite Nat.add_succ_r.
    + intros ([|t] & o & b' & H & I); [left; injection H as -> ->; now rewrite Nat.add_0_r in I|]. right. exists t, o, b'. split; [exact H|]. now rewrite Nat.add_succ_r in I.
Qed.
Lemma in_w_fill s order b t w : (forall h, In h order <-> h < n_channels s) ->
  In w (w_fill s order b t) <-> exists h bl a1 a2 cr, h < n_channels s /\ nth_error (baselines s) bl = Some (a1, a2) /\ selected s bl = true /\ a1 <> a2 /\ flag b bl h = false /\ cr < n_corr s /\
    In w (w_corr s b t h bl a1 a2 cr).
Proof.
  intros O. unfold w_fill. rewrite in_flat_map. split.
  - intros (h & H & I). apply in_flat_map in I as (bl & B & I). apply in_seq in B. unfold w_baseline in I. destruct (selected s bl) eqn:S; [|destruct I]. cbn [negb] in I.
    destruct (nth bl (baselines s) (0, 0)) as [a1 a2] eqn:N. destruct (Nat.eqb_spec a1 a2); [destruct I|]. destruct (flag b bl h) eqn:F; [destruct I|]. cbn [orb] in I.
    apply in_flat_map in I as (cr & C & I). apply in_seq in C. exists h, bl, a1, a2, cr. rewrite <- O. repeat split; auto; try lia. rewrite <- N. apply nth_error_nth'. lia.
  - intros (h & bl & a1 & a2 & cr & H & B & S & D & F & C & I). exists h. rewrite O. split; [exact H|]. apply in_flat_map. exists bl. split.
    + apply in_seq. assert (bl < length (baselines s)) by (apply nth_error_Some; congruence). lia.
    + unfold w_baseline. rewrite S. cbn [negb]. rewrite (nth_error_nth _ _ (0, 0) B). destruct (Nat.eqb_spec a1 a2); [contradiction|]. rewrite F. cbn [orb].
      apply in_flat_map. exists cr. split; [apply in_seq; lia|exact I].
Qed.
Lemma between_div s cr p q : n_corr s = 1 \/ n_corr s = 2 \/ n_corr s = 4 -> cr < n_corr s /\ cr / cr_div s = p /\ cr mod 2 = q <-> between (n_corr s) cr p q.
Proof.
  intros H. unfold between, cr_div. destruct H as [H|[H|H]]; rewrite H; cbn [Nat.eqb]; rewrite ?Nat.div_1_r.
  - split; [intros (A & B & C)|intros [X|[X|X]]]; try lia; [right; right; assert (cr = 0) by lia; subst; cbn; lia|]. destruct X as (_ & -> & -> & ->). cbn. lia.
  - split; [intros (A & B & C)|intros [X|[X|X]]]; try lia; [right; left; destruct cr as [|[|]]; cbn in *; lia|]. destruct X as (_ & -> & -> & X). destruct p as [|[|]]; cbn; lia.
  - split; [intros (A & B & C)|intros [X|[X|X]]]; try lia; [left; destruct cr as [|[|[|[|]]]]; cbn in *; lia|]. destruct X as (_ & -> & P & Q). destruct p as [|[|]], q as [|[|]]; cbn; lia.
Qed.
Lemma between_bound n cr p q : between n cr p q -> p < 2 /\ q < 2.
Proof. unfold between. lia. Qed.

(** All writes to a place *)
Lemma writes_place s l f p v : sound s -> (forall order b, In (order, b) l -> Permutation order (seq 0 (n_channels s))) -> length l <= interval s ->
  f < n_cells s -> inside (cell_config s f) p ->
  (In (f, position (cell_config s f) (st2 p) (pol2 p) (time p) (ch p) (pol1 p) (st1 p), v) (w_all s 0 l) <->
   exists bl h cr b, f * cell_chan s + ch p = h /\
    (used s (map snd l) (time p) bl h (st2 p) (st1 p) b /\ between (n_corr s) cr (pol2 p) (pol1 p) /\
       v = (rscale (sqrt (weight b bl h cr)) (data b bl h cr), rscale (sqrt (weight b bl h cr)) (model b bl h cr)) \/
     used s (map snd l) (time p) bl h (st1 p) (st2 p) b /\ between (n_corr s) cr (pol1 p) (pol2 p) /\
       v = (rscale (sqrt (weight b bl h cr)) (rconj (data b bl h cr)), rscale (sqrt (weight b bl h cr)) (rconj (model b bl h cr))))).
Proof.
  intros (K & NC & BL & _) O LI F I. rewrite in_w_all.
  assert (OR : forall t order b, nth_error l t = Some (order, b) -> forall h, In h order <-> h < n_channels s).
  { intros t order b H h. apply nth_error_In in H. apply O in H. split; intros J; [apply (Permutation_in _ H) in J; apply in_seq in J; lia|]. apply (Permutation_in _ (Permutation_sym H)), in_seq. lia. }
  split.
  - intros (t & order & b & H & W). cbn [Nat.add] in W. apply (in_w_fill s order b t _ (OR _ _ _ H)) in W as (h & bl & a1 & a2 & cr & Hh & B & S & D & FL & C & W).
    assert (Lt : t < interval s) by (assert (t < length l) by (apply nth_error_Some; congruence); lia).
    destruct (BL a1 a2 (nth_error_In _ _ B)) as [B1 B2]. assert (R := cell_range s h K Hh).
    assert (BT := proj1 (between_div s cr (cr / cr_div s) (cr mod 2) NC) (conj C (conj eq_refl eq_refl))). destruct (between_bound _ _ _ _ BT) as [P2 Q2].
    assert (U : used s (map snd l) t bl h a1 a2 b) by (unfold used; rewrite nth_error_map, H; cbn; auto 10).
    assert (HH : h / cell_chan s * cell_chan s + h mod cell_chan s = h) by (pose proof (Nat.div_mod h (cell_chan s) ltac:(lia)); lia).
    unfold w_corr in W. cbn [In] in W. destruct W as [W|[W|[]]]; injection W as E1 E2 <-; subst f;
      (apply (position_inj (cell_config s (h / cell_chan s)) (Place _ _ _ _ _ _) p) in E2; [|unfold inside; cbn; auto 10|exact I]); subst p; cbn [st2 pol2 time ch pol1 st1];
      exists bl, h, cr, b; (split; [exact HH|]); [left|right]; auto.
  - intros (bl & h & cr & b & Hh & W).
    destruct I as (I1 & I2 & I3 & I4 & I5 & I6). cbn [cell_config n_chan] in I4. destruct (cell_bound s f (ch p) K F I4) as [Hn Hc]. destruct (cell_index s f (ch p) Hc) as [C1 C2]. rewrite Hh in *.
    assert (G : forall a1 a2, used s (map snd l) (time p) bl h a1 a2 b -> forall cr, cr < n_corr s -> forall w, In w (w_corr s b (time p) h bl a1 a2 cr) -> exists t order b', nth_error l t = Some (order, b') /\ In w (w_fill s order b' (0 + t))).
    { intros a1 a2 (U1 & U2 & U3 & U4 & U5 & U6) cr' Hcr w W'. rewrite nth_error_map in U1. destruct (nth_error l (time p)) as [[order b']|] eqn:N; [|discriminate]. cbn in U1. injection U1 as ->.
      exists (time p), order, b. split; [exact N|]. apply (in_w_fill s order b (0 + time p) _ (OR _ _ _ N)). exists h, bl, a1, a2, cr'. auto 10. }
    destruct W as [(U & B & ->)|(U & B & ->)].
    + apply (proj2 (between_div s cr _ _ NC)) in B as (Lc & D1 & D2). apply (G _ _ U cr Lc). unfold w_corr. rewrite D1, D2, C1, C2. left. reflexivity.
    + apply (proj2 (between_div s cr _ _ NC)) in B as (Lc & D1 & D2). apply (G _ _ U cr Lc). unfold w_corr. rewrite D1, D2, C1, C2. right. left. reflexivity.
Qed.
Lemma between_fun n cr cr' p q : between n cr p q -> between n cr' p q -> cr = cr'.
Proof. unfold between. lia. Qed.
