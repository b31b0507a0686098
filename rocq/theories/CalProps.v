(** Properties of a solution interval of gain calibration. *)
From Coq Require Import Reals List Arith Bool Lia Permutation Lra.
From Verif Require Import RealCplx AverageModel StefModel StefSpec StefProofs StefProps CalModel CalSpec CalProofs.
Import ListNotations.
Open Scope R_scope.

(** C95: every channel is in exactly one group of channels, and every group has channels *)
Theorem C95_cells s ch : (0 < cell_chan s <= n_channels s)%nat ->
  ((ch < n_channels s)%nat <-> exists f, (f < n_cells s)%nat /\ cell_of s ch f) /\
  (forall f f', (f < n_cells s)%nat -> (f' < n_cells s)%nat -> cell_of s ch f -> cell_of s ch f' -> f = f') /\ (forall f, (f < n_cells s)%nat -> (0 < cell_size s f)%nat).
Proof.
  intros K. split; [split|split].
  - intros L. exists (ch / cell_chan s)%nat. assert (R := cell_range s ch K L). pose proof (Nat.div_mod ch (cell_chan s) ltac:(lia)) as E. split.
    + unfold n_cells. pose proof (Nat.div_mod (n_channels s) (cell_chan s) ltac:(lia)). pose proof (Nat.mod_upper_bound (n_channels s) (cell_chan s) ltac:(lia)). destruct (Nat.ltb_spec (cell_chan s * (n_channels s / cell_chan s)) (n_channels s)).
      * assert (ch / cell_chan s <= n_channels s / cell_chan s)%nat by (apply Nat.div_le_mono; lia). lia.
      * apply Nat.div_lt_upper_bound; lia.
    + exists (ch mod cell_chan s)%nat. split; [lia|exact R].
  - intros (f & F & i & -> & I). now apply cell_bound.
  - intros f f' F F' (i & -> & I) (i' & E & I'). destruct (cell_bound s f i K F I) as [_ L]. destruct (cell_bound s f' i' K F' I') as [_ L'].
    destruct (cell_index s f i L) as [H _]. destruct (cell_index s f' i' L') as [H' _]. rewrite <- E in H'. congruence.
  - intros f F. unfold n_cells, cell_size in *. pose proof (Nat.div_mod (n_channels s) (cell_chan s) ltac:(lia)) as E. pose proof (Nat.mod_upper_bound (n_channels s) (cell_chan s) ltac:(lia)) as M.
    destruct (Nat.ltb_spec (n_channels s) ((f + 1) * cell_chan s)) as [H|H]; [|lia].
    set (n := (n_channels s / cell_chan s)%nat) in *. set (r := (n_channels s mod cell_chan s)%nat) in *.
    assert (F' : (f = n /\ 0 < r)%nat). { destruct (Nat.ltb_spec (cell_chan s * n) (n_channels s)); nia. } destruct F' as [-> R].
    replace (((n + 1) * cell_chan s) mod n_channels s)%nat with ((n + 1) * cell_chan s - n_channels s)%nat; [nia|].
    rewrite <- (Nat.mod_small ((n + 1) * cell_chan s - n_channels s) (n_channels s)) by nia.
    replace ((n + 1) * cell_chan s)%nat with ((n + 1) * cell_chan s - n_channels s + 1 * n_channels s)%nat at 2 by lia. symmetry. apply Nat.mod_add. lia.
Qed.

Section Filled.
Variables (s : setting) (l : list (list nat * slot)).
Hypothesis SO : sound s.
Hypothesis ORD : forall order b, In (order, b) l -> Permutation order (seq 0 (n_channels s)).
Hypothesis LEN : (length l <= interval s)%nat.
Let at_place f p := fill_all s l f (position (cell_config s f) (st2 p) (pol2 p) (time p) (ch p) (pol1 p) (st1 p)).
Lemma fill_direct f p bl h cr b : (f < n_cells s)%nat -> inside (cell_config s f) p -> used s (map snd l) (time p) bl h (st2 p) (st1 p) b -> (f * cell_chan s + ch p = h)%nat ->
  between (n_corr s) cr (pol2 p) (pol1 p) -> at_place f p = (rscale (sqrt (weight b bl h cr)) (data b bl h cr), rscale (sqrt (weight b bl h cr)) (model b bl h cr)).
Proof.
  intros F I U H B. unfold at_place. rewrite fill_all_writes. apply put_unique.
  - apply (writes_place s l f p _ SO ORD LEN F I). exists bl, h, cr, b. auto 10.
  - intros v' W. apply (writes_place s l f p _ SO ORD LEN F I) in W as (bl' & h' & cr' & b' & H' & W). assert (h' = h) by congruence. subst h'.
    destruct SO as (_ & _ & _ & UN). destruct U as (U1 & U2 & U3 & U4 & U5 & U6).
    destruct W as [(W & B' & ->)|(W & B' & ->)]; destruct W as (W1 & W2 & W3 & W4 & W5 & W6); rewrite W1 in U1; injection U1 as ->.
    + assert (bl' = bl) by (eapply UN; eauto). subst bl'. assert (cr' = cr) by (eapply between_fun; eauto). now subst.
    + exfalso. assert (bl' = bl) by (eapply UN; eauto). subst bl'. rewrite W2 in U2. injection U2 as E1 E2. congruence.
Qed.
Lemma fill_mirror f p bl h cr b : (f < n_cells s)%nat -> inside (cell_config s f) p -> used s (map snd l) (time p) bl h (st1 p) (st2 p) b -> (f * cell_chan s + ch p = h)%nat ->
  between (n_corr s) cr (pol1 p) (pol2 p) -> at_place f p = (rscale (sqrt (weight b bl h cr)) (rconj (data b bl h cr)), rscale (sqrt (weight b bl h cr)) (rconj (model b bl h cr))).
Proof.
  intros F I U H B. unfold at_place. rewrite fill_all_writes. apply put_unique.
  - apply (writes_place s l f p _ SO ORD LEN F I). exists bl, h, cr, b. auto 10.
  - intros v' W. apply (writes_place s l f p _ SO ORD LEN F I) in W as (bl' & h' & cr' & b' & H' & W). assert (h' = h) by congruence. subst h'.
    destruct SO as (_ & _ & _ & UN). destruct U as (U1 & U2 & U3 & U4 & U5 & U6).
    destruct W as [(W & B' & ->)|(W & B' & ->)]; destruct W as (W1 & W2 & W3 & W4 & W5 & W6); rewrite W1 in U1; injection U1 as ->.
    + exfalso. assert (bl' = bl) by (eapply UN; eauto). subst bl'. rewrite W2 in U2. injection U2 as E1 E2. congruence.
    + assert (bl' = bl) by (eapply UN; eauto). subst bl'. assert (cr' = cr) by (eapply between_fun; eauto). now subst.
Qed.
Lemma fill_none f p : (f < n_cells s)%nat -> inside (cell_config s f) p ->
  (exists v, In (f, position (cell_config s f) (st2 p) (pol2 p) (time p) (ch p) (pol1 p) (st1 p), v) (w_all s 0 l)) \/
  at_place f p = (rc0, rc0) /\ forall v, ~ In (f, position (cell_config s f) (st2 p) (pol2 p) (time p) (ch p) (pol1 p) (st1 p), v) (w_all s 0 l).
Proof.
  intros F I. set (k := position _ _ _ _ _ _ _). destruct (in_dec (fun x y : nat * nat => ltac:(decide equality; apply Nat.eq_dec)) (f, k) (map fst (w_all s 0 l))) as [J|J].
  - left. apply in_map_iff in J as ([[f' k'] v] & E & J). cbn in E. injection E as -> ->. now exists v.
  - right. assert (N : forall v, ~ In (f, k, v) (w_all s 0 l)) by (intros v K; apply J; apply (in_map fst) in K; exact K). split; [|exact N].
    unfold at_place. fold k. rewrite fill_all_writes. now rewrite put_all.
Qed.
End Filled.

(** C95: the arrays that the gains are estimated from have, at the place of two feeds, a time and a channel, the data and the model of the baseline of these stations if there is one that
    is selected and not flagged, times the root of its weight; conjugated if the stations of the baseline are the other way round; and nothing else.  The order of the threads does not matter *)
Theorem C95_fill s l f p : sound s -> (forall order b, In (order, b) l -> Permutation order (seq 0 (n_channels s))) -> (length l <= interval s)%nat -> (f < n_cells s)%nat ->
  inside (cell_config s f) p -> stored s (map snd l) f p (fill_all s l f (position (cell_config s f) (st2 p) (pol2 p) (time p) (ch p) (pol1 p) (st1 p))).
Proof.
  intros SO ORD LEN F I. destruct (fill_none s l f p F I) as [(v & W)|Z].
  - apply (writes_place s l f p _ SO ORD LEN F I) in W as (bl & h & cr & b & H & [(U & B & _)|(U & B & _)]).
    + left. exists bl, h, cr, b. repeat (split; [assumption|]). eapply fill_direct; eauto.
    + right. left. exists bl, h, cr, b. repeat (split; [assumption|]). eapply fill_mirror; eauto.
  - destruct Z as [Z N]. rewrite Z. right. right. split; [reflexivity|]. intros (bl & h & cr & b & H & [(U & B)|(U & B)]).
    + refine (N _ (proj2 (writes_place s l f p _ SO ORD LEN F I) _)). exists bl, h, cr, b. split; [exact H|]. left. eauto.
    + refine (N _ (proj2 (writes_place s l f p _ SO ORD LEN F I) _)). exists bl, h, cr, b. split; [exact H|]. right. eauto.
Qed.

(** C95: if the data are those of the model as seen through the Jones matrices of the stations (numbers or full matrices), the gains that reproduce the arrays exactly, and are kept by the
    iterations for that reason (C94_exact), are the conjugate transposes of these.  For full matrices the weights must be the same for the correlations of a sample *)
Theorem C95_exact s l jones f g : sound s -> (forall order b, In (order, b) l -> Permutation order (seq 0 (n_channels s))) -> (length l <= interval s)%nat -> (f < n_cells s)%nat ->
  (forall t bl h a1 a2 b, used s (map snd l) t bl h a1 a2 b -> corrupted s jones b bl h a1 a2 /\ fair_weights s b bl h) ->
  agrees s (cell_config s f) g jones ->
  exactly (cell_config s f) (fun k => fst (fill_all s l f k)) (fun k => snd (fill_all s l f k)) g.
Proof.
  intros SO ORD LEN F H A. unfold exactly. change (c_mode (cell_config s f)) with (s_mode s).
  assert (BOUND : forall p, inside (cell_config s f) p -> (st1 p < stations s /\ st2 p < stations s /\ pol1 p < 2 /\ pol2 p < 2)%nat) by (intros p I; unfold inside in I; cbn in I; tauto).
  assert (AG : forall st, (st < stations s)%nat -> match s_mode s with
    | FullJones => forall i j, (i < 2)%nat -> (j < 2)%nat -> el (g st) i j = rconj (el (jones st) j i)
    | _ => forall p, (p < 2)%nat -> g (unknown (cell_config s f) st p) 0%nat = rconj (jones st (if s_scalar s then 0 else p)%nat) end) by exact A.
  assert (NUM : s_mode s <> FullJones -> exact (cell_config s f) (fun k => fst (fill_all s l f k)) (fun k => snd (fill_all s l f k)) (fun v => g v 0%nat)).
  { intros M p I. unfold value. destruct (BOUND p I) as (B1 & B2 & B3 & B4).
    assert (G1 : g (unknown (cell_config s f) (st1 p) (pol1 p)) 0%nat = rconj (jones (st1 p) (if s_scalar s then 0 else pol1 p)%nat)) by (specialize (AG _ B1); destruct (s_mode s); auto; congruence).
    assert (G2 : g (unknown (cell_config s f) (st2 p) (pol2 p)) 0%nat = rconj (jones (st2 p) (if s_scalar s then 0 else pol2 p)%nat)) by (specialize (AG _ B2); destruct (s_mode s); auto; congruence).
    rewrite G1, G2. clear G1 G2.
    destruct (C95_fill s l f p SO ORD LEN F I) as [(bl & h & cr & b & U & Hh & B & ->)|[(bl & h & cr & b & U & Hh & B & ->)|(-> & _)]]; cbn [fst snd].
    - destruct (H _ _ _ _ _ _ U) as [D _]. unfold corrupted in D.
      replace (data b bl h cr) with (rmul (rmul (jones (st2 p) (if s_scalar s then 0 else pol2 p)%nat) (model b bl h cr)) (rconj (jones (st1 p) (if s_scalar s then 0 else pol1 p)%nat)))
        by (symmetry; destruct (s_mode s); try congruence; now apply D). apply rc_eq; cbn; ring.
    - destruct (H _ _ _ _ _ _ U) as [D _]. unfold corrupted in D.
      replace (data b bl h cr) with (rmul (rmul (jones (st1 p) (if s_scalar s then 0 else pol1 p)%nat) (model b bl h cr)) (rconj (jones (st2 p) (if s_scalar s then 0 else pol2 p)%nat)))
        by (symmetry; destruct (s_mode s); try congruence; now apply D). apply rc_eq; cbn; ring.
    - apply rc_eq; cbn; ring. }
  destruct (s_mode s) eqn:M; try (apply NUM; congruence). clear NUM.
  intros p I. unfold value. destruct (BOUND p I) as (B1 & B2 & B3 & B4). cbn [st2 pol2 time ch pol1 st1].
  assert (IN : forall j k, (j < 2)%nat -> (k < 2)%nat -> inside (cell_config s f) (Place (st2 p) j (time p) (ch p) k (st1 p))).
  { intros j k J K. destruct I as (I1 & I2 & I3 & I4 & I5 & I6). unfold inside. cbn. auto 10. }
  unfold predicted, sum2. assert (G1 := AG _ B1). assert (G2 := AG _ B2). cbv beta in G1, G2. rewrite !G1, !G2 by lia. clear G1 G2.
  destruct (C95_fill s l f p SO ORD LEN F I) as [(bl & h & cr & b & U & Hh & B & ->)|[(bl & h & cr & b & U & Hh & B & ->)|(-> & N)]]; cbn [fst snd].
  - destruct (H _ _ _ _ _ _ U) as [D W]. unfold corrupted, fair_weights in D, W. rewrite M in D, W. destruct D as [NC D]. rewrite NC in *.
    assert (V : forall j k, (j < 2)%nat -> (k < 2)%nat -> snd (fill_all s l f (position (cell_config s f) (st2 p) j (time p) (ch p) k (st1 p))) = rscale (sqrt (weight b bl h 0)) (model b bl h (2 * j + k))).
    { intros j k J K. pose proof (fill_direct s l SO ORD LEN f (Place (st2 p) j (time p) (ch p) k (st1 p)) bl h (2 * j + k) b F (IN j k J K) U Hh ltac:(rewrite NC; unfold between; cbn; lia)) as E.
      cbn [st2 pol2 time ch pol1 st1] in E. rewrite E. cbn [snd]. rewrite W by lia. reflexivity. }
    rewrite !V by lia. assert (E : cr = (2 * pol2 p + pol1 p)%nat) by (unfold between in B; lia). rewrite (W cr) by lia. rewrite E, D by auto. unfold sum2. apply rc_eq; cbn; ring.
  - destruct (H _ _ _ _ _ _ U) as [D W]. unfold corrupted, fair_weights in D, W. rewrite M in D, W. destruct D as [NC D]. rewrite NC in *.
    assert (V : forall j k, (j < 2)%nat -> (k < 2)%nat -> snd (fill_all s l f (position (cell_config s f) (st2 p) j (time p) (ch p) k (st1 p))) = rscale (sqrt (weight b bl h 0)) (rconj (model b bl h (2 * k + j)))).
    { intros j k J K. pose proof (fill_mirror s l SO ORD LEN f (Place (st2 p) j (time p) (ch p) k (st1 p)) bl h (2 * k + j) b F (IN j k J K) U Hh ltac:(rewrite NC; unfold between; cbn; lia)) as E.
      cbn [st2 pol2 time ch pol1 st1] in E. rewrite E. cbn [snd]. rewrite W by lia. reflexivity. }
    rewrite !V by lia. assert (E : cr = (2 * pol1 p + pol2 p)%nat) by (unfold between in B; lia). rewrite (W cr) by lia. rewrite E, D by auto. unfold sum2. apply rc_eq; cbn; ring.
  - assert (V : forall j k, (j < 2)%nat -> (k < 2)%nat -> snd (fill_all s l f (position (cell_config s f) (st2 p) j (time p) (ch p) k (st1 p))) = rc0).
    { intros j k J K. destruct (C95_fill s l f (Place (st2 p) j (time p) (ch p) k (st1 p)) SO ORD LEN F (IN j k J K)) as [(bl & h & cr & b & U & Hh & B & E)|[(bl & h & cr & b & U & Hh & B & E)|(E & _)]];
        cbn [st2 pol2 time ch pol1 st1] in *; [exfalso; apply N..|rewrite E; reflexivity].
      - destruct (H _ _ _ _ _ _ U) as [D _]. unfold corrupted in D. rewrite M in D. destruct D as [NC _]. exists bl, h, (2 * pol2 p + pol1 p)%nat, b. split; [exact Hh|]. left. split; [exact U|]. rewrite NC. unfold between. lia.
      - destruct (H _ _ _ _ _ _ U) as [D _]. unfold corrupted in D. rewrite M in D. destruct D as [NC _]. exists bl, h, (2 * pol1 p + pol2 p)%nat, b. split; [exact Hh|]. right. split; [exact U|]. rewrite NC. unfold between. lia. }
    rewrite !V by lia. apply rc_eq; cbn; ring.
Qed.

Lemma cell_of_channel s ch : (0 < cell_chan s <= n_channels s)%nat -> (ch < n_channels s)%nat ->
  (ch / cell_chan s < n_cells s)%nat /\ (ch / cell_chan s * cell_chan s + ch mod cell_chan s = ch)%nat /\ (ch mod cell_chan s < cell_size s (ch / cell_chan s))%nat.
Proof.
  intros K L. destruct (C95_cells s ch K) as ([H _] & _). destruct (H L) as (f & F & i & -> & I). destruct (cell_bound s f i K F I) as [_ J]. destruct (cell_index s f i J) as [-> ->]. auto.
Qed.
Lemma unscale w a b : 0 < w -> rscale (sqrt w) a = rscale (sqrt w) b -> a = b.
Proof.
  intros W E. assert (S := sqrt_lt_R0 w W). apply rc_eq; [apply (f_equal re) in E|apply (f_equal im) in E]; cbn in E; apply (Rmult_eq_reg_l (sqrt w)); auto; lra.
Qed.
Lemma rinv_conj a : a <> rc0 -> rconj (rinv (rconj a)) = rinv a.
Proof. intros _. unfold rinv. rewrite rnorm_conj. apply rc_eq; cbn; ring. Qed.
Lemma rconj_zero a : a <> rc0 -> rconj a <> rc0.
Proof. intros N E. apply N. apply rc_eq; [apply (f_equal re) in E|apply (f_equal im) in E]; cbn in E; cbn; lra. Qed.
Lemma reciprocal_some x : x <> rc0 -> reciprocal x = Some (rinv x).
Proof. intros N. unfold reciprocal. destruct (Req_EM_T (rabs x) 0) as [E|E]; [apply rabs_0 in E; contradiction|reflexivity]. Qed.
Lemma rinv_left x : x <> rc0 -> rmul (rinv x) x = rc1.
Proof. intros N. pose proof (rinv_spec x N). rewrite <- H. apply rc_eq; cbn; ring. Qed.
(** The number of a station is cancelled by its inverse *)
Lemma cancel g1 g2 d m : g1 <> rc0 -> g2 <> rc0 -> d = rmul (rmul (rconj g1) m) g2 -> rmul (rmul (rinv (rconj g1)) d) (rconj (rinv (rconj g2))) = m.
Proof.
  intros N1 N2 ->. rewrite (rinv_conj g2 N2). transitivity (rmul (rmul (rmul (rinv (rconj g1)) (rconj g1)) m) (rmul (rinv g2) g2)); [ring|].
  rewrite (rinv_left _ (rconj_zero _ N1)), (rinv_left _ N2). ring.
Qed.

(** C95: if the gains reproduce the data exactly, the correction of the data with the solutions made of them gives the model, for all samples that took part with a weight *)
Theorem C95_corrected s l states t bl h a1 a2 b : sound s -> (forall order b, In (order, b) l -> Permutation order (seq 0 (n_channels s))) -> (length l <= interval s)%nat -> n_corr s = 4%nat ->
  used s (map snd l) t bl h a1 a2 b -> (forall cr, (cr < 4)%nat -> 0 < weight b bl h cr) -> fair_weights s b bl h ->
  let f := (h / cell_chan s)%nat in let c := cell_config s f in let g := gain (states f) in
  exactly c (fun k => fst (fill_all s l f k)) (fun k => snd (fill_all s l f k)) g ->
  flagged (states f) a1 = false -> flagged (states f) a2 = false -> invertible s c g a1 -> invertible s c g a2 ->
  exists v, correct s states b bl h = Ok (Some v) /\ forall cr, (cr < 4)%nat -> v cr = model b bl h cr.
Proof.
  intros SO ORD LEN NC U W FW f c g X F1 F2 I1 I2. pose proof SO as (K & _ & BL & _). pose proof U as (U1 & U2 & U3 & U4 & U5 & U6).
  destruct (cell_of_channel s h K U6) as (F & Hh & R). fold f in F, Hh, R. destruct (BL a1 a2 (nth_error_In _ _ U2)) as [B1 B2].
  assert (Lt : (t < interval s)%nat). { assert (t < length (map snd l))%nat by (apply nth_error_Some; congruence). rewrite map_length in H. lia. }
  assert (IN : forall p q, (p < 2)%nat -> (q < 2)%nat -> inside c (Place a1 p t (h mod cell_chan s) q a2)) by (intros p q P Q; unfold inside, c; cbn; auto 10).
  assert (FD : forall p q, (p < 2)%nat -> (q < 2)%nat -> fill_all s l f (position c a1 p t (h mod cell_chan s) q a2) =
    (rscale (sqrt (weight b bl h (2 * p + q))) (data b bl h (2 * p + q)), rscale (sqrt (weight b bl h (2 * p + q))) (model b bl h (2 * p + q)))).
  { intros p q P Q. exact (fill_direct s l SO ORD LEN f (Place a1 p t (h mod cell_chan s) q a2) bl h (2 * p + q) b F (IN p q P Q) U Hh ltac:(rewrite NC; unfold between; cbn; lia)). }
  unfold correct. fold f. fold c. rewrite (nth_error_nth _ _ (0, 0)%nat U2). unfold apply_sample. rewrite NC. cbn [Nat.eqb negb].
  unfold exactly in X. change (c_mode c) with (s_mode s) in X. unfold invertible in I1, I2. fold c in I1, I2.
  assert (NUM : s_mode s <> FullJones -> forall p q, (p < 2)%nat -> (q < 2)%nat -> g (unknown c a1 p) 0%nat <> rc0 /\ g (unknown c a2 q) 0%nat <> rc0 /\
    data b bl h (2 * p + q) = rmul (rmul (rconj (g (unknown c a1 p) 0%nat)) (model b bl h (2 * p + q))) (g (unknown c a2 q) 0%nat)).
  { intros M p q P Q. split; [destruct (s_mode s); auto; congruence|]. split; [destruct (s_mode s); auto; congruence|].
    assert (X' : exact c (fun k => fst (fill_all s l f k)) (fun k => snd (fill_all s l f k)) (fun v => g v 0%nat)) by (destruct (s_mode s); auto; congruence).
    specialize (X' _ (IN p q P Q)). unfold value in X'. cbn [st2 pol2 time ch pol1 st1] in X'. rewrite (FD p q P Q) in X'. cbn [fst snd] in X'.
    apply (unscale (weight b bl h (2 * p + q))); [apply W; lia|]. rewrite X'. apply rc_eq; cbn; ring. }
  assert (SOL : forall a, s_mode s <> FullJones -> (a < stations s)%nat -> flagged (states f) a = false -> (forall p, (p < 2)%nat -> g (unknown c a p) 0%nat <> rc0) ->
    invert c (solution c (states f) a) 0 = Some (rinv (rconj (g (unknown c a 0) 0%nat))) /\ (s_scalar s = false -> invert c (solution c (states f) a) 1 = Some (rinv (rconj (g (unknown c a 1) 0%nat))))).
  { intros a M A FL NZ. assert (Q : forall p, flagged (states f) ((a + n_st c * p) mod n_st c) = false).
    { intros p. rewrite (Nat.mul_comm (n_st c)), Nat.mod_add, Nat.mod_small by (cbn; lia). exact FL. }
    assert (Q0 : flagged (states f) (a mod n_st c) = false) by (rewrite Nat.mod_small by (cbn; lia); exact FL).
    unfold invert, solution, get_solution, unknown in *. change (c_mode c) with (s_mode s). change (scalar c) with (s_scalar s) in *.
    destruct (s_mode s) eqn:MM; try congruence; (destruct (s_scalar s); [rewrite Q0|rewrite !Q]); cbn [option_map]; fold g;
      (split; [|intros S; try discriminate S]); (rewrite reciprocal_some; [reflexivity|apply rconj_zero; first [apply (NZ 0%nat ltac:(lia))|apply (NZ 1%nat ltac:(lia))]]). }
  destruct (s_mode s) eqn:M.
  4: { clear NUM SOL. assert (MC : c_mode c = FullJones) by exact M.
       assert (SO' : forall a, (a < stations s)%nat -> flagged (states f) a = false -> forall cr, solution c (states f) a cr = Some (rconj (g a (transposed cr)))).
       { intros a A FL cr. unfold solution, get_solution. rewrite MC, Nat.mod_small by (cbn; lia). rewrite FL. reflexivity. }
       assert (INV : forall a, (a < stations s)%nat -> flagged (states f) a = false -> rsub (rmul (g a 0%nat) (g a 3%nat)) (rmul (g a 1%nat) (g a 2%nat)) <> rc0 ->
         exists i, rmul i (rconj (rsub (rmul (g a 0%nat) (g a 3%nat)) (rmul (g a 1%nat) (g a 2%nat)))) = rc1 /\
           invert c (solution c (states f) a) 0 = Some (rmul (rconj (g a 3%nat)) i) /\ invert c (solution c (states f) a) 1 = Some (rmul (rconj (g a 2%nat)) (ropp i)) /\
           invert c (solution c (states f) a) 2 = Some (rmul (rconj (g a 1%nat)) (ropp i)) /\ invert c (solution c (states f) a) 3 = Some (rmul (rconj (g a 0%nat)) i)).
       { intros a A FL NZ. exists (rinv (rconj (rsub (rmul (g a 0%nat) (g a 3%nat)) (rmul (g a 1%nat) (g a 2%nat))))). split; [apply rinv_left; now apply rconj_zero|].
         unfold invert. rewrite MC, !SO' by auto. cbn [transposed].
         replace (rsub (rmul (rconj (g a 0%nat)) (rconj (g a 3%nat))) (rmul (rconj (g a 2%nat)) (rconj (g a 1%nat)))) with (rconj (rsub (rmul (g a 0%nat) (g a 3%nat)) (rmul (g a 1%nat) (g a 2%nat))))
           by (apply rc_eq; cbn; ring). rewrite reciprocal_some by now apply rconj_zero. auto. }
       destruct (INV a1 B1 F1 I1) as (i1 & E1 & A0 & A1 & A2 & A3). destruct (INV a2 B2 F2 I2) as (i2 & E2 & C0 & C1 & C2 & C3). clear INV SO'.
       rewrite A0, A1, A2, A3, C0, C1, C2, C3. eexists. split; [reflexivity|].
       assert (DD : forall p q, (p < 2)%nat -> (q < 2)%nat -> data b bl h (2 * p + q) =
         sum2 (fun j => sum2 (fun k => rmul (rmul (rconj (el (g a1) j p)) (model b bl h (2 * j + k))) (el (g a2) k q)))).
       { intros p q P Q. specialize (X _ (IN p q P Q)). unfold value, predicted in X. cbn [st2 pol2 time ch pol1 st1] in X. unfold sum2 in X. rewrite !FD in X by lia. cbn [fst snd] in X.
         assert (WE : forall cr, (cr < 4)%nat -> weight b bl h cr = weight b bl h 0) by (unfold fair_weights in FW; rewrite M in FW; exact FW).
         rewrite (WE (2 * p + q)%nat), (WE (2 * 0 + 0)%nat), (WE (2 * 0 + 1)%nat), (WE (2 * 1 + 0)%nat), (WE (2 * 1 + 1)%nat) in X by lia.
         apply (unscale (weight b bl h 0)); [apply W; lia|]. rewrite X. unfold sum2. apply rc_eq; cbn; ring. }
       assert (D0 := DD 0%nat 0%nat ltac:(lia) ltac:(lia)). assert (D1 := DD 0%nat 1%nat ltac:(lia) ltac:(lia)). assert (D2 := DD 1%nat 0%nat ltac:(lia) ltac:(lia)). assert (D3 := DD 1%nat 1%nat ltac:(lia) ltac:(lia)).
       unfold sum2, el in D0, D1, D2, D3. cbn [Nat.mul Nat.add] in D0, D1, D2, D3. clear DD.
       assert (E1' : rmul i1 (rsub (rmul (rconj (g a1 0%nat)) (rconj (g a1 3%nat))) (rmul (rconj (g a1 1%nat)) (rconj (g a1 2%nat)))) = rc1) by (rewrite <- E1; apply rc_eq; cbn; ring).
       assert (E2' : rmul (rconj i2) (rsub (rmul (g a2 0%nat) (g a2 3%nat)) (rmul (g a2 1%nat) (g a2 2%nat))) = rc1).
       { transitivity (rconj rc1); [rewrite <- E2|]; apply rc_eq; cbn; ring. }
       clear - D0 D1 D2 D3 E1' E2'.
       assert (H : forall cr m, (cr < 4)%nat -> m = model b bl h cr -> forall x, x = rmul (rmul (rmul i1 (rsub (rmul (rconj (g a1 0%nat)) (rconj (g a1 3%nat))) (rmul (rconj (g a1 1%nat)) (rconj (g a1 2%nat))))) m) (rmul (rconj i2) (rsub (rmul (g a2 0%nat) (g a2 3%nat)) (rmul (g a2 1%nat) (g a2 2%nat)))) -> x = model b bl h cr).
       { intros cr m _ -> x ->. rewrite E1', E2'. ring. }
       intros [|[|[|[|]]]] L; [| | | |lia]; (eapply H; [lia|reflexivity|]); unfold times, herm; cbn [Nat.div Nat.modulo Nat.divmod fst snd Nat.mul Nat.add Nat.sub transposed nth]; rewrite D0, D1, D2, D3; apply rc_eq; cbn; ring. }
  all: destruct (SOL a1 ltac:(congruence) B1 F1 I1) as [A0 A1]; destruct (SOL a2 ltac:(congruence) B2 F2 I2) as [C0 C1];
    assert (NM : forall p q, (p < 2)%nat -> (q < 2)%nat -> rmul (rmul (rinv (rconj (g (unknown c a1 p) 0%nat))) (data b bl h (2 * p + q))) (rconj (rinv (rconj (g (unknown c a2 q) 0%nat)))) = model b bl h (2 * p + q))
      by (intros p q P Q; destruct (NUM ltac:(congruence) p q P Q) as (N1 & N2 & E); now apply cancel);
    clear SOL NUM; destruct (s_scalar s) eqn:SS.
  all: try (rewrite A0, C0; eexists; (split; [reflexivity|]); intros cr L;
    assert (UN : forall a p q, unknown c a p = unknown c a q) by (intros a p q; unfold unknown; change (scalar c) with (s_scalar s); rewrite SS; reflexivity);
    pose proof (Nat.div_mod cr 2 ltac:(lia)) as EC; pose proof (Nat.mod_upper_bound cr 2 ltac:(lia)); assert (cr / 2 < 2)%nat by (apply Nat.div_lt_upper_bound; lia);
    specialize (NM (cr / 2)%nat (cr mod 2)%nat ltac:(lia) ltac:(lia)); rewrite <- EC in NM; rewrite <- NM, (UN a1 (cr / 2)%nat 0%nat), (UN a2 (cr mod 2)%nat 0%nat); ring).
  all: rewrite A0, (A1 eq_refl), C0, (C1 eq_refl); eexists; (split; [reflexivity|]);
    assert (N0 := NM 0%nat 0%nat ltac:(lia) ltac:(lia)); assert (N1 := NM 0%nat 1%nat ltac:(lia) ltac:(lia)); assert (N2 := NM 1%nat 0%nat ltac:(lia) ltac:(lia)); assert (N3 := NM 1%nat 1%nat ltac:(lia) ltac:(lia));
    cbn [Nat.mul Nat.add] in N0, N1, N2, N3; clear - N0 N1 N2 N3;
    intros [|[|[|[|]]]] L; [rewrite <- N0|rewrite <- N1|rewrite <- N2|rewrite <- N3|lia]; unfold times, herm, diagonal; cbn [Nat.div Nat.modulo Nat.divmod fst snd Nat.mul Nat.add Nat.sub transposed nth]; apply rc_eq; cbn; ring.
Qed.

(** C95: data of a baseline of which a station has no solution are flagged and left as they are *)
Theorem C95_flagged s states b bl h a1 a2 : n_corr s = 4%nat -> nth_error (baselines s) bl = Some (a1, a2) -> (a1 < stations s)%nat -> (a2 < stations s)%nat ->
  flagged (states (h / cell_chan s)%nat) a1 = true \/ flagged (states (h / cell_chan s)%nat) a2 = true -> correct s states b bl h = Ok None.
Proof.
  intros NC U A1 A2 H. unfold correct. rewrite (nth_error_nth _ _ (0, 0)%nat U). set (f := (h / cell_chan s)%nat) in *. set (c := cell_config s f).
  assert (N : forall a cr, (a < stations s)%nat -> flagged (states f) a = true -> invert c (solution c (states f) a) cr = None).
  { intros a cr A F. assert (Q : forall p, flagged (states f) ((a + n_st c * p) mod n_st c) = true).
    { intros p. rewrite (Nat.mul_comm (n_st c)), Nat.mod_add, Nat.mod_small by (cbn; lia). exact F. }
    assert (Q0 : flagged (states f) (a mod n_st c) = true) by (rewrite Nat.mod_small by (cbn; lia); exact F).
    unfold invert, solution, get_solution. change (c_mode c) with (s_mode s). change (scalar c) with (s_scalar s).
    destruct (s_mode s), (s_scalar s); rewrite ?Q0, ?Q; reflexivity. }
  unfold apply_sample. rewrite NC. cbn [Nat.eqb negb]. destruct H as [F|F]; destruct (s_mode s), (s_scalar s); rewrite ?(N a1), ?(N a2) by auto; auto;
    repeat match goal with |- context [match ?x with Some _ => _ | None => _ end] => destruct x; auto end.
Qed.

Section Run.
Context {buf sols memory : Type} (calibrate : memory -> list buf -> memory * sols) (apply_solution : buf -> sols -> buf) (apply : bool) (asked n_times : nat).
Notation step := (process buf sols memory calibrate apply_solution apply asked n_times).
Notation n := (sol_interval asked n_times).
Fixpoint after (m : memory) (ls : list (list buf)) : memory := match ls with [] => m | l :: ls => after (fst (calibrate m l)) ls end.
Lemma calibrated_app m ls sls l : calibrated calibrate m ls sls -> calibrated calibrate m (ls ++ [l]) (sls ++ [snd (calibrate (after m ls) l)]) /\ after m (ls ++ [l]) = fst (calibrate (after m ls) l).
Proof.
  intros C. induction C as [m|m m' l0 sol0 ls sls E C IH]; cbn [after app].
  - split; [|reflexivity]. econstructor; [apply surjective_pairing|constructor].
  - rewrite E. cbn [fst]. destruct IH as [H H']. split; [|exact H']. econstructor; eauto.
Qed.
Notation corrected := (corrected apply_solution).
Lemma calibrated_length m ls sls : calibrated calibrate m ls sls -> length ls = length sls.
Proof. induction 1; cbn; congruence. Qed.
Lemma corrected_app ls sls l sol : length ls = length sls -> corrected (ls ++ [l]) (sls ++ [sol]) = corrected ls sls ++ map (fun b => apply_solution b sol) l.
Proof.
  revert sls. induction ls as [|a ls IH]; intros [|c sls] E; try discriminate E; [cbn; apply app_nil_r|]. unfold CalSpec.corrected in *. cbn. rewrite IH by (cbn in E; lia). apply app_assoc.
Qed.
Definition invariant (m : memory) (l : list buf) (st : step_state buf sols memory) : Prop :=
  exists ls, Forall (fun i => length i = n) ls /\ calibrated calibrate m ls (all_sols _ _ _ st) /\ after m ls = kept _ _ _ st /\ concat ls ++ pending _ _ _ st = l /\
    (length (pending _ _ _ st) < n)%nat /\ out _ _ _ st = if apply then corrected ls (all_sols _ _ _ st) else l.
Lemma invariant_step m l st b : (asked <> 0)%nat \/ apply = false -> invariant m l st -> exists st', step st b = Ok st' /\ invariant m (l ++ [b]) st'.
Proof.
  intros N (ls & W & C & A & L & P & O). unfold process. destruct st as [k p o a]. cbn [kept pending out all_sols] in *.
  assert (G : (apply && (asked <=? length p)%nat)%bool = false).
  { destruct N as [N| ->]; [|reflexivity]. unfold sol_interval in P. destruct (Nat.eqb_spec asked 0); [lia|]. destruct (Nat.leb_spec asked (length p)); [lia|]. apply andb_false_r. }
  rewrite G. eexists. split; [reflexivity|].
  destruct (Nat.eqb_spec (length (p ++ [b])) n) as [E|E].
  - unfold end_interval. cbn [kept pending out all_sols]. destruct (calibrate k (p ++ [b])) as [k' sol] eqn:K. destruct (calibrated_app m ls a (p ++ [b]) C) as [C' A']. rewrite A, K in C', A'. cbn [fst snd] in C', A'.
    exists (ls ++ [p ++ [b]]). split; [apply Forall_app; auto|]. destruct apply; cbn [kept pending out all_sols];
      (split; [exact C'|]; split; [exact A'|]; split; [rewrite concat_app; cbn; rewrite !app_nil_r, <- L; now rewrite app_assoc|]; split; [cbn; lia|]).
    + rewrite O, (corrected_app _ _ _ _ (calibrated_length _ _ _ C)). reflexivity.
    + rewrite O, app_nil_r. reflexivity.
  - exists ls. rewrite app_length in E. cbn in E. split; [exact W|]. destruct apply; cbn [kept pending out all_sols];
      (split; [exact C|]; split; [exact A|]; split; [rewrite <- L; now rewrite app_assoc|]; split; [rewrite app_length; cbn; lia|]); [exact O|now rewrite O].
Qed.
Lemma whole_intervals ls : Forall (fun i : list buf => length i = n) ls -> intervals n ls.
Proof. induction 1; constructor; auto. Qed.
Lemma last_interval ls l : Forall (fun i : list buf => length i = n) ls -> (0 < length l <= n)%nat -> intervals n (ls ++ [l]).
Proof. intros W L. induction W; cbn; [now apply Last|now apply Whole]. Qed.

(** C95: every buffer is in one solution interval, the intervals are consecutive, and all have the same number of buffers but the last one, which has what is left.  All buffers are handed on
    once, in the order in which they came, with the solutions of their own interval applied if that was asked for *)
Theorem C95_run m l : (0 < asked)%nat \/ (apply = false /\ 0 < n_times)%nat -> exists r, run buf sols memory calibrate apply_solution apply asked n_times m l = Ok r /\
  exists ls, concat ls = l /\ intervals (if (asked =? 0)%nat then n_times else asked) ls /\ calibrated calibrate m ls (all_sols _ _ _ r) /\ pending _ _ _ r = [] /\
    out _ _ _ r = if apply then corrected ls (all_sols _ _ _ r) else l.
Proof.
  intros N. assert (N' : (asked <> 0)%nat \/ apply = false) by (destruct N; [left; lia|right; tauto]).
  assert (NN : (0 < n)%nat) by (unfold sol_interval; destruct (Nat.eqb_spec asked 0); lia).
  fold n. assert (I : exists st, fold_left (fun o b => match o with Ok st => step st b | o => o end) l (Ok (StepState _ _ _ m [] [] [])) = Ok st /\ invariant m l st).
  { assert (G : forall l done st, invariant m done st -> exists st', fold_left (fun o b => match o with Ok st => step st b | o => o end) l (Ok st) = Ok st' /\ invariant m (done ++ l) st').
    { clear - N'. induction l as [|b l IH]; intros done st H; cbn [fold_left]; [exists st; now rewrite app_nil_r|]. destruct (invariant_step m done st b N' H) as (st1 & E & H1). rewrite E.
      replace (done ++ b :: l) with ((done ++ [b]) ++ l) by now rewrite <- app_assoc. now apply IH. }
    apply (G l [] (StepState _ _ _ m [] [] [])). exists []. cbn. split; [constructor|]. split; [constructor|]. repeat (split; [reflexivity || exact NN|]). now destruct apply. }
  unfold run. destruct I as (st & -> & ls & W & C & A & L & P & O). eexists. split; [reflexivity|]. unfold finish. destruct st as [k p o a]. cbn [kept pending out all_sols] in *.
  destruct (Nat.eqb_spec (length p) 0) as [E|E].
  - apply length_zero_iff_nil in E. subst p. rewrite app_nil_r in L. exists ls. cbn [kept pending out all_sols]. split; [exact L|]. split; [now apply whole_intervals|]. split; [exact C|]. split; [reflexivity|exact O].
  - unfold end_interval. cbn [kept pending out all_sols]. destruct (calibrate k p) as [k' sol] eqn:K. destruct (calibrated_app m ls a p C) as [C' _]. rewrite A, K in C'. cbn [snd] in C'. exists (ls ++ [p]). cbn [kept pending out all_sols].
    split; [rewrite concat_app; cbn; now rewrite app_nil_r|]. split; [apply last_interval; auto; lia|]. split; [exact C'|]. split; [reflexivity|]. rewrite O. destruct apply; [|apply app_nil_r]. symmetry. apply corrected_app. eapply calibrated_length; eauto.
Qed.
End Run.

(** C95: with one correlation and a gain per feed, every station is flagged whatever the data are *)
Theorem C95_one_correlation s l f order g : sound s -> (forall order b, In (order, b) l -> Permutation order (seq 0 (n_channels s))) -> (length l <= interval s)%nat -> (f < n_cells s)%nat ->
  n_corr s = 1%nat -> s_mode s <> FullJones -> s_scalar s = false -> let c := cell_config s f in Permutation order (seq 0 (n_un c)) ->
  forall st, (st < stations s)%nat -> flagged (half_step c (fun k => fst (fill_all s l f k)) (fun k => snd (fill_all s l f k)) order g) st = true.
Proof.
  intros SO ORD LEN F NC M SC c P st ST. apply not_false_is_true. intros FL.
  assert (MC : c_mode c <> FullJones) by exact M.
  assert (U : (st + n_st c * 1 < n_un c)%nat). { unfold n_un. change (scalar c) with (s_scalar s). rewrite SC. change (n_st c) with (stations s). destruct (c_mode c); try congruence; lia. }
  assert (L := places_all c (st + n_st c * 1) MC U).
  assert (E := C94_estimate c (fun k => fst (fill_all s l f k)) (fun k => snd (fill_all s l f k)) order g _ _ MC P U L).
  cbn zeta in E. rewrite (Nat.mul_comm (n_st c)), Nat.mod_add, Nat.mod_small in E by (change (n_st c) with (stations s); lia). rewrite (Nat.mul_comm 1) in E. specialize (E FL). destruct L as [_ L].
  assert (Z : forall p, In p (places c (st + n_st c * 1)) -> value c (fun k => snd (fill_all s l f k)) p = rc0).
  { intros p I. apply L in I as [I J]. assert (Q : pol1 p = 1%nat).
    { unfold unknown in J. change (scalar c) with (s_scalar s) in J. rewrite SC in J. destruct I as (_ & _ & _ & _ & I & I'). change (n_st c) with (stations s) in *. destruct (pol1 p) as [|[|]]; lia. }
    unfold value. destruct (C95_fill s l f p SO ORD LEN F I) as [(bl & h & cr & b & _ & _ & B & _)|[(bl & h & cr & b & _ & _ & B & _)|(E' & _)]]; [unfold between in B; lia..|].
    fold c in E'. rewrite E'. reflexivity. }
  assert (K : forall x y, misfit c (fun k => fst (fill_all s l f k)) (fun k => snd (fill_all s l f k)) (fun v => gain g v 0%nat) (places c (st + n_st c * 1)) x =
    misfit c (fun k => fst (fill_all s l f k)) (fun k => snd (fill_all s l f k)) (fun v => gain g v 0%nat) (places c (st + n_st c * 1)) y).
  { intros x y. unfold misfit. f_equal. apply map_ext_in. intros p I. rewrite (Z p I). f_equal. apply rc_eq; cbn; ring. }
  set (cost := misfit _ _ _ _ _) in *. set (x := gain _ _ _) in E.
  assert (H : exists ok x, best ok cost x /\ exists y, ok y /\ y <> x).
  { unfold estimate in E. destruct (c_mode c).
    - exists (fun _ => True), x. split; [exact E|]. exists (radd x rc1). split; [exact I|]. intros X. apply (f_equal re) in X. cbn in X. lra.
    - exists (fun y => rabs y = 1), x. split; [exact E|]. exists (ropp x). destruct E as [E _]. split.
      + unfold rabs in *. replace (rnorm (ropp x)) with (rnorm x) by (unfold rnorm; cbn; ring). exact E.
      + intros X. assert (x = rc0) by (apply rc_eq; [apply (f_equal re) in X|apply (f_equal im) in X]; cbn in *; lra). rewrite H in E. assert (rabs rc0 = 0) by now apply rabs_0. lra.
    - destruct E as (y & B & _). exists (fun _ => True), y. split; [exact B|]. exists (radd y rc1). split; [exact I|]. intros X. apply (f_equal re) in X. cbn in X. lra.
    - congruence. }
  destruct H as (ok & v & [_ B] & y & O & D). specialize (B y O D). rewrite (K v y) in B. lra.
Qed.

(** Two stations, one baseline, one channel and one time *)
Definition pair (m : mode) (sc : bool) (nc : nat) : setting := Setting [(0, 1)%nat] (fun _ => true) nc 1 1 2 1 m sc 0 false.
(** The model is the unit matrix; the Jones matrix of the first station has leakage, the other one is the unit matrix *)
Definition leak (w : nat -> R) : slot :=
  Slot (fun _ _ cr => match cr with 2%nat => rc0 | _ => rc1 end) (fun _ _ cr => match cr with 0%nat | 3%nat => rc1 | _ => rc0 end) (fun _ _ cr => w cr) (fun _ _ => false).
Definition leak_jones (st cr : nat) : rc := match st, cr with _, 0%nat | _, 3%nat | 0%nat, 1%nat => rc1 | _, _ => rc0 end.
Definition leak_gains : gains := fun st cr => rconj (leak_jones st (transposed cr)).
Lemma pair_sound m sc nc : (nc = 1 \/ nc = 2 \/ nc = 4)%nat -> sound (pair m sc nc).
Proof.
  intros N. split; [cbn; lia|]. split; [exact N|]. split.
  - intros a1 a2 [E|[]]. injection E as <- <-. cbn. lia.
  - intros [|[|]] [|[|]] a1 a2 b1 b2 H; cbn in *; try discriminate; auto.
Qed.
Lemma pair_order x m sc nc order (b : slot) : In (order, b) [([0%nat], x)] -> Permutation order (seq 0 (n_channels (pair m sc nc))).
Proof. intros [E|[]]. injection E as <- _. apply Permutation_refl. Qed.
Lemma pair_used m sc nc l t bl h a1 a2 b : used (pair m sc nc) [l] t bl h a1 a2 b -> t = 0%nat /\ bl = 0%nat /\ h = 0%nat /\ a1 = 0%nat /\ a2 = 1%nat /\ b = l.
Proof.
  intros (U1 & U2 & _ & _ & _ & U6). cbn in *. destruct t as [|[|]]; cbn in U1; try discriminate. destruct bl as [|[|]]; cbn in U2; try discriminate.
  injection U1 as <-. injection U2 as <- <-. assert (h = 0)%nat by lia. auto 10.
Qed.
Lemma leak_corrupted w : corrupted (pair FullJones false 4) leak_jones (leak w) 0 0 0 1.
Proof.
  split; [reflexivity|]. intros [|[|]] [|[|]] P Q; try lia; unfold sum2, el; cbn; apply rc_eq; cbn; ring.
Qed.
Lemma leak_agrees c : agrees (pair FullJones false 4) c leak_gains leak_jones.
Proof. intros st _ i j I J. unfold el, leak_gains. destruct i as [|[|]], j as [|[|]]; try lia; reflexivity. Qed.

(** C95 refuted for a solution interval that is the whole observation (solint=0) whose solutions are applied: the vector that the buffers are kept in until there is a solution gets the length of the parset,
    which is zero, before zero is replaced by the number of times; so the first buffer is already stored outside of it *)
Theorem C95_all_times_refuted : exists (l : list nat) (calibrate : unit -> list nat -> unit * nat) apply_solution, (length l = 2)%nat /\ run nat nat unit calibrate apply_solution true 0 (length l) tt l = Undefined.
Proof. exists [1; 2]%nat, (fun _ _ => (tt, 0%nat)), (fun b _ => b). split; reflexivity. Qed.

(** C95 refuted for weights that are not the same for the correlations of a sample: the data are exactly those of the model as seen through the Jones matrices of the stations, all weights are positive, but
    the true gains are not kept.  The code multiplies each correlation of the data and of the model with its own weight, and the matrix product of weighted elements is not the weighted product *)
Theorem C95_weights_refuted : exists s l jones g order, let c := cell_config s 0 in
  sound s /\ (forall order b, In (order, b) l -> Permutation order (seq 0 (n_channels s))) /\ (length l = interval s)%nat /\ s_mode s = FullJones /\
  (forall t bl h a1 a2 b, used s (map snd l) t bl h a1 a2 b -> corrupted s jones b bl h a1 a2 /\ forall cr, 0 < weight b bl h cr) /\ agrees s c g jones /\
  let r := half_step c (fun k => fst (fill_all s l 0%nat k)) (fun k => snd (fill_all s l 0%nat k)) order (State g (fun _ => false)) in
  flagged r 0 = false /\ gain r 0%nat 2%nat <> g 0%nat 2%nat.
Proof.
  set (w := fun cr => match cr with 1%nat => 4 | _ => 1 end). exists (pair FullJones false 4), [([0%nat], leak w)], leak_jones, leak_gains, []. cbn zeta.
  split; [apply pair_sound; auto|]. split; [apply pair_order|]. split; [reflexivity|]. split; [reflexivity|]. split; [|split; [apply leak_agrees|]].
  { intros t bl h a1 a2 b U. apply pair_used in U as (-> & -> & -> & -> & -> & ->). split; [apply leak_corrupted|]. intros [|[|]]; cbn; lra. }
  unfold half_step. cbn [c_mode cell_config pair s_mode]. set (c := cell_config (pair FullJones false 4) 0). set (l := [([0%nat], leak w)]).
  set (vis := fun k => fst (fill_all (pair FullJones false 4) l 0%nat k)). set (mvis := fun k => snd (fill_all (pair FullJones false 4) l 0%nat k)).
  assert (D : forall p q, (p < 2)%nat -> (q < 2)%nat -> fill_all (pair FullJones false 4) l 0%nat (position c 1 q 0 0 p 0) =
    (rscale (sqrt (w (2 * p + q)%nat)) (rconj (data (leak w) 0 0 (2 * p + q)%nat)), rscale (sqrt (w (2 * p + q)%nat)) (rconj (model (leak w) 0 0 (2 * p + q)%nat)))).
  { intros p q P Q. refine (fill_mirror (pair FullJones false 4) l (pair_sound _ _ _ ltac:(auto)) (pair_order _ _ _ _) ltac:(cbn; lia) 0 (Place 1 q 0 0 p 0) 0 0 (2 * p + q) (leak w) ltac:(cbn; lia) _ _ eq_refl _).
    - unfold inside; cbn; lia.
    - repeat split; cbn; auto.
    - unfold between; cbn; lia. }
  assert (Z : forall p q, (p < 2)%nat -> (q < 2)%nat -> fill_all (pair FullJones false 4) l 0%nat (position c 0 q 0 0 p 0) = (rc0, rc0)).
  { intros p q P Q. pose proof (C95_fill (pair FullJones false 4) l 0 (Place 0 q 0 0 p 0) (pair_sound _ _ _ ltac:(auto)) (pair_order _ _ _ _) ltac:(cbn; lia) ltac:(cbn; lia) ltac:(unfold inside; cbn; lia)) as E.
    cbn [st2 pol2 time ch pol1 st1] in E. destruct E as [(bl & h & cr & b & (_ & _ & _ & N & _) & _)|[(bl & h & cr & b & (_ & _ & _ & N & _) & _)|(E & _)]]; [cbn in N; lia..|exact E]. }
  assert (S4 : sqrt 4 = 2) by (replace 4 with (2 * 2) by ring; apply sqrt_square; lra).
  assert (V : forall q p, (q < 2)%nat -> (p < 2)%nat -> vis (position c 1 q 0 0 p 0) = match p, q with 0%nat, 1%nat => RC 2 0 | 1%nat, 0%nat => rc0 | _, _ => rc1 end /\ mvis (position c 1 q 0 0 p 0) = if (p =? q)%nat then rc1 else rc0).
  { intros q p Q P. unfold vis, mvis. rewrite (D p q P Q). cbn [fst snd]. destruct p as [|[|]], q as [|[|]]; try lia; cbn; rewrite ?S4, ?sqrt_1; split; apply rc_eq; cbn; ring. }
  assert (V0 : forall q p, (q < 2)%nat -> (p < 2)%nat -> vis (position c 0 q 0 0 p 0) = rc0 /\ mvis (position c 0 q 0 0 p 0) = rc0) by (intros q p Q P; unfold vis, mvis; now rewrite (Z p q P Q)).
  clearbody vis mvis. clear D Z.
  assert (V1 := fun q p Q P => proj1 (V q p Q P)). assert (V2 := fun q p Q P => proj2 (V q p Q P)). assert (V3 := fun q p Q P => proj1 (V0 q p Q P)). assert (V4 := fun q p Q P => proj2 (V0 q p Q P)). clear V V0.
  set (h := fun st cr => rconj (leak_gains st cr)).
  assert (H1 : h 1%nat 0%nat = rc1 /\ h 1%nat 1%nat = rc0 /\ h 1%nat 2%nat = rc0 /\ h 1%nat 3%nat = rc1) by (repeat split; apply rc_eq; cbn; ring). destruct H1 as (H0 & H1 & H2 & H3).
  assert (Z1 : forall cr, (cr < 4)%nat -> z_of c mvis h 0 1 0 0 cr = (if (cr =? 0) || (cr =? 3) then rc1 else rc0)%nat%bool).
  { intros [|[|[|[|]]]] L; try lia; unfold z_of; rewrite H0, H2 || rewrite H1, H3; rewrite !V2 by lia; apply rc_eq; cbn; ring. }
  assert (Z0 : forall cr, (cr < 4)%nat -> z_of c mvis h 0 0 0 0 cr = rc0).
  { intros [|[|[|[|]]]] L; try lia; unfold z_of; rewrite !V4 by lia; apply rc_eq; cbn; ring. }
  assert (T : forall f, total c f = radd (radd rc0 (f 0%nat 0%nat 0%nat)) (f 0%nat 0%nat 1%nat)) by reflexivity.
  assert (W0 : w_of c mvis h 0 0 = rc1) by (unfold w_of; rewrite T, !Z0, !Z1 by lia; apply rc_eq; cbn; ring).
  assert (W1 : w_of c mvis h 0 1 = rc0) by (unfold w_of; rewrite T, !Z0, !Z1 by lia; apply rc_eq; cbn; ring).
  assert (W2 : w_of c mvis h 0 2 = rc0) by (unfold w_of; rewrite T, !Z0, !Z1 by lia; apply rc_eq; cbn; ring).
  assert (W3 : w_of c mvis h 0 3 = rc1) by (unfold w_of; rewrite T, !Z0, !Z1 by lia; apply rc_eq; cbn; ring).
  assert (T2 : t_of c vis mvis h 0 2 = RC 2 0).
  { unfold t_of. rewrite T, !Z0, !Z1 by lia. rewrite !V1, !V3 by lia. apply rc_eq; cbn; ring. }
  unfold step_polarized. cbn [gain]. fold h.
  destruct (proj2 (fold_station c vis mvis leak_gains (seq 0 (n_st c)) (State leak_gains (fun _ => false)) 0%nat (seq_NoDup _ _)) ltac:(cbn; auto)) as [(E & _)|[(_ & E & _)|(_ & _ & E & G)]]; [discriminate E| |].
  - exfalso. revert E. unfold det_of, det2. rewrite <- w0, <- w1, <- w2, <- w3. fold h. rewrite W0, W1, W2, W3. intros X. apply (f_equal re) in X. cbn in X. lra.
  - fold h in E, G. split; [exact E|]. rewrite (G 2%nat ltac:(lia)). unfold fitted_matrix, sol1. rewrite det2_rows. unfold det_of, det2. rewrite <- w0, <- w1, <- w2, <- w3, <- t0, <- t2. fold h. rewrite W0, W1, W2, W3, T2.
    replace (rsub (rmul rc1 rc1) (rmul rc0 rc0)) with rc1 by (apply rc_eq; cbn; ring).
    replace (rinv rc1) with rc1 by (rewrite <- (rinv_spec rc1) at 1; [ring|intros X; apply (f_equal re) in X; cbn in X; lra]). intros X. apply (f_equal re) in X. cbn in X. lra.
Qed.

(** C95 refuted for one correlation and a gain per feed: the data are exactly those of the model as seen through the gains of the stations, but whatever gains are started from, no station has a solution after the first
    estimate.  The unknowns of the second feed have no data, and without data for one of its feeds a station is flagged *)
Theorem C95_one_correlation_refuted : exists s l jones, let c := cell_config s 0 in
  sound s /\ (forall order b, In (order, b) l -> Permutation order (seq 0 (n_channels s))) /\ (length l = interval s)%nat /\ s_mode s = Default /\
  (exists t bl h a1 a2 b, used s (map snd l) t bl h a1 a2 b /\ 0 < weight b bl h 0 /\ model b bl h 0%nat <> rc0) /\
  (forall t bl h a1 a2 b, used s (map snd l) t bl h a1 a2 b -> corrupted s jones b bl h a1 a2) /\
  forall order g st, Permutation order (seq 0 (n_un c)) -> (st < stations s)%nat ->
    flagged (half_step c (fun k => fst (fill_all s l 0%nat k)) (fun k => snd (fill_all s l 0%nat k)) order g) st = true.
Proof.
  exists (pair Default false 1), [([0%nat], leak (fun _ => 1))], (fun _ _ => rc1). cbn zeta.
  split; [apply pair_sound; auto|]. split; [apply pair_order|]. split; [reflexivity|]. split; [reflexivity|]. split; [|split].
  - exists 0%nat, 0%nat, 0%nat, 0%nat, 1%nat, (leak (fun _ => 1)). split; [repeat split; cbn; auto|]. cbn. split; [lra|]. intros X. apply (f_equal re) in X. cbn in X. lra.
  - intros t bl h a1 a2 b U. apply pair_used in U as (-> & -> & -> & -> & -> & ->). intros cr p q B. unfold between in B. cbn in B. assert (cr = 0%nat) by lia. subst cr. apply rc_eq; cbn; ring.
  - intros order g st P ST. apply C95_one_correlation; auto; try reflexivity; try (cbn; lia); try discriminate; [apply pair_sound; auto|apply pair_order].
Qed.

(** * Examples *)
Example ten_channels : let s := Setting [] (fun _ => true) 4 10 4 2 1 Default false 0 false in
  n_cells s = 3%nat /\ cell_size s 0 = 4%nat /\ cell_size s 2 = 2%nat /\ cell_of s 9 2.
Proof. repeat split. exists 1%nat. cbn. lia. Qed.
Definition alike : slot := leak (fun _ => 1).
Lemma alike_used : used (pair FullJones false 4) [alike] 0 0 0 0 1 alike.
Proof. repeat split; cbn; auto. Qed.
Example leak_filled : fill_all (pair FullJones false 4) [([0%nat], alike)] 0%nat (position (cell_config (pair FullJones false 4) 0) 0 0 0 0 1 1) = (rc1, rc0).
Proof.
  assert (E := fill_direct (pair FullJones false 4) [([0%nat], alike)] (pair_sound _ _ _ ltac:(auto)) (pair_order _ _ _ _) ltac:(cbn; lia) 0 (Place 0 0 0 0 1 1) 0 0 1 alike
    ltac:(cbn; lia) ltac:(unfold inside; cbn; lia) alike_used eq_refl ltac:(unfold between; cbn; lia)).
  cbn [st2 pol2 time ch pol1 st1] in E. rewrite E. cbn. rewrite sqrt_1. f_equal; apply rc_eq; cbn; ring.
Qed.
Lemma leak_exact : exactly (cell_config (pair FullJones false 4) 0) (fun k => fst (fill_all (pair FullJones false 4) [([0%nat], alike)] 0%nat k)) (fun k => snd (fill_all (pair FullJones false 4) [([0%nat], alike)] 0%nat k)) leak_gains.
Proof.
  apply (C95_exact _ _ leak_jones); [apply pair_sound; auto|apply pair_order|cbn; lia|cbn; lia| |apply leak_agrees].
  intros t bl h a1 a2 b U. apply pair_used in U as (-> & -> & -> & -> & -> & ->). split; [apply leak_corrupted|]. intros cr L. reflexivity.
Qed.
Example leak_corrected : exists v, correct (pair FullJones false 4) (fun _ => State leak_gains (fun _ => false)) alike 0 0 = Ok (Some v) /\ forall cr, (cr < 4)%nat -> v cr = if ((cr =? 0) || (cr =? 3))%nat%bool then rc1 else rc0.
Proof.
  destruct (C95_corrected (pair FullJones false 4) [([0%nat], alike)] (fun _ => State leak_gains (fun _ => false)) 0 0 0 0 1 alike (pair_sound _ _ _ ltac:(auto)) (pair_order _ _ _ _) ltac:(cbn; lia) eq_refl alike_used) as (v & E & V).
  - intros cr _. cbn. lra.
  - intros cr L. reflexivity.
  - exact leak_exact.
  - reflexivity.
  - reflexivity.
  - intros X. apply (f_equal re) in X. cbn in X. lra.
  - intros X. apply (f_equal re) in X. cbn in X. lra.
  - exists v. split; [exact E|]. intros cr L. rewrite (V cr L). destruct cr as [|[|[|[|]]]]; try lia; reflexivity.
Qed.
Example leak_flagged : correct (pair FullJones false 4) (fun _ => State leak_gains (fun st => st =? 1)%nat) alike 0 0 = Ok None.
Proof. apply (C95_flagged _ _ _ _ _ 0 1); cbn; auto; lia. Qed.
Example five_buffers : run nat nat nat (fun m l => (S m, (10 * m + length l)%nat)) (fun b sol => (100 * sol + b)%nat) true 2 5 1%nat [1; 2; 3; 4; 5]%nat =
  Ok (StepState _ _ _ 4%nat [] [1201; 1202; 2203; 2204; 3105]%nat [12; 22; 31]%nat).
Proof. vm_compute. reflexivity. Qed.

Print Assumptions C95_cells.
Print Assumptions C95_fill.
Print Assumptions C95_exact.
Print Assumptions C95_corrected.
Print Assumptions C95_flagged.
Print Assumptions C95_run.
Print Assumptions C95_one_correlation.
Print Assumptions C95_all_times_refuted.
Print Assumptions C95_weights_refuted.
Print Assumptions C95_one_correlation_refuted.
