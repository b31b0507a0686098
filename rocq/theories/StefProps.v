(** Properties of the estimates of the gains of the stations. *)
From Coq Require Import Reals List Arith Bool Lia Lra Permutation Psatz.
From Verif Require Import RealCplx StefModel StefSpec StefProofs.
Import ListNotations.
Open Scope R_scope.

(** C94: a new gain is the best one for the data of its feeds, given the old gains of all others; with a constraint, it is the best phase, or the amplitude of
    the best gain.  Stations are not unflagged *)
Theorem C94_estimate c vis mvis order s u l : c_mode c <> FullJones -> Permutation order (seq 0 (n_un c)) -> (u < n_un c)%nat -> lists_all c u l ->
  let s' := half_step c vis mvis order s in
  flagged s' (u mod n_st c) = false ->
  estimate (c_mode c) (misfit c vis mvis (fun v => gain s v 0%nat) l) (gain s' u 0%nat).
Proof.
  intros M P U L s' F. assert (H : s' = step_unpolarized c vis mvis order s) by (unfold s', half_step; destruct (c_mode c); auto; congruence).
  rewrite H in *. clear H s'. unfold step_unpolarized in *. destruct (perm_order c order P) as [N I]. set (g := fun v => gain s v 0%nat) in *.
  destruct (fold_unflagged c vis mvis g M order s u) as [NU G]; auto; try (intros v; apply I); [now apply I|]. cbv beta in G. fold g in G. unfold g in G at 1.
  assert (Pm := lists_perm c u l M U L). destruct (pairs_perm c vis mvis g _ _ Pm) as [EW EI].
  assert (C1 : forall x, misfit c vis mvis g l x = cost (pairs c vis mvis g (places c u)) x).
  { intros x. rewrite misfit_cost. unfold cost, pairs. rewrite !map_map. apply rsum_perm. now apply Permutation_map. }
  unfold useless in NU. set (d := pairs c vis mvis g (places c u)) in *.
  assert (W : weight d <> 0) by tauto. assert (T : inner d <> rc0) by tauto.
  assert (X : gain (fold_left (solve_unknown c vis mvis (fun ant => rconj (gain s ant 0%nat))) order s) u 0%nat = fitted c vis mvis g u) by exact G.
  rewrite X. unfold fitted. fold d. pose proof (best_default d W) as [_ B]. pose proof (best_phase d W T) as [B1 B2].
  destruct (c_mode c); cbn [constrain estimate].
  - split; auto. intros y Y Q. rewrite !C1. auto.
  - split; auto. intros y Y Q. rewrite !C1. auto.
  - exists (rscale (/ weight d) (inner d)). split; auto. split; auto. intros y Y Q. rewrite !C1. auto.
  - split; auto. intros y Y Q. rewrite !C1. auto.
Qed.

Lemma unpolarized c vis mvis order s : c_mode c <> FullJones -> half_step c vis mvis order s = step_unpolarized c vis mvis order s.
Proof. intros M. unfold half_step. destruct (c_mode c); auto; congruence. Qed.

(** C94: a station is flagged if and only if it was so, or one of its gains has nothing to fit: then a gain of zero is as good as any.  Flagged stations keep their gains *)
Theorem C94_flagged c vis mvis order s st : c_mode c <> FullJones -> Permutation order (seq 0 (n_un c)) -> (st < n_st c)%nat ->
  let s' := half_step c vis mvis order s in
  (flagged s' st = true -> flagged s st = true \/
     exists u, (u < n_un c)%nat /\ (u mod n_st c = st)%nat /\ forall l, lists_all c u l -> forall x, misfit c vis mvis (fun v => gain s v 0%nat) l rc0 <= misfit c vis mvis (fun v => gain s v 0%nat) l x) /\
  (flagged s' st = false -> flagged s st = false) /\
  (flagged s st = true -> flagged s' st = true /\ forall u, (u mod n_st c = st)%nat -> gain s' u 0%nat = gain s u 0%nat).
Proof.
  intros M P S s'. unfold s'. rewrite unpolarized by auto. unfold step_unpolarized. clear s'. destruct (perm_order c order P) as [N I]. set (g := fun v => gain s v 0%nat).
  assert (B : forall u, In u order -> (u < n_un c)%nat) by (intros u; apply I).
  pose proof (fold_flags c vis mvis g M order s st B) as F. cbv beta in F. fold g in F.
  change (fun ant => rconj (gain s ant 0%nat)) with (fun a => rconj (g a)). split; [|split].
  - intros X. apply F in X as [X|(u & J & V & Z)]; auto. right. exists u. assert (U := B u J). repeat split; auto.
    intros l L x. rewrite !misfit_cost. destruct (pairs_perm c vis mvis g _ _ (lists_perm c u l M U L)) as [EW EI]. apply best_zero. unfold useless in Z. now rewrite EW, EI.
  - intros X. destruct (flagged s st) eqn:Q; auto. rewrite (proj2 F) in X; [discriminate|auto].
  - intros X. split; [apply F; auto|]. intros u V. destruct (in_dec Nat.eq_dec u order) as [J|J]; [|apply fold_other; auto].
    destruct (fold_gain c vis mvis g M order s u B N J) as (before & Q & D). cbn zeta in D.
    assert (Y : flagged (fold_left (solve_unknown c vis mvis (fun a => rconj (g a))) before s) (u mod n_st c) = true).
    { apply (fold_flags c vis mvis g M before s); [intros v K; now apply B, Q|]. left. now rewrite V. }
    destruct D as [(_ & E)|[(K & _)|(K & _)]]; [exact E|congruence|congruence].
Qed.

(** C94: the same for matrices: the new matrix is the best one, and it is the only one; a station is flagged if and only if no matrix is better than all others *)
Theorem C94_matrix_estimate c vis mvis order s st l : c_mode c = FullJones -> (st < n_st c)%nat -> lists_station c st l ->
  let s' := half_step c vis mvis order s in
  (flagged s' st = false -> flagged s st = false /\
     forall x, misfit_matrix c vis mvis (gain s) l (gain s' st) <= misfit_matrix c vis mvis (gain s) l x /\
       (misfit_matrix c vis mvis (gain s) l x = misfit_matrix c vis mvis (gain s) l (gain s' st) -> forall k, (k < 4)%nat -> x k = gain s' st k)) /\
  (flagged s st = false -> flagged s' st = true -> forall x, exists y,
     (exists k, (k < 4)%nat /\ y k <> x k) /\ misfit_matrix c vis mvis (gain s) l y = misfit_matrix c vis mvis (gain s) l x) /\
  (flagged s st = true -> flagged s' st = true /\ forall k, gain s' st k = gain s st k).
Proof.
  intros M S L s'. unfold s', half_step. rewrite M. unfold step_polarized. clear s'.
  destruct (fold_station c vis mvis (gain s) (seq 0 (n_st c)) s st (seq_NoDup _ _)) as [_ H].
  destruct (H ltac:(apply in_seq; lia)) as [(A & B & D)|[(A & Z & B & D)|(A & Z & B & D)]]; cbv beta in *; rewrite A, B.
  { split; [discriminate|]. split; [discriminate|]. auto. }
  { split; [discriminate|]. split; [|discriminate]. intros _ _ x. destruct (singular2 _ Z) as (p & q & NZ & SP).
    exists (fun k => if (k =? 0)%nat then radd (x 0%nat) p else if (k =? 2)%nat then radd (x 2%nat) q else x k). split.
    - destruct NZ as [NZ|NZ]; [exists 0%nat|exists 2%nat]; (split; [lia|]); cbn; intros X; apply NZ;
        [transitivity (rsub (radd (x 0%nat) p) (x 0%nat))|transitivity (rsub (radd (x 2%nat) q) (x 2%nat))]; try ring; rewrite X; ring.
    - rewrite !(misfit_rows c vis mvis (gain s) st l) by auto. cbn. now rewrite cost2_flat. }
  split; [|split; [|discriminate]; intros _ X; discriminate].
  intros _. split; auto. intros x. rewrite !(misfit_rows c vis mvis (gain s) st l) by auto. rewrite !D by lia. cbn [fitted_matrix].
  destruct (best2 (rows c vis mvis (gain s) st 0) (x 0%nat) (x 2%nat)) as [L0 E0]; [exact Z|].
  destruct (best2 (rows c vis mvis (gain s) st 1) (x 1%nat) (x 3%nat)) as [L1 E1]; [rewrite det2_rows; exact Z|].
  split; [lra|]. intros Q k K. destruct E0 as [X0 X2]; [lra|]. destruct E1 as [X1 X3]; [lra|]. rewrite D by auto.
  destruct k as [|[|[|[|]]]]; auto. lia.
Qed.

(** C94: the flags, and the gains of the stations that are not flagged, do not depend on the order of the threads; none of the gains does if there is one gain per station *)
Theorem C94_threads c vis mvis o1 o2 s : c_mode c <> FullJones -> Permutation o1 (seq 0 (n_un c)) -> Permutation o2 (seq 0 (n_un c)) ->
  let s1 := half_step c vis mvis o1 s in let s2 := half_step c vis mvis o2 s in
  (forall st, flagged s1 st = flagged s2 st) /\
  (forall u, (u < n_un c)%nat -> flagged s1 (u mod n_st c) = false \/ scalar c = true -> gain s1 u 0%nat = gain s2 u 0%nat).
Proof.
  intros M P1 P2 s1 s2. unfold s1, s2. rewrite !unpolarized by auto. unfold step_unpolarized. clear s1 s2. set (g := fun v => gain s v 0%nat).
  change (fun ant => rconj (gain s ant 0%nat)) with (fun a => rconj (g a)).
  destruct (perm_order c o1 P1) as [N1 I1]. destruct (perm_order c o2 P2) as [N2 I2].
  assert (B1 : forall u, In u o1 -> (u < n_un c)%nat) by (intros u; apply I1). assert (B2 : forall u, In u o2 -> (u < n_un c)%nat) by (intros u; apply I2).
  assert (F : forall st, flagged (fold_left (solve_unknown c vis mvis (fun a => rconj (g a))) o1 s) st = flagged (fold_left (solve_unknown c vis mvis (fun a => rconj (g a))) o2 s) st).
  { intros st. apply eq_true_iff_eq. rewrite !(fold_flags c vis mvis g M) by auto.
    split; (intros [H|(u & J & H)]; auto; right; exists u; split; auto); [apply I2, B1, J|apply I1, B2, J]. }
  split; auto. intros u U [H|H].
  - destruct (fold_unflagged c vis mvis g M o1 s u B1 N1 (proj2 (I1 u) U) H) as [_ ->]. rewrite F in H.
    now destruct (fold_unflagged c vis mvis g M o2 s u B2 N2 (proj2 (I2 u) U) H) as [_ ->].
  - assert (Q : forall order, NoDup order -> (forall u, In u order <-> (u < n_un c)%nat) -> let now := gain (fold_left (solve_unknown c vis mvis (fun a => rconj (g a))) order s) u 0%nat in
      (flagged s (u mod n_st c) = true /\ now = gain s u 0%nat) \/ (flagged s (u mod n_st c) = false /\ useless c vis mvis g u /\ now = rc0) \/
      (flagged s (u mod n_st c) = false /\ ~ useless c vis mvis g u /\ now = fitted c vis mvis g u)).
    { intros order N I. destruct (fold_gain c vis mvis g M order s u) as (before & Q & D); auto; try (intros v; apply I); [now apply I|]. cbn zeta in *.
      assert (E : flagged (fold_left (solve_unknown c vis mvis (fun a => rconj (g a))) before s) (u mod n_st c) = flagged s (u mod n_st c)).
      { assert (B : forall v, In v before -> (v < n_un c)%nat) by (intros v V; apply I, Q, V).
        apply eq_true_iff_eq. rewrite (fold_flags c vis mvis g M) by auto. split; auto. intros [K|(v & V & W & _)]; auto.
        destruct (Q v V) as [J NE]. elim NE. assert (NU : n_un c = n_st c) by (unfold n_un; rewrite H; destruct (c_mode c); auto).
        rewrite !Nat.mod_small in W by (rewrite <- NU; auto). exact W. }
      rewrite E in D. exact D. }
    destruct (Q o1 N1 I1) as [(A & ->)|[(A & Z & ->)|(A & Z & ->)]]; destruct (Q o2 N2 I2) as [(A' & ->)|[(A' & Z' & ->)|(A' & Z' & ->)]]; auto; try congruence; contradiction.
Qed.

(** * Exact data *)
(** The data are those of the model with the gains *)
Definition exactly (c : config) (vis mvis : nat -> rc) (g : gains) : Prop :=
  match c_mode c with FullJones => exact_matrix c vis mvis g | _ => exact c vis mvis (fun v => g v 0%nat) end.
Lemma unknown_bound c st pol : c_mode c <> FullJones -> (st < n_st c)%nat -> (pol < 2)%nat -> (unknown c st pol < n_un c)%nat.
Proof. intros M S P. unfold unknown, n_un. assert (st + n_st c * pol < 2 * n_st c)%nat by (destruct pol as [|[|]]; lia). destruct (c_mode c), (scalar c); auto; congruence. Qed.
Lemma exactly_ext c vis mvis g g' : (forall u cr, (u < n_un c)%nat -> (cr < n_cr c)%nat -> g u cr = g' u cr) -> exactly c vis mvis g -> exactly c vis mvis g'.
Proof.
  intros E. unfold exactly. destruct (c_mode c) eqn:M; intros H p I; rewrite (H p I).
  4: { unfold predicted, sum2, el. destruct I as (A & B & _ & _ & D & F). unfold n_un, n_cr in E. rewrite M in E.
       assert (forall a b, (a < 2)%nat -> (b < 2)%nat -> (2 * a + b < 4)%nat) by (intros; lia). rewrite !E by (auto; lia). reflexivity. }
  all: destruct I as (A & B & _ & _ & D & F); rewrite !E; auto; try (apply unknown_bound; auto; congruence); unfold n_cr; rewrite M; lia.
Qed.
Lemma half_exact c vis mvis order s : Permutation order (seq 0 (n_un c)) -> exactly c vis mvis (gain s) -> (forall u, (u < n_un c)%nat -> allowed_gain (c_mode c) (gain s u 0%nat)) ->
  let s' := half_step c vis mvis order s in (forall st, (st < n_st c)%nat -> flagged s' st = false) ->
  (forall st, (st < n_st c)%nat -> flagged s st = false) /\ forall u cr, (u < n_un c)%nat -> (cr < n_cr c)%nat -> gain s' u cr = gain s u cr.
Proof.
  intros P X A s' F. unfold exactly in X. destruct (c_mode c) eqn:M.
  4: { unfold s', half_step, step_polarized, n_un, n_cr in *. rewrite M in *. split.
       - intros st S. destruct (fold_station c vis mvis (gain s) (seq 0 (n_st c)) s st (seq_NoDup _ _)) as [_ H].
         destruct (H ltac:(apply in_seq; lia)) as [(A1 & B & D)|[(A1 & _)|(A1 & _)]]; auto. cbv beta in B. rewrite (F st S) in B. discriminate.
       - intros st cr S C. destruct (fold_station c vis mvis (gain s) (seq 0 (n_st c)) s st (seq_NoDup _ _)) as [_ H]. cbv beta in *.
         destruct (H ltac:(apply in_seq; lia)) as [(A1 & B & D)|[(A1 & Z & B & D)|(A1 & Z & B & D)]]; [rewrite (F st S) in B; discriminate|rewrite (F st S) in B; discriminate|].
         rewrite D by auto. now apply exact_fitted. }
  all: assert (M' : c_mode c <> FullJones) by congruence; unfold s' in *; rewrite unpolarized in * by auto; unfold step_unpolarized in *; clear s';
    destruct (perm_order c order P) as [N I]; assert (B : forall u, In u order -> (u < n_un c)%nat) by (intros u; apply I); set (g := fun v => gain s v 0%nat) in *;
    (split; [intros st S; destruct (flagged s st) eqn:Q; auto; rewrite <- (F st S); symmetry; apply (fold_flags c vis mvis g M' order s st B); auto|]);
    intros u cr U C'; assert (cr = 0)%nat by (unfold n_cr in C'; rewrite M in C'; lia); subst cr;
    assert (S : (u mod n_st c < n_st c)%nat) by (apply Nat.mod_upper_bound; unfold n_un in U; rewrite M in U; destruct (scalar c); lia);
    destruct (fold_unflagged c vis mvis g M' order s u B N (proj2 (I u) U) (F _ S)) as [NU G]; (etransitivity; [exact G|]);
    unfold fitted; rewrite (exact_pairs c vis mvis g u M' U X), M; unfold useless in NU;
    replace (rscale (/ weight (pairs c vis mvis g (places c u))) (rscale (weight (pairs c vis mvis g (places c u))) (g u))) with (g u) by (apply rc_eq; cbn; field; tauto);
    apply constrain_allowed; now apply A.
Qed.
Lemma fronorm_ext c g g' : (forall u cr, (u < n_un c)%nat -> (cr < n_cr c)%nat -> g u cr = g' u cr) -> fronorm c g = fronorm c g'.
Proof.
  intros E. unfold fronorm. f_equal.
  assert (H : forall l acc, (forall u, In u l -> (u < n_un c)%nat) ->
    fold_left (fun acc ant => fold_left (fun acc cr => acc + rabs (rmul (g ant cr) (g ant cr))) (seq 0 (n_cr c)) acc) l acc =
    fold_left (fun acc ant => fold_left (fun acc cr => acc + rabs (rmul (g' ant cr) (g' ant cr))) (seq 0 (n_cr c)) acc) l acc).
  { induction l as [|u l IH]; intros acc B; [reflexivity|]. cbn [fold_left]. rewrite IH by (intros; apply B; now right). f_equal.
    rewrite !fold_rsum. f_equal. f_equal. apply map_ext_in. intros cr I. apply in_seq in I. rewrite E; auto; [apply B; now left|lia]. }
  apply H. intros u I. apply in_seq in I. lia.
Qed.
Lemma fronorm_zero c g : (forall u cr, (u < n_un c)%nat -> (cr < n_cr c)%nat -> g u cr = rc0) -> fronorm c g = 0.
Proof.
  intros E. rewrite (fronorm_ext c g (fun _ _ => rc0)) by auto. unfold fronorm.
  assert (Z : forall l : list nat, rsum (map (fun _ => rabs (rmul rc0 rc0)) l) = 0).
  { intros l. replace (rmul rc0 rc0) with rc0 by (apply rc_eq; cbn; ring). replace (rabs rc0) with 0 by (symmetry; now apply rabs_0).
    induction l as [|x l IH]; [reflexivity|]. cbn [map]. rewrite rsum_cons, IH. lra. }
  replace (fold_left _ (seq 0 (n_un c)) 0) with 0; [apply sqrt_0|]. symmetry. induction (seq 0 (n_un c)) as [|u l IH]; [reflexivity|]. cbn [fold_left].
  rewrite fold_rsum, Z. replace (0 + 0) with 0 by lra. exact IH.
Qed.

(** C94: gains for which the data are exactly those of the model stay as they are, and the iterations end *)
Theorem C94_exact c vis mvis iter o1 o2 a : (iter <= 1)%nat -> 0 <= tolerance c -> (n_st c <> 0)%nat ->
  Permutation o1 (seq 0 (n_un c)) -> Permutation o2 (seq 0 (n_un c)) ->
  exactly c vis mvis (gain (now a)) -> (forall u, (u < n_un c)%nat -> allowed_gain (c_mode c) (gain (now a) u 0%nat)) ->
  let r := do_step c vis mvis iter o1 o2 a in
  (forall st, (st < n_st c)%nat -> flagged (now (snd r)) st = false) ->
  fst r = Converged /\ forall u cr, (u < n_un c)%nat -> (cr < n_cr c)%nat -> gain (now (snd r)) u cr = gain (now a) u cr.
Proof.
  intros T TOL NS P1 P2 X A r F. unfold r, do_step in *. clear r. cbn [now gold gx gxx dg dgx bad_iters very_bad_iters] in *.
  destruct (forallb (flagged (now a)) (seq 0 (n_st c))) eqn:ALL; [split; auto|].
  set (s1 := half_step c vis mvis o1 (now a)) in *. set (s2 := half_step c vis mvis o2 s1) in *.
  set (b := Alg s2 (gain s1) (gain (now a)) (gx a) (dg a) (dgx a) (bad_iters a) (very_bad_iters a)) in *.
  assert (FL : flagged (now (snd (relax c (2 * iter) b))) = flagged s2).
  { unfold relax. destruct (n_st c =? 0)%nat; [reflexivity|]. destruct (count_bad c (2 * iter) b) as [bad very].
    destruct (_ && _)%bool; [reflexivity|]. destruct (Rle_dec _ _); reflexivity. }
  rewrite FL in F. 
  assert (G2 : (forall st, (st < n_st c)%nat -> flagged s1 st = false)).
  { intros st S. destruct (flagged s1 st) eqn:Q; auto. rewrite <- (F st S). unfold s2, half_step. destruct (c_mode c) eqn:M.
    4: { destruct (fold_station c vis mvis (gain s1) (seq 0 (n_st c)) s1 st (seq_NoDup _ _)) as [_ H]. destruct (H ltac:(apply in_seq; lia)) as [(_ & B & _)|[(B & _)|(B & _)]]; [now rewrite <- B|congruence|congruence]. }
    all: symmetry; unfold step_unpolarized; apply (fold_flags c vis mvis (fun v => gain s1 v 0%nat)); [congruence| |auto]; intros u I; now apply (perm_order c o2 P2). }
  destruct (half_exact c vis mvis o1 (now a) P1 X A G2) as [_ E1]. fold s1 in E1.
  assert (X1 : exactly c vis mvis (gain s1)) by (apply (exactly_ext c vis mvis (gain (now a))); auto; intros; symmetry; now apply E1).
  assert (C0 : (0 < n_cr c)%nat) by (unfold n_cr; destruct (c_mode c); lia).
  assert (A1 : forall u, (u < n_un c)%nat -> allowed_gain (c_mode c) (gain s1 u 0%nat)) by (intros u U; rewrite E1; auto).
  destruct (half_exact c vis mvis o2 s1 P2 X1 A1 F) as [_ E2]. fold s2 in E2.
  assert (CH : change c (gain s2) (gain s1) = 0).
  { unfold change. rewrite fronorm_zero; [unfold Rdiv; ring|]. intros u cr U C'. rewrite E2 by auto. apply rc_eq; cbn; ring. }
  unfold relax. apply Nat.eqb_neq in NS. rewrite NS.
  assert (I3 : (3 <? 2 * iter)%nat = false) by (apply Nat.ltb_ge; lia).
  unfold count_bad. rewrite I3, andb_false_r. cbn [andb]. unfold b. cbn [now gold].
  destruct (Rle_dec (change c (gain s2) (gain s1)) (tolerance c)) as [L|L]; [|rewrite CH in L; lra]. cbn [fst snd now].
  split; auto. intros u cr U C'. now rewrite E2, E1.
Qed.

(** C94: with phases only, the gains of the stations that are not flagged have amplitude one when the iterations end because they converge or stall *)
Theorem C94_unit c vis mvis iter o1 o2 a : c_mode c = PhaseOnly -> Permutation o1 (seq 0 (n_un c)) -> Permutation o2 (seq 0 (n_un c)) ->
  let r := do_step c vis mvis iter o1 o2 a in
  fst r <> NotConverged -> forall u, (u < n_un c)%nat -> flagged (now (snd r)) (u mod n_st c) = false -> rabs (gain (now (snd r)) u 0%nat) = 1.
Proof.
  intros M P1 P2 r NC u U F. unfold r, do_step in *. clear r. cbn [now gold gx gxx dg dgx bad_iters very_bad_iters] in *.
  assert (NS : (n_st c <> 0)%nat) by (unfold n_un in U; rewrite M in U; destruct (scalar c); lia).
  destruct (forallb (flagged (now a)) (seq 0 (n_st c))) eqn:ALL.
  { cbn [snd now] in F. rewrite forallb_forall in ALL. rewrite ALL in F; [discriminate|]. apply in_seq. pose proof (Nat.mod_upper_bound u (n_st c) NS). lia. }
  set (s1 := half_step c vis mvis o1 (now a)) in *. set (s2 := half_step c vis mvis o2 s1) in *.
  set (b := Alg s2 (gain s1) (gain (now a)) (gx a) (dg a) (dgx a) (bad_iters a) (very_bad_iters a)) in *.
  assert (Q : now (snd (relax c (2 * iter) b)) = s2).
  { unfold relax in *. destruct (n_st c =? 0)%nat; [reflexivity|]. destruct (count_bad c (2 * iter) b) as [bad very].
    destruct (_ && _)%bool; [reflexivity|]. destruct (Rle_dec _ _); [reflexivity|]. cbn in NC. congruence. }
  rewrite Q in *. assert (M' : c_mode c <> FullJones) by congruence.
  pose proof (C94_estimate c vis mvis o2 s1 u (places c u) M' P2 U (places_all c u M' U) F) as E. rewrite M in E. apply E.
Qed.

(** * Witnesses *)
Lemma solve_new c vis mvis h s u ww tt : flagged s (u mod n_st c) = false -> sums c vis mvis h u = (ww, tt) -> ww <> 0 -> tt <> rc0 ->
  solve_unknown c vis mvis h s u = State (set_gain (gain s) u 0 (constrain (c_mode c) (rscale (/ ww) tt))) (flagged s).
Proof.
  intros F E W T. unfold solve_unknown. rewrite F, E. destruct (Req_EM_T ww 0); [contradiction|]. destruct (Req_EM_T (rabs tt) 0) as [Z|Z]; [|reflexivity].
  apply rabs_0 in Z. contradiction.
Qed.
Lemma solve_none c vis mvis h s u ww tt : flagged s (u mod n_st c) = false -> sums c vis mvis h u = (ww, tt) -> ww = 0 \/ tt = rc0 ->
  solve_unknown c vis mvis h s u = State (set_gain (gain s) u 0 rc0) (set_flag (flagged s) (u mod n_st c)).
Proof.
  intros F E W. unfold solve_unknown. rewrite F, E. destruct (Req_EM_T ww 0); [reflexivity|]. destruct (Req_EM_T (rabs tt) 0) as [Z|Z]; [reflexivity|].
  destruct W; [contradiction|]. elim Z. now apply rabs_0.
Qed.
Lemma solve_skip c vis mvis h s u : flagged s (u mod n_st c) = true -> solve_unknown c vis mvis h s u = s.
Proof. intros F. unfold solve_unknown. now rewrite F. Qed.
Lemma rc_neq a b : re a <> re b \/ im a <> im b -> a <> b.
Proof. intros [H|H] E; apply H; now rewrite E. Qed.
Ltac unit_abs := unfold rabs, rnorm; cbn; match goal with |- context [sqrt ?x] => replace x with 1 by field end; rewrite sqrt_1; field.
Definition phase_config : config := Config 2 1 1 PhaseOnly true (1 / 100000) true.
(** Two stations, with a phase of a quarter turn between them *)
Definition phase_vis (k : nat) : rc := if (k =? 1)%nat then RC 0 (-1) else if (k =? 8)%nat then RC 0 1 else rc0.
Definition phase_mvis (k : nat) : rc := if ((k =? 1) || (k =? 8))%nat%bool then rc1 else rc0.
Definition phase_start : alg := init_alg (State (fun _ _ => rc1) (fun _ => false)) (fun _ _ => rc0) (fun _ _ => rc0) (fun _ _ => rc0).
Lemma phase_first : let s := half_step phase_config phase_vis phase_mvis [0; 1]%nat (now phase_start) in
  gain s 0%nat 0%nat = RC 0 (-1) /\ gain s 1%nat 0%nat = RC 0 1 /\ flagged s = (fun _ => false).
Proof.
  unfold half_step, step_unpolarized, phase_config, phase_start, init_alg. cbn [c_mode now fold_left gain].
  rewrite (solve_new _ _ _ _ _ 0 1 (RC 0 (-1))); [|reflexivity|unfold sums; cbn; f_equal; [unfold rnorm; cbn; lra|apply rc_eq; cbn; lra]|lra|apply rc_neq; cbn; lra].
  rewrite (solve_new _ _ _ _ _ 1 1 (RC 0 1)); [|reflexivity|unfold sums; cbn; f_equal; [unfold rnorm; cbn; lra|apply rc_eq; cbn; lra]|lra|apply rc_neq; cbn; lra].
  cbn [gain flagged c_mode constrain]. split; [|split; [|reflexivity]]; unfold set_gain; cbn; apply rc_eq; unit_abs.
Qed.
Lemma phase_second s : gain s 0%nat 0%nat = RC 0 (-1) -> gain s 1%nat 0%nat = RC 0 1 -> flagged s = (fun _ => false) ->
  let s' := half_step phase_config phase_vis phase_mvis [0; 1]%nat s in gain s' 0%nat 0%nat = rc1 /\ gain s' 1%nat 0%nat = rc1 /\ flagged s' = (fun _ => false).
Proof.
  intros G0 G1 F. unfold half_step, step_unpolarized, phase_config. cbn [c_mode fold_left].
  rewrite (solve_new _ _ _ _ _ 0 1 rc1); [|rewrite F; reflexivity|unfold sums; cbn; rewrite G0, G1; f_equal; [unfold rnorm; cbn; lra|apply rc_eq; cbn; lra]|lra|apply rc_neq; cbn; lra].
  rewrite (solve_new _ _ _ _ _ 1 1 rc1); [|cbn; rewrite F; reflexivity|unfold sums; cbn; rewrite G0, G1; f_equal; [unfold rnorm; cbn; lra|apply rc_eq; cbn; lra]|lra|apply rc_neq; cbn; lra].
  cbn [gain flagged c_mode constrain]. split; [|split; [|exact F]]; unfold set_gain; cbn; apply rc_eq; unit_abs.
Qed.

(** C94 does not hold that with phases only all gains have amplitude one: the relaxation takes the mean of two estimates, and if that is the last iteration, the mean is the
    solution.  The correction of the data with such a solution changes their amplitudes *)
Theorem C94_unit_refuted : exists c vis mvis o1 o2 a u, c_mode c = PhaseOnly /\ Permutation o1 (seq 0 (n_un c)) /\ Permutation o2 (seq 0 (n_un c)) /\ (u < n_un c)%nat /\
  (forall v, rabs (gain (now a) v 0%nat) = 1) /\ (forall st, flagged (now a) st = false) /\
  let r := do_step c vis mvis 0 o1 o2 a in
  fst r = NotConverged /\ flagged (now (snd r)) (u mod n_st c) = false /\ rabs (gain (now (snd r)) u 0%nat) <> 1.
Proof.
  exists phase_config, phase_vis, phase_mvis, [0; 1]%nat, [0; 1]%nat, phase_start, 0%nat.
  split; [reflexivity|]. split; [reflexivity|]. split; [reflexivity|]. split; [cbn; lia|]. split; [intros v; cbn; unit_abs|]. split; [reflexivity|].
  cbn zeta. unfold do_step. cbn [now gold gx gxx dg dgx bad_iters very_bad_iters phase_start init_alg phase_config n_st seq forallb flagged andb].
  destruct phase_first as (A0 & A1 & AF). cbn [phase_start init_alg now] in *.
  set (s1 := half_step _ _ _ _ (State _ _)) in *. clearbody s1. destruct (phase_second s1 A0 A1 AF) as (B0 & B1 & BF). change (Config 2 1 1 PhaseOnly true (1 / 100000) true) with phase_config.
  set (s2 := half_step _ _ _ _ s1) in *. clearbody s2.
  unfold relax. cbn [phase_config n_st Nat.eqb count_bad detect andb Nat.mul Nat.ltb Nat.leb now gold gx gxx dg dgx bad_iters very_bad_iters orb].
  assert (N : change phase_config (gain s2) (gain s1) = sqrt 4 / sqrt 2).
  { unfold change, fronorm. cbn. rewrite A0, A1, B0, B1. f_equal; [|f_equal]; f_equal; rewrite !rabs_mul, !rabs_square; unfold rnorm; cbn; lra. }
  assert (S2 : 0 < sqrt 2) by (apply sqrt_lt_R0; lra). assert (S4 : sqrt 2 <= sqrt 4) by (apply sqrt_le_1_alt; lra).
  assert (G : 1 <= change phase_config (gain s2) (gain s1)).
  { rewrite N. apply (Rmult_le_reg_r (sqrt 2)); auto. unfold Rdiv. rewrite Rmult_assoc, Rinv_l by lra. lra. }
  change (Config 2 1 1 PhaseOnly true (1 / 100000) true) with phase_config. set (d := change _ _ _) in *. clearbody d.
  unfold count_bad. cbn [phase_config detect andb Nat.ltb Nat.leb bad_iters very_bad_iters orb tolerance].
  destruct (Rle_dec d (1 / 100000)) as [L|L]; [lra|]. unfold three_step. cbn [Nat.add Nat.leb orb].
  destruct (Rle_dec (Rmax d _) (1 / 1000)) as [L'|L']; [pose proof (Rmax_l d (Rmax (10 ^ 29) (10 ^ 30))); lra|].
  cbn [andb fst snd now gain flagged]. rewrite BF, A0, B0. split; [reflexivity|]. split; [reflexivity|]. intros X. apply (f_equal (fun x => x * x)) in X. rewrite rabs_square in X.
  unfold rnorm in X. cbn in X. lra.
Qed.

Definition dead_config : config := Config 3 1 1 Default false (1 / 100000) true.
(** Three stations; one feed of the first gives no signal *)
Definition dead_mvis (k : nat) : rc := if existsb (Nat.eqb k) [1; 2; 10; 11; 12; 14; 21; 23; 24; 25; 33; 34]%nat then rc1 else rc0.
Definition dead_vis (k : nat) : rc := if existsb (Nat.eqb k) [10; 11; 14; 21; 23; 25; 33; 34]%nat then rc1 else rc0.
Definition dead_start : state := State (fun _ _ => RC 2 0) (fun _ => false).
Ltac dead_sums := unfold sums, dead_config; cbn; f_equal; [unfold rnorm; cbn; field|apply rc_eq; cbn; field].
Ltac dead_new u ww t := rewrite (solve_new _ _ _ _ _ u ww (RC t 0)); [|reflexivity|dead_sums|lra|apply rc_neq; cbn; lra].
Lemma dead_a : let s := half_step dead_config dead_vis dead_mvis [0; 1; 2; 3; 4; 5]%nat dead_start in
  gain s 0%nat 0%nat = rc0 /\ gain s 1%nat 0%nat = RC (1 / 4) 0 /\ gain s 2%nat 0%nat = RC (1 / 4) 0 /\ gain s 3%nat 0%nat = RC 2 0 /\
  gain s 4%nat 0%nat = RC (1 / 2) 0 /\ gain s 5%nat 0%nat = RC (1 / 2) 0 /\ forall st, flagged s st = (st =? 0)%nat.
Proof.
  unfold half_step, step_unpolarized, dead_config, dead_start. cbn [c_mode fold_left gain].
  rewrite (solve_none _ _ _ _ _ 0 8 rc0); [|reflexivity|dead_sums|auto]. dead_new 1%nat 8 2. dead_new 2%nat 8 2.
  rewrite (solve_skip _ _ _ _ _ 3) by reflexivity. dead_new 4%nat 8 4. dead_new 5%nat 8 4. cbn [gain flagged constrain c_mode].
  unfold set_gain, set_flag. cbn. repeat split; try (apply rc_eq; cbn; field). intros [|st]; reflexivity.
Qed.
Lemma dead_b : let s := half_step dead_config dead_vis dead_mvis [3; 4; 5; 0; 1; 2]%nat dead_start in
  gain s 0%nat 0%nat = rc0 /\ gain s 1%nat 0%nat = RC (1 / 4) 0 /\ gain s 2%nat 0%nat = RC (1 / 4) 0 /\ gain s 3%nat 0%nat = RC (1 / 2) 0 /\
  gain s 4%nat 0%nat = RC (1 / 2) 0 /\ gain s 5%nat 0%nat = RC (1 / 2) 0 /\ forall st, flagged s st = (st =? 0)%nat.
Proof.
  unfold half_step, step_unpolarized, dead_config, dead_start. cbn [c_mode fold_left gain].
  dead_new 3%nat 8 4. dead_new 4%nat 8 4. dead_new 5%nat 8 4. rewrite (solve_none _ _ _ _ _ 0 8 rc0); [|reflexivity|dead_sums|auto]. dead_new 1%nat 8 2. dead_new 2%nat 8 2.
  cbn [gain flagged constrain c_mode].
  unfold set_gain, set_flag. cbn. repeat split; try (apply rc_eq; cbn; field). intros [|st]; reflexivity.
Qed.
Lemma dead_next s x : 0 < x -> gain s 0%nat 0%nat = rc0 -> gain s 1%nat 0%nat = RC (1 / 4) 0 -> gain s 2%nat 0%nat = RC (1 / 4) 0 -> gain s 3%nat 0%nat = RC x 0 ->
  gain s 4%nat 0%nat = RC (1 / 2) 0 -> gain s 5%nat 0%nat = RC (1 / 2) 0 -> (forall st, flagged s st = (st =? 0)%nat) ->
  let s' := half_step dead_config dead_vis dead_mvis [0; 1; 2; 3; 4; 5]%nat s in
  flagged s' 1%nat = false /\ gain s' 4%nat 0%nat = RC ((x + 1 / 2) / (x * x + 1 / 4)) 0.
Proof.
  intros X G0 G1 G2 G3 G4 G5 F. unfold half_step, step_unpolarized, dead_config. cbn [c_mode fold_left].
  assert (P : 0 < x * x) by nra.
  rewrite (solve_skip _ _ _ _ _ 0) by (apply F).
  rewrite (solve_new _ _ _ _ _ 1 (1 / 16) (RC (1 / 4) 0)); [|apply F|unfold sums; cbn; rewrite G0, G2; f_equal; [|apply rc_eq]; unfold rnorm; cbn; rewrite ?G3, ?G4, ?G5; cbn; field|lra|apply rc_neq; cbn; lra].
  rewrite (solve_new _ _ _ _ _ 2 (1 / 16) (RC (1 / 4) 0)); [|apply F|unfold sums; cbn; rewrite G0, G1; f_equal; [|apply rc_eq]; unfold rnorm; cbn; rewrite ?G3, ?G4, ?G5; cbn; field|lra|apply rc_neq; cbn; lra].
  rewrite (solve_skip _ _ _ _ _ 3) by (apply F).
  rewrite (solve_new _ _ _ _ _ 4 (x * x + 1 / 4) (RC (x + 1 / 2) 0)); [|apply F|unfold sums; cbn; rewrite G3, G5; f_equal; [|apply rc_eq]; unfold rnorm; cbn; rewrite ?G0, ?G1, ?G2; cbn; field|lra|apply rc_neq; cbn; lra].
  rewrite (solve_new _ _ _ _ _ 5 (x * x + 1 / 4) (RC (x + 1 / 2) 0)); [|apply F|unfold sums; cbn; rewrite G3, G4; f_equal; [|apply rc_eq]; unfold rnorm; cbn; rewrite ?G0, ?G1, ?G2; cbn; field|lra|apply rc_neq; cbn; lra].
  cbn [gain flagged constrain c_mode]. split; [apply F|]. unfold set_gain. cbn. apply rc_eq; cbn; field; lra.
Qed.

(** C94 does not hold that the order of the threads does not matter: if one feed of a station has no signal, the station is flagged, and the gain of its other feed
    is estimated or not, whichever comes first.  It stays as it is from then on, and is still used for the gains of all other stations *)
Theorem C94_threads_refuted : exists c vis mvis o1 o2 o s u, c_mode c = Default /\ Permutation o1 (seq 0 (n_un c)) /\ Permutation o2 (seq 0 (n_un c)) /\
  Permutation o (seq 0 (n_un c)) /\ (u < n_un c)%nat /\ (forall st, flagged s st = false) /\
  let one := half_step c vis mvis o (half_step c vis mvis o1 s) in let two := half_step c vis mvis o (half_step c vis mvis o2 s) in
  flagged one (u mod n_st c) = false /\ flagged two (u mod n_st c) = false /\ gain one u 0%nat <> gain two u 0%nat.
Proof.
  exists dead_config, dead_vis, dead_mvis, [0; 1; 2; 3; 4; 5]%nat, [3; 4; 5; 0; 1; 2]%nat, [0; 1; 2; 3; 4; 5]%nat, dead_start, 4%nat.
  split; [reflexivity|]. split; [reflexivity|]. split; [exact (Permutation_app_comm [3; 4; 5]%nat [0; 1; 2]%nat)|]. split; [reflexivity|]. split; [cbn; lia|]. split; [reflexivity|].
  destruct dead_a as (A0 & A1 & A2 & A3 & A4 & A5 & AF). destruct dead_b as (B0 & B1 & B2 & B3 & B4 & B5 & BF).
  destruct (dead_next _ 2 ltac:(lra) A0 A1 A2 A3 A4 A5 AF) as [FA GA]. destruct (dead_next _ (1 / 2) ltac:(lra) B0 B1 B2 B3 B4 B5 BF) as [FB GB].
  cbn zeta. split; [exact FA|]. split; [exact FB|]. rewrite GA, GB. apply rc_neq. left. cbn. lra.
Qed.

(** * Stalling, relaxation and initial gains *)
Lemma relax_counts c iter a : let r := relax c iter a in
  (fst r = Stalled -> detect c = true /\ (3 < iter)%nat /\ (3 <= bad_iters (snd r) \/ 4 <= very_bad_iters (snd r))%nat) /\
  (bad_iters (snd r) + very_bad_iters (snd r) <= bad_iters a + very_bad_iters a + (if (3 <? iter)%nat then 1 else 0))%nat.
Proof.
  unfold relax. destruct (n_st c =? 0)%nat; [split; [discriminate|cbn; lia]|].
  assert (H : (fst (count_bad c iter a) + snd (count_bad c iter a) <= bad_iters a + very_bad_iters a + (if (3 <? iter)%nat then 1 else 0))%nat).
  { unfold count_bad. destruct (detect c), (3 <? iter)%nat; cbn [andb]; try (cbn; lia). destruct (Rlt_dec _ _); [cbn; lia|]. destruct (Rlt_dec _ _); cbn; lia. }
  destruct (count_bad c iter a) as [bad very]. cbn [fst snd] in H.
  destruct (detect c && (3 <? iter)%nat && ((3 <=? bad)%nat || (3 <? very)%nat))%bool eqn:E.
  - apply andb_true_iff in E as [E E2]. apply andb_true_iff in E as [E E1]. cbn [fst snd bad_iters very_bad_iters]. split; [|exact H]. intros _.
    apply Nat.ltb_lt in E1. apply orb_true_iff in E2 as [E2|E2]; [apply Nat.leb_le in E2|apply Nat.ltb_lt in E2]; repeat split; auto; lia.
  - destruct (Rle_dec _ _); cbn [fst snd bad_iters very_bad_iters]; split; auto; discriminate.
Qed.
Lemma do_step_counts c vis mvis iter o1 o2 a : let r := do_step c vis mvis iter o1 o2 a in
  (fst r = Stalled -> detect c = true /\ (2 <= iter)%nat /\ (3 <= bad_iters (snd r) \/ 4 <= very_bad_iters (snd r))%nat) /\
  (bad_iters (snd r) + very_bad_iters (snd r) <= bad_iters a + very_bad_iters a + (if (2 <=? iter)%nat then 1 else 0))%nat.
Proof.
  unfold do_step. cbn [now gold gx gxx dg dgx bad_iters very_bad_iters]. destruct (forallb _ _); [split; [discriminate|cbn; lia]|].
  match goal with |- context [relax c (2 * iter) ?b] => destruct (relax_counts c (2 * iter) b) as [H1 H2] end. cbn [bad_iters very_bad_iters] in H2. split.
  - intros S. apply H1 in S as (A & B & D). repeat split; auto. lia.
  - destruct (Nat.ltb_spec 3 (2 * iter)), (Nat.leb_spec 2 iter); lia.
Qed.

(** C94: the iterations of a solution interval are given up only if that is asked for, and not before the fifth *)
Theorem C94_stall c vis mvis orders s g1 g2 g3 : detect c = false \/ (length orders < 5)%nat -> fst (iterations c vis mvis 0 orders NotConverged (init_alg s g1 g2 g3)) <> Stalled.
Proof.
  assert (H : forall orders iter st a, (bad_iters a + very_bad_iters a <= iter - 2)%nat -> (st = Stalled -> detect c = true /\ (5 <= iter)%nat) ->
    fst (iterations c vis mvis iter orders st a) = Stalled -> detect c = true /\ (5 <= iter + length orders)%nat).
  { clear. induction orders as [|[o1 o2] orders IH]; intros iter st a B S E; cbn [iterations length] in *; [destruct (S E); split; auto; lia|].
    destruct (do_step_counts c vis mvis iter o1 o2 a) as [H1 H2]. cbn zeta in *.
    assert (X : forall r, r = do_step c vis mvis iter o1 o2 a -> fst (iterations c vis mvis (Datatypes.S iter) orders (fst r) (snd r)) = Stalled -> detect c = true /\ (5 <= iter + Datatypes.S (length orders))%nat).
    { intros r -> Q. apply IH in Q.
      - destruct Q; split; auto; lia.
      - destruct (Nat.leb_spec 2 iter); lia.
      - intros Z. destruct (H1 Z) as (D & I2 & K). split; auto. destruct (Nat.leb_spec 2 iter); lia. }
    specialize (X _ eq_refl). destruct (do_step c vis mvis iter o1 o2 a) as [st' a'] eqn:R. cbn [fst snd] in X.
    destruct st; auto. discriminate. }
  intros D E. apply (H orders 0%nat NotConverged) in E; [|cbn; lia|discriminate]. destruct D, E; [congruence|lia].
Qed.

(** C94: the relaxation takes a weighted mean, with the same weights for all gains, of the last two estimates and of the gains before each of the last two iterations *)
Theorem C94_relaxed c iter a : exists w1 w2 w3 w4, w1 + w2 + w3 + w4 = 1 /\ let r := relax c iter a in
  (fst r <> NotConverged -> w1 = 1 /\ w2 = 0 /\ w3 = 0 /\ w4 = 0) /\ flagged (now (snd r)) = flagged (now a) /\
  forall u k, gain (now (snd r)) u k = radd (radd (rscale w1 (gain (now a) u k)) (rscale w2 (gold a u k))) (radd (rscale w3 (gx a u k)) (rscale w4 (gxx a u k))).
Proof.
  unfold relax. destruct (n_st c =? 0)%nat; [exists 1, 0, 0, 0; repeat split; try lra; intros; apply rc_eq; cbn; ring|].
  destruct (count_bad c iter a) as [bad very]. destruct (_ && _)%bool; [exists 1, 0, 0, 0; repeat split; try lra; intros; apply rc_eq; cbn; ring|].
  destruct (Rle_dec _ _); [exists 1, 0, 0, 0; repeat split; try lra; intros; apply rc_eq; cbn; ring|].
  destruct (three_step _ _ _ _); [destruct (Rle_dec _ _); [|destruct (Rle_dec _ _); [|destruct (Rle_dec _ _)]]|]; cbn [fst snd now gain flagged].
  - exists (3 / 4), (3 / 4), (- (1 / 2)), 0. repeat split; try lra; try congruence. intros. apply rc_eq; cbn; field.
  - exists (5 / 4), (5 / 4), (-1), (- (1 / 2)). repeat split; try lra; try congruence. intros. apply rc_eq; cbn; field.
  - exists 0, 0, 1, 0. repeat split; try lra; try congruence. intros. apply rc_eq; cbn; ring.
  - exists 0, 0, 0, 1. repeat split; try lra; try congruence. intros. apply rc_eq; cbn; ring.
  - exists (1 / 2), (1 / 2), 0, 0. repeat split; try lra; try congruence. intros. apply rc_eq; cbn; field.
Qed.

(** C94: without solutions to start from, the gains have no phase; their amplitude is such that the predicted visibilities have the power of the data (one if only phases are solved for) *)
Theorem C94_init c vis mvis ant flags g : exists x, 0 <= x /\ only_amplitude c x (match init_gains c vis mvis true flags g ant with Some v => v | None => fun _ => rc0 end) /\
  (c_mode c = PhaseOnly -> x = 1) /\
  (c_mode c <> PhaseOnly -> / 10 ^ 30 < rsum (map (fun k => rnorm (mvis k)) (seq 0 (size c))) ->
    rsum (map (fun k => rnorm (rmul (RC (x * x) 0) (mvis k))) (seq 0 (size c))) = rsum (map (fun k => rnorm (vis k)) (seq 0 (size c)))).
Proof.
  exists (initial_gain c vis mvis). split; [|split; [|split]].
  - unfold initial_gain. destruct (c_mode c); try lra; destruct (Rlt_dec _ _); try lra; apply sqrt_pos.
  - unfold init_gains, all_plain, only_amplitude, plain. destruct (n_cr c =? 4)%nat; cbn; auto.
  - intros M. unfold initial_gain. rewrite M. reflexivity.
  - intros M P.
    assert (N : forall v, 0 <= rsum (map (fun k => rnorm (v k)) (seq 0 (size c)))).
    { intros v. clear P. induction (seq 0 (size c)) as [|k l IH]; [unfold rsum; cbn; lra|cbn [map]]. rewrite rsum_cons. assert (H := rnorm_nonneg (v k)). lra. }
    assert (F : forall v, fold_left (fun acc i => acc + rnorm (v i)) (seq 0 (size c)) 0 = rsum (map (fun k => rnorm (v k)) (seq 0 (size c)))).
    { intros v. rewrite fold_rsum. lra. }
    assert (E : rsum (map (fun k => rnorm (rmul (RC (initial_gain c vis mvis * initial_gain c vis mvis) 0) (mvis k))) (seq 0 (size c))) =
      initial_gain c vis mvis * initial_gain c vis mvis * (initial_gain c vis mvis * initial_gain c vis mvis) * rsum (map (fun k => rnorm (mvis k)) (seq 0 (size c)))).
    { generalize (initial_gain c vis mvis). intros x. clear P N F. induction (seq 0 (size c)) as [|k l IH]; [cbn; ring|cbn [map]]. rewrite !rsum_cons, IH, rnorm_mul. unfold rnorm. cbn [re im]. ring. }
    rewrite E. clear E. unfold initial_gain. rewrite !F.
    set (a := rsum (map (fun k => rnorm (vis k)) _)). set (b := rsum (map (fun k => rnorm (mvis k)) _)). fold b in P. assert (A := N vis). assert (B := N mvis). fold a in A. fold b in B.
    assert (T : 0 < / 10 ^ 15) by (apply Rinv_0_lt_compat, pow_lt; lra).
    assert (Q : / 10 ^ 15 < sqrt b).
    { rewrite <- (sqrt_square (/ 10 ^ 15)) by lra. apply sqrt_lt_1; try nra. }
    assert (Z : 0 <= sqrt a / sqrt b). { apply Rmult_le_pos; [apply sqrt_pos|]. left. apply Rinv_0_lt_compat. lra. }
    assert (G : sqrt (sqrt a / sqrt b) * sqrt (sqrt a / sqrt b) * (sqrt (sqrt a / sqrt b) * sqrt (sqrt a / sqrt b)) * b = a).
    { rewrite sqrt_sqrt by exact Z. rewrite <- (sqrt_sqrt a) at 3 by exact A. rewrite <- (sqrt_sqrt b) at 3 by exact B. field. lra. }
    rewrite (Rabs_right (sqrt b)) by lra. destruct (c_mode c); [|congruence| |]; (destruct (Rlt_dec _ _); [exact G|contradiction]).
Qed.

Lemma average_spec c g : (exists m, mean_amplitude c g m /\ average_unflagged c g = m) \/ (average_unflagged c g = 0 /\ forall ant, (ant < n_un c)%nat -> g ant = None).
Proof.
  set (amps := flat_map (fun ant => match g ant with None => [] | Some v => if (n_cr c =? 4)%nat then [rabs (v 0%nat); rabs (v 3%nat)] else [rabs (v 0%nat)] end) (seq 0 (n_un c))).
  assert (H : forall l acc, fold_left (fun (acc : R * nat) ant =>
    match g ant with
    | None => acc
    | Some v => if (n_cr c =? 4)%nat then (fst acc + rabs (v 0%nat) + rabs (v 3%nat), S (S (snd acc))) else (fst acc + rabs (v 0%nat), S (snd acc))
    end) l acc = (fst acc + rsum (flat_map (fun ant => match g ant with None => [] | Some v => if (n_cr c =? 4)%nat then [rabs (v 0%nat); rabs (v 3%nat)] else [rabs (v 0%nat)] end) l),
      (snd acc + length (flat_map (fun ant => match g ant with None => [] | Some v => if (n_cr c =? 4)%nat then [rabs (v 0%nat); rabs (v 3%nat)] else [rabs (v 0%nat)] end) l))%nat)).
  { induction l as [|ant l IH]; intros [t n]; cbn [fold_left flat_map fst snd]; [unfold rsum; cbn; f_equal; [lra|lia]|]. rewrite IH. rewrite rsum_app, app_length.
    destruct (g ant) as [v|]; [destruct (n_cr c =? 4)%nat|]; cbn [fst snd length]; rewrite ?rsum_cons; unfold rsum at 1 3 || idtac; cbn; f_equal; try lia; unfold rsum; cbn; lra. }
  unfold average_unflagged. rewrite H. cbn [fst snd]. fold amps. destruct (Nat.eqb_spec (0 + length amps) 0) as [Z|Z].
  - right. split; [reflexivity|]. intros ant L. destruct (g ant) as [v|] eqn:G; [|reflexivity]. exfalso. apply length_zero_iff_nil in Z. cbn in Z.
    assert (I : In (rabs (v 0%nat)) amps). { unfold amps. apply in_flat_map. exists ant. split; [apply in_seq; lia|]. rewrite G. destruct (n_cr c =? 4)%nat; left; reflexivity. }
    rewrite Z in I. destruct I.
  - left. eexists. split; [|reflexivity]. unfold mean_amplitude. fold amps. split; [intros E; rewrite E in Z; cbn in Z; lia|].
    cbn [Nat.add] in *. field. apply not_0_INR. exact Z.
Qed.
Lemma replace_computed c flags x l : forall g, NoDup l -> exists g', replace c flags true x g l = Some g' /\
  forall ant, g' ant = match g ant with Some v => Some v | None => if existsb (Nat.eqb ant) l then Some (plain c x) else None end.
Proof.
  induction l as [|a l IH]; intros g D; cbn [replace existsb].
  - exists g. split; [reflexivity|]. intros ant. destruct (g ant); reflexivity.
  - inversion_clear D. destruct (g a) eqn:G.
    + destruct (IH g H0) as (g' & E & P). exists g'. split; [exact E|]. intros ant. rewrite P. destruct (g ant) eqn:Ga; [reflexivity|]. destruct (Nat.eqb_spec ant a); [congruence|reflexivity].
    + cbn [orb]. destruct (IH (fun b => if (b =? a)%nat then Some (plain c x) else g b) H0) as (g' & E & P). exists g'. split; [exact E|]. intros ant. rewrite P.
      destruct (Nat.eqb_spec ant a) as [->|]; [rewrite G; reflexivity|]. destruct (g ant); reflexivity.
Qed.
Lemma replace_spec c l : forall g, NoDup l ->
  let m := average_unflagged c g in
  match replace c (fun _ => false) false 0 g l with
  | Some g' => (forall ant, g' ant = match g ant with Some v => Some v | None => if existsb (Nat.eqb ant) l then Some (plain c m) else None end) /\
      (m = 0 -> forall ant, In ant l -> g ant <> None)
  | None => m = 0 /\ exists ant, In ant l /\ g ant = None
  end.
Proof.
  induction l as [|a l IH]; intros g D; cbn [replace existsb].
  - split; [|intros _ ? []]. intros ant. destruct (g ant); reflexivity.
  - inversion_clear D. cbn zeta in *. destruct (g a) eqn:G.
    + assert (A := IH g H0). destruct (replace _ _ _ _ g l).
      * destruct A as [A B]. split.
        -- intros ant. rewrite A. destruct (g ant) eqn:Ga; [reflexivity|]. destruct (Nat.eqb_spec ant a); [congruence|reflexivity].
        -- intros Z ant [<-|I]; [congruence|auto].
      * destruct A as [A (b & I & N)]. split; [exact A|]. exists b. split; [right|]; assumption.
    + cbn [orb]. destruct (Req_EM_T (average_unflagged c g) 0) as [Z|Z].
      * split; [exact Z|]. exists a. split; [left; reflexivity|exact G].
      * destruct (replace_computed c (fun _ => false) (average_unflagged c g) l (fun b => if (b =? a)%nat then Some (plain c (average_unflagged c g)) else g b) H0) as (g' & E & P).
        rewrite E. split; [|contradiction]. intros ant. rewrite P. destruct (Nat.eqb_spec ant a) as [->|]; [rewrite G; reflexivity|]. destruct (g ant); reflexivity.
Qed.

Lemma propagated c vis mvis g : (0 < n_un c)%nat -> let r := init_gains c vis mvis false (fun _ => false) g in
  (exists m, mean_amplitude c g m /\ forall ant, (ant < n_un c)%nat -> match g ant with Some v => r ant = Some v | None => exists v, r ant = Some v /\ only_amplitude c m v end) \/
  ((exists ant, (ant < n_un c)%nat /\ g ant = None) /\ (forall m, mean_amplitude c g m -> m = 0) /\ r = init_gains c vis mvis true (fun _ => false) g).
Proof.
  intros N0. cbn zeta. unfold init_gains. assert (A := replace_spec c (seq 0 (n_un c)) g (seq_NoDup _ _)). cbn zeta in *. destruct (replace c _ false 0 g (seq 0 (n_un c))) as [g'|].
  - destruct A as [A B]. left. destruct (average_spec c g) as [(m & M & Q)|[Q Z]].
    + exists m. split; [exact M|]. intros ant L. assert (V := A ant). destruct (g ant); [exact V|]. exists (plain c m).
      rewrite V, Q. destruct (existsb _ _) eqn:X.
      * split; [reflexivity|]. unfold only_amplitude, plain. destruct (n_cr c =? 4)%nat; cbn; auto.
      * exfalso. rewrite <- not_true_iff_false in X. apply X. apply existsb_exists. exists ant. split; [apply in_seq; lia|apply Nat.eqb_refl].
    + exfalso. apply (B Q 0%nat); [apply in_seq; lia|]. apply Z, N0.
  - right. destruct A as [A (ant & I & N)]. split; [exists ant; split; [apply in_seq in I; lia|exact N]|]. split; [|reflexivity].
    intros m M. destruct (average_spec c g) as [(m' & M' & Q)|[Q Z]].
    + rewrite A in Q. subst m'. destruct M as [P M]. destruct M' as [_ M']. rewrite <- M', Rmult_0_l in M.
      apply Rmult_integral in M as [M|M]; [exact M|]. exfalso. apply P. apply length_zero_iff_nil. apply INR_eq. exact M.
    + exfalso. destruct M as [P _]. apply P.
      assert (H : forall l, (forall x, In x l -> g x = None) -> flat_map (fun ant => match g ant with None => [] | Some v => if (n_cr c =? 4)%nat then [rabs (v 0%nat); rabs (v 3%nat)] else [rabs (v 0%nat)] end) l = []).
      { induction l as [|b l IH]; intros H; [reflexivity|]. cbn. rewrite (H b) by (left; reflexivity). apply IH. intros x J. apply H. right. exact J. }
      apply H. intros x J. apply Z. apply in_seq in J. lia.
Qed.

(** C94: with the solutions of the previous interval to start from, those of the stations that were not flagged are kept; the others start with the mean amplitude of these.
    If there are none, or all are zero, everything starts anew *)
Theorem C94_propagate c vis mvis s : (0 < n_un c)%nat -> let g := get_solution c s in let r := init_gains c vis mvis false (fun _ => false) g in
  (exists m, mean_amplitude c g m /\ forall ant, (ant < n_un c)%nat ->
     exists v, r ant = Some v /\ if flagged s (ant mod n_st c) then only_amplitude c m v else v = gain s ant) \/
  ((exists ant, (ant < n_un c)%nat /\ flagged s (ant mod n_st c) = true) /\ (forall m, mean_amplitude c g m -> m = 0) /\ r = init_gains c vis mvis true (fun _ => false) g).
Proof.
  intros N0. cbn zeta. destruct (propagated c vis mvis (get_solution c s) N0) as [(m & M & H)|((ant & A & B) & M & H)].
  - left. exists m. split; [exact M|]. intros ant L. specialize (H ant L). unfold get_solution at 1 in H. destruct (flagged s (ant mod n_st c)); [exact H|]. exists (gain s ant). auto.
  - right. split; [|auto]. exists ant. split; [exact A|]. unfold get_solution in B. destruct (flagged s (ant mod n_st c)); [reflexivity|discriminate].
Qed.

Lemma fronorm_sum c g : fronorm c g = sqrt (rsum (map (fun e => rnorm (g (fst e) (snd e))) (list_prod (seq 0 (n_un c)) (seq 0 (n_cr c))))).
Proof.
  unfold fronorm. f_equal.
  assert (H : forall l acc, fold_left (fun acc ant => fold_left (fun acc cr => acc + rabs (rmul (g ant cr) (g ant cr))) (seq 0 (n_cr c)) acc) l acc =
    acc + rsum (map (fun e => rnorm (g (fst e) (snd e))) (list_prod l (seq 0 (n_cr c))))).
  { induction l as [|u l IH]; intros acc; [cbn; unfold rsum; cbn; lra|]. cbn [fold_left list_prod]. rewrite IH, fold_rsum, map_app, rsum_app, map_map.
    rewrite (map_ext (fun e => rabs (rmul (g u e) (g u e))) (fun e => rnorm (g (fst (u, e)) (snd (u, e))))); [lra|]. intros cr. cbn. rewrite rabs_mul. apply rabs_square. }
  rewrite H. lra.
Qed.

(** C94: the iterations end only if the last estimate differs from the one before it by no more than the tolerance, relative to the root of the sum of the squares of the gains; and
    then the gains are that last estimate.  (If all gains are zero, the code goes on for one iteration.) *)
Theorem C94_converged c vis mvis iter o1 o2 a : 0 <= tolerance c -> (exists st, (st < n_st c)%nat /\ flagged (now a) st = false) ->
  let r := do_step c vis mvis iter o1 o2 a in let before := half_step c vis mvis o1 (now a) in let last := half_step c vis mvis o2 before in
  let power g := rsum (map (fun e => rnorm (g (fst e) (snd e))) (list_prod (seq 0 (n_un c)) (seq 0 (n_cr c)))) in
  0 < power (gain last) ->
  let close := power (fun u cr => rsub (gain last u cr) (gain before u cr)) <= tolerance c * tolerance c * power (gain last) in
  (fst r = Converged -> now (snd r) = last /\ close) /\ (fst r = NotConverged -> ~ close).
Proof.
  intros T (st & S & F) r before last power P close. unfold r, do_step. cbn [now gold gx gxx dg dgx bad_iters very_bad_iters]. clear r.
  replace (forallb (flagged (now a)) (seq 0 (n_st c))) with false.
  2: { symmetry. rewrite <- not_true_iff_false. intros E. rewrite forallb_forall in E. rewrite (E st) in F by (apply in_seq; lia). discriminate. }
  fold before. fold last. unfold relax. replace (n_st c =? 0)%nat with false by (symmetry; apply Nat.eqb_neq; lia). cbn [now gold gx gxx dg dgx bad_iters very_bad_iters].
  destruct (count_bad _ _ _) as [bad very]. destruct (_ && _)%bool; [cbn; split; discriminate|].
  assert (C' : change c (gain last) (gain before) <= tolerance c <-> close).
  { unfold change. rewrite !fronorm_sum. change (rsum _) with (power (fun u cr => rsub (gain last u cr) (gain before u cr))) at 1.
    assert (D0 : 0 <= power (fun u cr => rsub (gain last u cr) (gain before u cr))).
    { apply rsum_nonneg. intros x I. apply in_map_iff in I as (e & <- & _). apply rnorm_nonneg. }
    fold (power (gain last)). unfold close. set (d := power (fun _ _ => _)) in *. set (w := power (gain last)) in *. clearbody d w.
    assert (W : 0 < sqrt w) by (apply sqrt_lt_R0; exact P). assert (W2 := sqrt_sqrt w ltac:(lra)). assert (D2 := sqrt_sqrt d D0). assert (D1 := sqrt_pos d). split; intros H.
    - apply (Rmult_le_compat_r (sqrt w)) in H; [|lra]. unfold Rdiv in H. rewrite Rmult_assoc, Rinv_l, Rmult_1_r in H by lra. rewrite <- D2, <- W2.
      replace (tolerance c * tolerance c * (sqrt w * sqrt w)) with (tolerance c * sqrt w * (tolerance c * sqrt w)) by ring. apply Rmult_le_compat; lra.
    - apply (Rmult_le_reg_r (sqrt w)); [exact W|]. unfold Rdiv. rewrite Rmult_assoc, Rinv_l, Rmult_1_r by lra. rewrite <- (sqrt_square (tolerance c)) by exact T.
      rewrite <- sqrt_mult by nra. apply sqrt_le_1_alt. exact H. }
  destruct (Rle_dec _ _) as [L|L]; cbn [fst snd now].
  - split; [|discriminate]. intros _. split; [reflexivity|]. now apply C'.
  - split; [discriminate|]. intros _ X. apply L. now apply C'.
Qed.

(** * Examples *)
(** Of a station whose feed has a signal *)
Example estimate_example : exists l, lists_all dead_config 1 l /\ estimate Default (misfit dead_config dead_vis dead_mvis (fun _ => RC 2 0) l) (RC (1 / 4) 0).
Proof.
  destruct dead_a as (A0 & A1 & A2 & A3 & A4 & A5 & AF). exists (places dead_config 1). assert (L := places_all dead_config 1 ltac:(discriminate) ltac:(cbn; lia)). split; [exact L|].
  rewrite <- A1. assert (F := AF 1%nat). change (1 =? 0)%nat with false in F.
  exact (C94_estimate dead_config dead_vis dead_mvis [0; 1; 2; 3; 4; 5]%nat dead_start 1 _ ltac:(discriminate) (Permutation_refl _) ltac:(cbn; lia) L F).
Qed.
Example flagged_example : flagged dead_start 0%nat = false /\ flagged (half_step dead_config dead_vis dead_mvis [0; 1; 2; 3; 4; 5]%nat dead_start) 0%nat = true /\
  flagged (half_step dead_config dead_vis dead_mvis [0; 1; 2; 3; 4; 5]%nat dead_start) 1%nat = false.
Proof. destruct dead_a as (_ & _ & _ & _ & _ & _ & AF). rewrite !AF. auto. Qed.
Example threads_example : forall u, In u [1; 2; 4; 5]%nat -> gain (half_step dead_config dead_vis dead_mvis [0; 1; 2; 3; 4; 5]%nat dead_start) u 0%nat =
  gain (half_step dead_config dead_vis dead_mvis [3; 4; 5; 0; 1; 2]%nat dead_start) u 0%nat.
Proof.
  destruct dead_a as (_ & _ & _ & _ & _ & _ & AF). intros u I. apply C94_threads; try discriminate; try reflexivity; try exact (Permutation_app_comm [3; 4; 5]%nat [0; 1; 2]%nat).
  - destruct I as [<-|[<-|[<-|[<-|[]]]]]; cbn; lia.
  - left. rewrite AF. destruct I as [<-|[<-|[<-|[<-|[]]]]]; reflexivity.
Qed.
(** The phases of the two stations differ by a quarter turn, as in the data *)
Definition phase_right : alg := init_alg (State (fun u _ => if (u =? 0)%nat then rc1 else RC 0 1) (fun _ => false)) (fun _ _ => rc0) (fun _ _ => rc0) (fun _ _ => rc0).
Lemma phase_keep s : gain s 0%nat 0%nat = rc1 -> gain s 1%nat 0%nat = RC 0 1 -> flagged s = (fun _ => false) ->
  let s' := half_step phase_config phase_vis phase_mvis [0; 1]%nat s in gain s' 0%nat 0%nat = rc1 /\ gain s' 1%nat 0%nat = RC 0 1 /\ flagged s' = (fun _ => false).
Proof.
  intros G0 G1 F. unfold half_step, step_unpolarized, phase_config. cbn [c_mode fold_left].
  rewrite (solve_new _ _ _ _ _ 0 1 rc1); [|rewrite F; reflexivity|unfold sums; cbn; rewrite G0, G1; f_equal; [unfold rnorm; cbn; lra|apply rc_eq; cbn; lra]|lra|apply rc_neq; cbn; lra].
  rewrite (solve_new _ _ _ _ _ 1 1 (RC 0 1)); [|cbn; rewrite F; reflexivity|unfold sums; cbn; rewrite G0, G1; f_equal; [unfold rnorm; cbn; lra|apply rc_eq; cbn; lra]|lra|apply rc_neq; cbn; lra].
  cbn [gain flagged c_mode constrain]. split; [|split; [|exact F]]; unfold set_gain; cbn; apply rc_eq; unit_abs.
Qed.
Lemma phase_exact : exactly phase_config phase_vis phase_mvis (gain (now phase_right)).
Proof.
  intros [s2 p2 t h p1 s1] (A & B & D & E & F & G). cbn [StefSpec.st2 StefSpec.pol2 StefSpec.time StefSpec.ch StefSpec.pol1 StefSpec.st1 n_st sol_int n_chan phase_config] in *.
  destruct t; [|lia]. destruct h; [|lia]. destruct s2 as [|[|]], p2 as [|[|]], p1 as [|[|]], s1 as [|[|]]; try lia; apply rc_eq; cbn; ring.
Qed.
Example exact_example : let r := do_step phase_config phase_vis phase_mvis 0 [0; 1]%nat [0; 1]%nat phase_right in
  fst r = Converged /\ gain (now (snd r)) 1%nat 0%nat = RC 0 1 /\ rabs (gain (now (snd r)) 1%nat 0%nat) = 1.
Proof.
  assert (R : flagged (now (snd (do_step phase_config phase_vis phase_mvis 0 [0; 1]%nat [0; 1]%nat phase_right))) = (fun _ => false)).
  { destruct (phase_keep (now phase_right) eq_refl eq_refl eq_refl) as (A & B & D). destruct (phase_keep _ A B D) as (A' & B' & D').
    unfold do_step. cbn [now gold gx gxx dg dgx bad_iters very_bad_iters phase_right init_alg phase_config n_st seq forallb flagged andb].
    match goal with |- flagged (now (snd (relax ?c ?i ?x))) = _ => destruct (C94_relaxed c i x) as (w1 & w2 & w3 & w4 & _ & _ & F & _); rewrite F end. exact D'. }
  assert (A : forall u, (u < n_un phase_config)%nat -> allowed_gain (c_mode phase_config) (gain (now phase_right) u 0%nat)).
  { intros u _. cbn. destruct (u =? 0)%nat; unit_abs. }
  destruct (C94_exact phase_config phase_vis phase_mvis 0 [0; 1]%nat [0; 1]%nat phase_right ltac:(lia) ltac:(cbn; lra) ltac:(cbn; lia) (Permutation_refl _) (Permutation_refl _) phase_exact A) as [X Y].
  { intros st _. rewrite R. reflexivity. }
  cbn zeta in *. set (r := do_step _ _ _ _ _ _ _) in *. split; [exact X|]. split; [rewrite Y by (cbn; lia); reflexivity|].
  refine (C94_unit phase_config phase_vis phase_mvis 0 [0; 1]%nat [0; 1]%nat phase_right eq_refl (Permutation_refl _) (Permutation_refl _) _ 1%nat _ _); fold r.
  - rewrite X. discriminate.
  - cbn. lia.
  - rewrite R. reflexivity.
Qed.
(** Two stations, with matrices; all is one *)
Definition matrix_config : config := Config 2 1 1 FullJones false (1 / 100000) true.
Definition matrix_vis (k : nat) : rc := if existsb (Nat.eqb k) [1; 7; 8; 14]%nat then rc1 else rc0.
Definition matrix_start : state := State (fun _ cr => if ((cr =? 0) || (cr =? 3))%nat%bool then RC 2 0 else rc0) (fun _ => false).
Example matrix_example : let s := half_step matrix_config matrix_vis matrix_vis [] matrix_start in
  flagged s 0%nat = false /\ flagged s 1%nat = false /\ gain s 0%nat 0%nat = RC (1 / 2) 0 /\ gain s 0%nat 1%nat = rc0.
Proof.
  unfold half_step, matrix_config, step_polarized. cbn [c_mode n_st seq fold_left].
  assert (H : forall s st, (st < 2)%nat -> flagged s st = false -> exists g, solve_station (Config 2 1 1 FullJones false (1 / 100000) true) matrix_vis matrix_vis (fun st cr => rconj (gain matrix_start st cr)) s st = State g (flagged s) /\
    (forall u cr, u <> st -> g u cr = gain s u cr) /\ g st 0%nat = RC (1 / 2) 0 /\ g st 1%nat = rc0).
  { intros s st L F. unfold solve_station. rewrite F.
    set (c := Config 2 1 1 FullJones false (1 / 100000) true). set (h := fun st cr => rconj (gain matrix_start st cr)).
    assert (W0 : w_of c matrix_vis h st 0 = RC 4 0) by (unfold w_of, total; destruct st as [|[|]]; [| |lia]; apply rc_eq; cbn; ring).
    assert (W1 : w_of c matrix_vis h st 1 = rc0) by (unfold w_of, total; destruct st as [|[|]]; [| |lia]; apply rc_eq; cbn; ring).
    assert (W2 : w_of c matrix_vis h st 2 = rc0) by (unfold w_of, total; destruct st as [|[|]]; [| |lia]; apply rc_eq; cbn; ring).
    assert (W3 : w_of c matrix_vis h st 3 = RC 4 0) by (unfold w_of, total; destruct st as [|[|]]; [| |lia]; apply rc_eq; cbn; ring).
    assert (T0 : t_of c matrix_vis matrix_vis h st 0 = RC 2 0) by (unfold t_of, total; destruct st as [|[|]]; [| |lia]; apply rc_eq; cbn; ring).
    assert (T1 : t_of c matrix_vis matrix_vis h st 1 = rc0) by (unfold t_of, total; destruct st as [|[|]]; [| |lia]; apply rc_eq; cbn; ring).
    assert (T2 : t_of c matrix_vis matrix_vis h st 2 = rc0) by (unfold t_of, total; destruct st as [|[|]]; [| |lia]; apply rc_eq; cbn; ring).
    assert (T3 : t_of c matrix_vis matrix_vis h st 3 = RC 2 0) by (unfold t_of, total; destruct st as [|[|]]; [| |lia]; apply rc_eq; cbn; ring).
    cbn zeta. rewrite W0, W1, W2, W3, T0, T1, T2, T3. destruct (Req_EM_T _ _) as [Z|Z]; [exfalso; apply rabs_0 in Z; apply (f_equal re) in Z; cbn in Z; lra|].
    eexists. split; [reflexivity|]. split; [intros u cr D; unfold set_gain; apply Nat.eqb_neq in D; rewrite D; reflexivity|].
    unfold set_gain. rewrite Nat.eqb_refl. cbn [andb Nat.eqb]. unfold rinv, rnorm. split; apply rc_eq; cbn; field. }
  destruct (H matrix_start 0%nat ltac:(lia) eq_refl) as (g & -> & _ & G0 & G1). destruct (H (State g (flagged matrix_start)) 1%nat ltac:(lia) eq_refl) as (g' & -> & O & _ & _).
  cbn [gain flagged]. rewrite !O by lia. auto.
Qed.
Example stall_example : fst (iterations phase_config phase_vis phase_mvis 0 [([0; 1], [0; 1])]%nat NotConverged phase_right) = Converged.
Proof.
  cbn [iterations]. destruct exact_example as (X & _ & _). destruct (do_step _ _ _ _ _ _ _) as [st a]. cbn [fst iterations] in *. exact X.
Qed.
(** Of twelve visibilities of the model eight are in the data *)
Example init_example : exists x, only_amplitude dead_config x (match init_gains dead_config dead_vis dead_mvis true (fun _ => false) (fun _ => None) 0 with Some v => v | None => fun _ => rc0 end) /\
  x * x * (x * x) * 12 = 8.
Proof.
  destruct (C94_init dead_config dead_vis dead_mvis 0 (fun _ => false) (fun _ => None)) as (x & _ & A & _ & B). exists x. split; [exact A|].
  assert (T : 1 < 10 ^ 30) by (apply Rlt_pow_R1; [lra|lia]). assert (Q : / 10 ^ 30 < 1) by (apply (Rmult_lt_reg_l (10 ^ 30)); [lra|]; rewrite Rinv_r by lra; lra).
  assert (M : rsum (map (fun k => rnorm (dead_mvis k)) (seq 0 (size dead_config))) = 12) by (unfold rsum, rnorm, dead_mvis; cbn; lra).
  rewrite M in B. specialize (B ltac:(discriminate) ltac:(lra)).
  assert (V : rsum (map (fun k => rnorm (dead_vis k)) (seq 0 (size dead_config))) = 8) by (unfold rsum, rnorm, dead_vis; cbn; lra). rewrite V in B. rewrite <- B. clear.
  unfold rsum, rnorm, dead_mvis. cbn. ring.
Qed.
(** One of two stations is flagged *)
Example propagate_example : exists m, mean_amplitude phase_config (get_solution phase_config (State (fun _ _ => RC 3 0) (fun st => (st =? 0)%nat))) m /\ m = 3.
Proof.
  exists 3. split; [|reflexivity]. unfold mean_amplitude. cbn. split; [discriminate|]. unfold rsum, rabs, rnorm. cbn. replace (3 * 3 + 0 * 0) with (3 * 3) by ring. rewrite sqrt_square; lra.
Qed.

Print Assumptions C94_estimate.
Print Assumptions C94_flagged.
Print Assumptions C94_matrix_estimate.
Print Assumptions C94_threads.
Print Assumptions C94_threads_refuted.
Print Assumptions C94_exact.
Print Assumptions C94_unit.
Print Assumptions C94_unit_refuted.
Print Assumptions C94_stall.
Print Assumptions C94_relaxed.
Print Assumptions C94_converged.
Print Assumptions C94_init.
Print Assumptions C94_propagate.
