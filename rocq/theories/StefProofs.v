(** Proofs about the estimates of the gains of the stations. *)
From Coq Require Import Reals List Arith Bool Lia Lra Permutation Psatz.
From Verif Require Import RealCplx StefModel StefSpec.
Import ListNotations.
Open Scope R_scope.

(** * Sums *)
Lemma rsum_cons x l : rsum (x :: l) = x + rsum l. Proof. reflexivity. Qed.
Lemma csum_cons x l : csum (x :: l) = radd x (csum l). Proof. reflexivity. Qed.
Lemma rsum_app l m : rsum (l ++ m) = rsum l + rsum m.
Proof. induction l as [|x l IH]; cbn [app]; rewrite ?rsum_cons, ?IH; [cbn|]; lra. Qed.
Lemma csum_app l m : csum (l ++ m) = radd (csum l) (csum m).
Proof. induction l as [|x l IH]; cbn [app]; rewrite ?csum_cons, ?IH; [cbn|]; ring. Qed.
Lemma rsum_perm l m : Permutation l m -> rsum l = rsum m.
Proof. unfold rsum. induction 1; cbn; lra. Qed.
Lemma csum_perm l m : Permutation l m -> csum l = csum m.
Proof. unfold csum. induction 1; cbn; try congruence; ring. Qed.
Lemma rsum_nonneg l : (forall x, In x l -> 0 <= x) -> 0 <= rsum l.
Proof. induction l as [|x l IH]; intros H; [cbn; lra|]. rewrite rsum_cons. assert (0 <= x) by (apply H; now left). assert (0 <= rsum l) by (apply IH; intros; apply H; now right). lra. Qed.
Lemma rsum_zero l : (forall x, In x l -> 0 <= x) -> rsum l = 0 -> forall x, In x l -> x = 0.
Proof.
  induction l as [|y l IH]; intros P E x I; [destruct I|]. rewrite rsum_cons in E.
  assert (0 <= y) by (apply P; now left). assert (0 <= rsum l) by (apply rsum_nonneg; intros; apply P; now right).
  destruct I as [<-|I]; [lra|]. apply IH; auto; [intros; apply P; now right|lra].
Qed.
Lemma seq_shifted a n : seq a n = map (Nat.add a) (seq 0 n).
Proof. induction a as [|a IH]; [now rewrite map_id|]. rewrite <- seq_shift, IH, map_map. reflexivity. Qed.
Lemma map_seq_mul {A} (f : nat -> A) a b : map f (seq 0 (a * b)) = flat_map (fun i => map (fun j => f (i * b + j)%nat) (seq 0 b)) (seq 0 a).
Proof.
  induction a as [|a IH]; [reflexivity|]. replace (S a * b)%nat with (a * b + b)%nat by lia. rewrite seq_app, map_app, IH.
  rewrite seq_S, flat_map_app. cbn [flat_map Nat.add]. rewrite app_nil_r. f_equal. rewrite seq_shifted, map_map. reflexivity.
Qed.
Lemma flat_map_map' {A B C} (f : B -> list C) (g : A -> B) l : flat_map f (map g l) = flat_map (fun x => f (g x)) l.
Proof. induction l as [|x l IH]; [reflexivity|]. cbn. now rewrite IH. Qed.
Lemma flat_map_flat_map {A B C} (f : B -> list C) (g : A -> list B) l : flat_map f (flat_map g l) = flat_map (fun x => flat_map f (g x)) l.
Proof. induction l as [|x l IH]; [reflexivity|]. cbn. now rewrite flat_map_app, IH. Qed.
Lemma map_flat_map {A B C} (f : B -> C) (g : A -> list B) l : map f (flat_map g l) = flat_map (fun x => map f (g x)) l.
Proof. induction l as [|x l IH]; [reflexivity|]. cbn. now rewrite map_app, IH. Qed.
Lemma flat_map_seq_mul {A} (f : nat -> list A) a b : flat_map f (seq 0 (a * b)) = flat_map (fun i => flat_map (fun j => f (i * b + j)%nat) (seq 0 b)) (seq 0 a).
Proof.
  rewrite <- (map_id (seq 0 (a * b))), map_seq_mul, flat_map_flat_map. apply flat_map_ext. intros i. now rewrite flat_map_map'.
Qed.
Lemma flat_map_ext_in {A B} (f g : A -> list B) l : (forall x, In x l -> f x = g x) -> flat_map f l = flat_map g l.
Proof. induction l as [|x l IH]; intros H; [reflexivity|]. cbn. rewrite (H x), IH; auto; [intros; apply H; now right|now left]. Qed.
Lemma fold_flat {A B S} (f : S -> B -> S) (g : A -> list B) l s : fold_left (fun s x => fold_left f (g x) s) l s = fold_left f (flat_map g l) s.
Proof. revert s. induction l as [|x l IH]; intros s; [reflexivity|]. cbn. now rewrite fold_left_app, IH. Qed.
Lemma fold_map {A B S} (f : S -> B -> S) (g : A -> B) l s : fold_left (fun s x => f s (g x)) l s = fold_left f (map g l) s.
Proof. revert s. induction l as [|x l IH]; intros s; [reflexivity|]. cbn. apply IH. Qed.
Lemma fold_ext {A S} (f g : S -> A -> S) l s : (forall s x, f s x = g s x) -> fold_left f l s = fold_left g l s.
Proof. intros H. revert s. induction l as [|x l IH]; intros s; [reflexivity|]. cbn. now rewrite H, IH. Qed.
Lemma fold_sums {A} (f : A -> R) (g : A -> rc) l a b :
  fold_left (fun (acc : R * rc) e => (fst acc + f e, radd (snd acc) (g e))) l (a, b) = (a + rsum (map f l), radd b (csum (map g l))).
Proof.
  revert a b. induction l as [|x l IH]; intros a b; cbn [map fold_left].
  - f_equal; [cbn; lra|cbn; ring].
  - cbn [fst snd]. rewrite IH, rsum_cons, csum_cons. f_equal; [lra|ring].
Qed.
Lemma fold_csum {A} (g : A -> rc) l b : fold_left (fun acc e => radd acc (g e)) l b = radd b (csum (map g l)).
Proof. revert b. induction l as [|x l IH]; intros b; cbn [map fold_left]; [cbn; ring|]. rewrite IH, csum_cons. ring. Qed.
Lemma fold_rsum {A} (g : A -> R) l b : fold_left (fun acc e => acc + g e) l b = b + rsum (map g l).
Proof. revert b. induction l as [|x l IH]; intros b; cbn [map fold_left]; [cbn; lra|]. rewrite IH, rsum_cons. lra. Qed.

(** * The places of an unknown *)
Definition visited (c : config) (u : nat) : list (nat * nat) :=
  let off := position c 0 0 0 0 (u / n_st c) (u mod n_st c) in
  flat_map (fun i => map (fun st2 => ((off + (i * n_un c + st2))%nat, st2)) (seq 0 (n_un c))) (seq 0 (n_sp c * n_chan c * sol_int c * n_sp c)).
Definition places (c : config) (u : nat) : list place :=
  flat_map (fun p1 => flat_map (fun h => flat_map (fun t => flat_map (fun p2 => map (fun s2 => Place s2 p2 t h p1 (u mod n_st c)) (seq 0 (n_st c))) (seq 0 2))
    (seq 0 (sol_int c))) (seq 0 (n_chan c))) (if scalar c then seq 0 2 else [(u / n_st c)%nat]).
Lemma places_visited c u : c_mode c <> FullJones -> (u < n_un c)%nat ->
  map (fun p => (position c (st2 p) (pol2 p) (time p) (ch p) (pol1 p) (st1 p), unknown c (st2 p) (pol2 p))) (places c u) = visited c u.
Proof.
  intros M U. unfold places, visited, n_un, n_sp, unknown in *. destruct (scalar c).
  - assert (U' : (u < n_st c)%nat) by (destruct (c_mode c); auto; congruence).
    replace (match c_mode c with FullJones => 1 | _ => 2 end)%nat with 2%nat by (destruct (c_mode c); auto; congruence).
    replace (match c_mode c with FullJones => n_st c | _ => n_st c end)%nat with (n_st c) by (destruct (c_mode c); auto).
    rewrite (Nat.div_small u), (Nat.mod_small u) by auto.
    rewrite flat_map_seq_mul, flat_map_seq_mul, flat_map_seq_mul, map_flat_map. apply flat_map_ext. intros p1. rewrite map_flat_map. apply flat_map_ext. intros h.
    rewrite map_flat_map. apply flat_map_ext. intros t. rewrite map_flat_map. apply flat_map_ext. intros p2. rewrite map_map. apply map_ext. intros s2.
    cbn [st2 pol2 time ch pol1 st1]. f_equal. unfold position. ring.
  - assert (U' : (u < 2 * n_st c)%nat) by (destruct (c_mode c); auto; congruence).
    replace (match c_mode c with FullJones => 1 | _ => 1 end)%nat with 1%nat by (destruct (c_mode c); auto).
    replace (match c_mode c with FullJones => n_st c | _ => 2 * n_st c end)%nat with (2 * n_st c)%nat by (destruct (c_mode c); auto; congruence).
    cbn [flat_map]. rewrite app_nil_r. replace (1 * n_chan c * sol_int c * 1)%nat with (n_chan c * sol_int c)%nat by lia.
    rewrite flat_map_seq_mul, map_flat_map. apply flat_map_ext. intros h. rewrite map_flat_map. apply flat_map_ext. intros t. rewrite map_seq_mul, map_flat_map. apply flat_map_ext. intros p2.
    rewrite map_map. apply map_ext. intros s2. cbn [st2 pol2 time ch pol1 st1]. f_equal; [unfold position|]; ring.
Qed.
Lemma visited_fst c u : map fst (visited c u) = seq (position c 0 0 0 0 (u / n_st c) (u mod n_st c)) (n_sp c * n_chan c * sol_int c * n_sp c * n_un c).
Proof.
  unfold visited. rewrite map_flat_map, (seq_shifted (position _ _ _ _ _ _ _)), map_seq_mul. apply flat_map_ext. intros i. rewrite map_map. reflexivity.
Qed.
Lemma places_all c u : c_mode c <> FullJones -> (u < n_un c)%nat -> lists_all c u (places c u).
Proof.
  intros M U. split.
  - pose proof (f_equal (map fst) (places_visited c u M U)) as E. rewrite visited_fst, map_map in E. cbn [fst] in E.
    eapply NoDup_map_inv. rewrite E. apply seq_NoDup.
  - intros [s2 p2 t h p1 s1]. unfold places, inside, unknown, n_un in *. cbn [st2 pol2 time ch pol1 st1].
    assert (U' : (u < (if scalar c then n_st c else 2 * n_st c))%nat) by (destruct (c_mode c); auto; congruence). clear U.
    assert (N : (n_st c <> 0)%nat) by (destruct (scalar c); lia).
    pose proof (Nat.div_mod u (n_st c) N). pose proof (Nat.mod_upper_bound u (n_st c) N).
    split.
    + intros I. apply in_flat_map in I as (p1' & I1 & I). apply in_flat_map in I as (h' & I2 & I). apply in_flat_map in I as (t' & I3 & I).
      apply in_flat_map in I as (p2' & I4 & I). apply in_map_iff in I as (s2' & E & I5). injection E as -> -> -> -> -> <-.
      apply in_seq in I2, I3, I4, I5. destruct (scalar c).
      * apply in_seq in I1. rewrite Nat.mod_small in * by auto. lia.
      * destruct I1 as [<-|[]]. assert (u / n_st c < 2)%nat by (apply Nat.div_lt_upper_bound; lia). repeat split; try lia.
    + intros [(A & B & C' & D & E & F) K]. apply in_flat_map. exists p1. split.
      * destruct (scalar c); [apply in_seq; lia|]. left. subst u. rewrite (Nat.mul_comm (n_st c)), Nat.div_add, (Nat.div_small s1) by auto. lia.
      * apply in_flat_map. exists h. split; [apply in_seq; lia|]. apply in_flat_map. exists t. split; [apply in_seq; lia|].
        apply in_flat_map. exists p2. split; [apply in_seq; lia|]. apply in_map_iff. exists s2. split; [|apply in_seq; lia]. f_equal.
        subst u. destruct (scalar c); [apply Nat.mod_small; auto|]. rewrite (Nat.mul_comm (n_st c)), Nat.mod_add by auto. now apply Nat.mod_small.
Qed.
Lemma lists_perm c u l : c_mode c <> FullJones -> (u < n_un c)%nat -> lists_all c u l -> Permutation l (places c u).
Proof.
  intros M U [N H]. destruct (places_all c u M U) as [N' H']. apply NoDup_Permutation; auto. intros p. rewrite H, H'. reflexivity.
Qed.
Lemma position_bound c p : inside c p -> (position c (st2 p) (pol2 p) (time p) (ch p) (pol1 p) (st1 p) < size c)%nat.
Proof.
  destruct p as [s2 p2 t h p1 s1]. unfold inside, position, size. cbn [st2 pol2 time ch pol1 st1]. intros (A & B & C' & D & E & F).
  set (n := n_st c) in *. set (q := sol_int c) in *. set (m := n_chan c) in *.
  assert (B1 : (p1 + 2 * s1 < 2 * n)%nat) by lia.
  assert (B2 : (h + m * (p1 + 2 * s1) < m * (2 * n))%nat) by nia.
  assert (B3 : (t + q * (h + m * (p1 + 2 * s1)) < q * (m * (2 * n)))%nat) by nia.
  assert (B4 : (p2 + 2 * (t + q * (h + m * (p1 + 2 * s1))) < 2 * (q * (m * (2 * n))))%nat) by lia.
  assert (B5 : (s2 + n * (p2 + 2 * (t + q * (h + m * (p1 + 2 * s1)))) < n * (2 * (q * (m * (2 * n)))))%nat) by nia.
  replace (n * 2 * q * m * 2 * n)%nat with (n * (2 * (q * (m * (2 * n)))))%nat by ring. exact B5.
Qed.
Lemma visited_bound c u k : c_mode c <> FullJones -> (u < n_un c)%nat -> In k (map fst (visited c u)) -> (k < size c)%nat.
Proof.
  intros M U I. rewrite <- places_visited, map_map in I by auto. apply in_map_iff in I as (p & <- & I). cbn [fst]. apply position_bound.
  apply (places_all c u M U). exact I.
Qed.

(** * Least squares for one number *)
Definition cost (d : list (rc * rc)) (x : rc) : R := rsum (map (fun e => rnorm (rsub (snd e) (rmul (fst e) x))) d).
Definition weight (d : list (rc * rc)) : R := rsum (map (fun e => rnorm (fst e)) d).
Definition inner (d : list (rc * rc)) : rc := csum (map (fun e => rmul (rconj (fst e)) (snd e)) d).
Definition power (d : list (rc * rc)) : R := rsum (map (fun e => rnorm (snd e)) d).
Lemma cost_expand d x : cost d x = power d - 2 * re (rmul (rconj x) (inner d)) + weight d * rnorm x.
Proof.
  unfold cost, power, inner, weight. induction d as [|[z v] d IH]; [cbn; lra|]. cbn [map fst snd]. rewrite !rsum_cons, csum_cons, IH.
  set (t := csum _). set (a := rsum (map (fun e => rnorm (fst e)) d)). set (b := rsum (map (fun e => rnorm (snd e)) d)). clearbody t a b.
  destruct z, v, x, t. unfold rnorm, rmul, rsub, rconj, radd. cbn. ring.
Qed.
Lemma weight_nonneg d : 0 <= weight d.
Proof. apply rsum_nonneg. intros x I. apply in_map_iff in I as (e & <- & _). apply rnorm_nonneg. Qed.
Lemma cost_best d x : weight d <> 0 -> cost d x = cost d (rscale (/ weight d) (inner d)) + weight d * rnorm (rsub x (rscale (/ weight d) (inner d))).
Proof.
  intros W. rewrite !cost_expand. set (w := weight d) in *. destruct (inner d) as [a b], x as [p q]. unfold rnorm, rmul, rsub, rconj, rscale. cbn. field. exact W.
Qed.
Lemma rsub_0 a b : rsub a b = rc0 -> a = b.
Proof. intros H. destruct a, b. unfold rsub, rc0 in H. cbn in H. injection H. intros. apply rc_eq; cbn; lra. Qed.
Lemma rnorm_pos a : a <> rc0 -> 0 < rnorm a.
Proof. intros H. destruct (rnorm_nonneg a) as [P|P]; auto. elim H. now apply rnorm_0. Qed.
Lemma best_default d : weight d <> 0 -> best (fun _ => True) (cost d) (rscale (/ weight d) (inner d)).
Proof.
  intros W. split; auto. intros y _ N. rewrite (cost_best d y W). pose proof (weight_nonneg d).
  assert (0 < rnorm (rsub y (rscale (/ weight d) (inner d)))) by (apply rnorm_pos; intros E; now apply N, rsub_0). nra.
Qed.
Lemma rscale_0 x a : x <> 0 -> rscale x a = rc0 -> a = rc0.
Proof. intros X H. destruct a. unfold rscale, rc0 in H. cbn in H. injection H. intros. apply rc_eq; cbn; nra. Qed.
Lemma rabs_scale x a : 0 <= x -> rabs (rscale x a) = x * rabs a.
Proof. intros P. unfold rabs. rewrite rnorm_scale, sqrt_mult by (try apply rnorm_nonneg; nra). now rewrite sqrt_square. Qed.
Lemma rabs_one a : rabs a = 1 -> rnorm a = 1.
Proof. intros H. rewrite <- rabs_square, H. lra. Qed.
Lemma best_phase d : weight d <> 0 -> inner d <> rc0 ->
  best (fun y => rabs y = 1) (cost d) (rscale (/ rabs (rscale (/ weight d) (inner d))) (rscale (/ weight d) (inner d))).
Proof.
  intros W I. pose proof (weight_nonneg d). assert (P : 0 < weight d) by lra. assert (P' : 0 < / weight d) by (now apply Rinv_0_lt_compat).
  pose proof (rabs_pos _ I) as A. rewrite rabs_scale by lra.
  assert (E : rscale (/ (/ weight d * rabs (inner d))) (rscale (/ weight d) (inner d)) = rscale (/ rabs (inner d)) (inner d)).
  { apply rc_eq; cbn; field; lra. }
  rewrite E. set (x := rscale (/ rabs (inner d)) (inner d)).
  assert (P2 : 0 < / rabs (inner d)) by (now apply Rinv_0_lt_compat).
  assert (X : rabs x = 1). { unfold x. rewrite rabs_scale by lra. field. lra. }
  split; auto. intros y Y N. rewrite !cost_expand, (rabs_one y Y), (rabs_one x X).
  assert (Q : rabs (inner d) - re (rmul (rconj y) (inner d)) = rabs (inner d) / 2 * rnorm (rsub y x)).
  { assert (S : rnorm (rsub y x) = rnorm y + rnorm x - 2 * re (rmul (rconj y) x)) by (unfold rnorm; cbn; ring).
    rewrite S, (rabs_one y Y), (rabs_one x X). unfold x. cbn. field. lra. }
  assert (Q' : re (rmul (rconj x) (inner d)) = rabs (inner d)).
  { unfold x. cbn. apply (Rmult_eq_reg_l (rabs (inner d))); [|lra]. rewrite rabs_square. unfold rnorm. field. lra. }
  rewrite Q'. assert (0 < rnorm (rsub y x)) by (apply rnorm_pos; intros Z; now apply N, rsub_0). nra.
Qed.
Lemma best_zero d x : weight d = 0 \/ inner d = rc0 -> cost d rc0 <= cost d x.
Proof.
  intros [W|I]; rewrite !cost_expand.
  - assert (Z : inner d = rc0).
    { unfold weight, inner in *. assert (F : forall e, In e d -> fst e = rc0).
      { intros e E. apply rnorm_0. apply (rsum_zero _) with (x := rnorm (fst e)) in W; auto; [|apply in_map_iff; eauto].
        intros y Y. apply in_map_iff in Y as (e' & <- & _). apply rnorm_nonneg. }
      clear W. induction d as [|[z v] d IH]; [reflexivity|]. cbn [map fst snd]. rewrite csum_cons, IH by (intros; apply F; now right).
      pose proof (F (z, v) (or_introl eq_refl)) as G. cbn in G. subst z. apply rc_eq; cbn; ring. }
    rewrite Z, W. unfold rnorm. cbn. lra.
  - rewrite I. pose proof (weight_nonneg d). pose proof (rnorm_nonneg x). assert (0 <= weight d * rnorm x) by nra. unfold rnorm in *. cbn in *. lra.
Qed.

(** * One unknown *)
Section One.
Variable c : config.
Variables vis mvis : nat -> rc.
(** The pairs to be fitted: the data and the model with the gains of the other side *)
Definition pairs (g : nat -> rc) (l : list place) : list (rc * rc) :=
  map (fun p => (rmul (rconj (g (unknown c (st2 p) (pol2 p)))) (value c mvis p), value c vis p)) l.
Lemma misfit_cost g l x : misfit c vis mvis g l x = cost (pairs g l) x.
Proof. unfold misfit, cost, pairs. rewrite map_map. f_equal. apply map_ext. intros p. cbn [fst snd]. f_equal. f_equal. ring. Qed.
Lemma sums_pairs g u : c_mode c <> FullJones -> (u < n_un c)%nat ->
  sums c vis mvis (fun a => rconj (g a)) u = (weight (pairs g (places c u)), inner (pairs g (places c u))).
Proof.
  intros M U. unfold sums.
  set (F := fun (acc : R * rc) (e : nat * nat) => let z := rmul (rconj (g (snd e))) (mvis (fst e)) in (fst acc + rnorm z, radd (snd acc) (rmul (rconj z) (vis (fst e))))).
  transitivity (fold_left F (visited c u) (0, rc0)).
  { unfold visited. rewrite <- fold_flat. apply fold_ext. intros a i. rewrite <- fold_map. reflexivity. }
  unfold F. rewrite fold_sums. rewrite <- (places_visited c u M U), !map_map. cbn [fst snd]. unfold weight, inner, pairs. rewrite !map_map. cbn [fst snd].
  f_equal; [unfold value; lra|unfold value; ring].
Qed.
Lemma pairs_perm g l l' : Permutation l l' -> weight (pairs g l) = weight (pairs g l') /\ inner (pairs g l) = inner (pairs g l').
Proof. intros P. unfold weight, inner, pairs. rewrite !map_map. split; [apply rsum_perm|apply csum_perm]; now apply Permutation_map. Qed.
End One.

(** * All unknowns *)
Lemma set_gain_same g u cr v : set_gain g u cr v u cr = v.
Proof. unfold set_gain. now rewrite !Nat.eqb_refl. Qed.
Lemma set_gain_other g u cr v u' cr' : u' <> u \/ cr' <> cr -> set_gain g u cr v u' cr' = g u' cr'.
Proof. intros H. unfold set_gain. destruct (Nat.eqb_spec u' u), (Nat.eqb_spec cr' cr); cbn; auto; lia. Qed.
Lemma set_flag_spec f st st' : set_flag f st st' = true <-> f st' = true \/ st' = st.
Proof. unfold set_flag. destruct (Nat.eqb_spec st' st); intuition. Qed.

Section All.
Variable c : config.
Variables vis mvis : nat -> rc.
Variable g : nat -> rc.
Hypothesis M : c_mode c <> FullJones.
Notation h := (fun a => rconj (g a)).
Notation D u := (pairs c vis mvis g (places c u)).
Definition useless (u : nat) : Prop := weight (D u) = 0 \/ inner (D u) = rc0.
Definition fitted (u : nat) : rc := constrain (c_mode c) (rscale (/ weight (D u)) (inner (D u))).

Lemma solve_spec s u : (u < n_un c)%nat ->
  (flagged s (u mod n_st c) = true /\ solve_unknown c vis mvis h s u = s) \/
  (flagged s (u mod n_st c) = false /\ useless u /\ solve_unknown c vis mvis h s u = State (set_gain (gain s) u 0 rc0) (set_flag (flagged s) (u mod n_st c))) \/
  (flagged s (u mod n_st c) = false /\ ~ useless u /\ solve_unknown c vis mvis h s u = State (set_gain (gain s) u 0 (fitted u)) (flagged s)).
Proof.
  intros U. unfold solve_unknown. destruct (flagged s (u mod n_st c)) eqn:F; [left; auto|right].
  rewrite (sums_pairs c vis mvis g u M U). unfold useless, fitted. destruct (Req_EM_T (weight (D u)) 0) as [E|E]; [left; auto|].
  destruct (Req_EM_T (rabs (inner (D u))) 0) as [I|I]; [left; repeat split; auto; right; now apply rabs_0|right].
  repeat split; auto. intros [X|X]; [auto|]. apply I. now apply rabs_0.
Qed.
Lemma fold_flags order s st : (forall u, In u order -> (u < n_un c)%nat) ->
  flagged (fold_left (solve_unknown c vis mvis h) order s) st = true <-> flagged s st = true \/ exists u, In u order /\ u mod n_st c = st /\ useless u.
Proof.
  revert s. induction order as [|u order IH]; intros s B; cbn [fold_left].
  - split; auto. intros [H|(u & [] & _)]; auto.
  - rewrite IH by (intros; apply B; now right). clear IH. assert (U : (u < n_un c)%nat) by (apply B; now left).
    destruct (solve_spec s u U) as [(F & E)|[(F & Z & E)|(F & Z & E)]]; rewrite E; cbn [flagged].
    + split; intros [H|(v & I & V & W)]; auto; [right; exists v; repeat split; auto; now right|].
      destruct I as [<-|I]; [left; now rewrite <- V|right; eauto].
    + rewrite set_flag_spec. split.
      * intros [[H|H]|(v & I & V & W)]; auto; right; [exists u; repeat split; auto; now left|exists v; repeat split; auto; now right].
      * intros [H|(v & [<-|I] & V & W)]; auto; right. exists v. auto.
    + split; intros [H|(v & I & V & W)]; auto; [right; exists v; repeat split; auto; now right|].
      destruct I as [<-|I]; [contradiction|right; eauto].
Qed.
Lemma fold_other order s u cr : (forall u, In u order -> (u < n_un c)%nat) -> ~ In u order \/ cr <> 0%nat ->
  gain (fold_left (solve_unknown c vis mvis h) order s) u cr = gain s u cr.
Proof.
  revert s. induction order as [|v order IH]; intros s B N; cbn [fold_left]; auto.
  assert (V : (v < n_un c)%nat) by (apply B; now left).
  rewrite IH; [|intros; apply B; now right|destruct N as [N|N]; [left; intros I; apply N; now right|auto]].
  assert (Q : u <> v \/ cr <> 0%nat) by (destruct N as [N|N]; auto; left; intros ->; apply N; now left).
  destruct (solve_spec s v V) as [(F & E)|[(F & Z & E)|(F & Z & E)]]; rewrite E; auto; cbn [gain]; now apply set_gain_other.
Qed.
(** The gain of an unknown: as it was if the station is flagged when its turn comes *)
Lemma fold_gain order s u : (forall u, In u order -> (u < n_un c)%nat) -> NoDup order -> In u order ->
  exists before, (forall v, In v before -> In v order /\ v <> u) /\ let s1 := fold_left (solve_unknown c vis mvis h) before s in
  let now := gain (fold_left (solve_unknown c vis mvis h) order s) u 0%nat in
  (flagged s1 (u mod n_st c) = true /\ now = gain s u 0%nat) \/ (flagged s1 (u mod n_st c) = false /\ useless u /\ now = rc0) \/
  (flagged s1 (u mod n_st c) = false /\ ~ useless u /\ now = fitted u).
Proof.
  intros B N I. apply in_split in I as (o1 & o2 & ->). exists o1. apply NoDup_remove in N as [N N']. split.
  { intros v V. split; [apply in_or_app; auto|]. intros ->. apply N', in_or_app. auto. }
  assert (B1 : forall u, In u o1 -> (u < n_un c)%nat) by (intros; apply B, in_or_app; auto).
  assert (B2 : forall u, In u o2 -> (u < n_un c)%nat) by (intros; apply B, in_or_app; right; now right).
  assert (U : (u < n_un c)%nat) by (apply B, in_or_app; right; now left).
  cbn zeta. rewrite fold_left_app. cbn [fold_left]. set (s1 := fold_left (solve_unknown c vis mvis h) o1 s).
  assert (G : gain s1 u 0%nat = gain s u 0%nat) by (apply fold_other; auto; left; intros X; apply N', in_or_app; auto).
  rewrite fold_other by (auto; left; intros X; apply N', in_or_app; auto).
  destruct (solve_spec s1 u U) as [(F & E)|[(F & Z & E)|(F & Z & E)]]; rewrite E; cbn [gain]; rewrite ?set_gain_same; auto.
Qed.
Lemma fold_unflagged order s u : (forall u, In u order -> (u < n_un c)%nat) -> NoDup order -> In u order ->
  flagged (fold_left (solve_unknown c vis mvis h) order s) (u mod n_st c) = false ->
  ~ useless u /\ gain (fold_left (solve_unknown c vis mvis h) order s) u 0%nat = fitted u.
Proof.
  intros B N I F. destruct (fold_gain order s u B N I) as (before & P & C'). cbn zeta in C'.
  assert (X : ~ (flagged s (u mod n_st c) = true \/ exists v, In v order /\ v mod n_st c = u mod n_st c /\ useless v)).
  { intros X. apply (fold_flags order s) in X; auto. congruence. }
  destruct C' as [(F1 & _)|[(_ & Z & _)|(_ & Z & E)]]; auto.
  - elim X. apply fold_flags in F1; [|intros v V; apply B, P, V]. destruct F1 as [F1|(v & V & W & Z)]; auto. right. exists v. repeat split; auto. now apply P.
  - elim X. right. exists u. auto.
Qed.
End All.

Lemma perm_order c order : Permutation order (seq 0 (n_un c)) -> NoDup order /\ (forall u, In u order <-> (u < n_un c)%nat).
Proof.
  intros P. split; [eapply Permutation_NoDup; [symmetry; exact P|apply seq_NoDup]|]. intros u. split; intros I.
  - apply (Permutation_in _ P), in_seq in I. lia.
  - apply (Permutation_in _ (Permutation_sym P)), in_seq. lia.
Qed.
Lemma exact_pairs c vis mvis g u : c_mode c <> FullJones -> (u < n_un c)%nat -> exact c vis mvis g ->
  inner (pairs c vis mvis g (places c u)) = rscale (weight (pairs c vis mvis g (places c u))) (g u).
Proof.
  intros M U E. destruct (places_all c u M U) as [_ H]. unfold inner, weight, pairs. rewrite !map_map. cbn [fst snd].
  assert (Q : forall p, In p (places c u) -> value c vis p = rmul (rconj (g (unknown c (st2 p) (pol2 p)))) (rmul (value c mvis p) (g u))).
  { intros p I. apply H in I as [I K]. now rewrite (E p I), K. }
  clear H. induction (places c u) as [|p l IH]; [apply rc_eq; unfold csum, rsum; cbn; ring|]. cbn [map]. rewrite csum_cons, rsum_cons, IH, (Q p) by (try (intros; apply Q; now right); now left).
  generalize (rconj (g (unknown c (st2 p) (pol2 p)))). intros a.
  generalize (rsum (map (fun x => rnorm (rmul (rconj (g (unknown c (st2 x) (pol2 x)))) (value c mvis x))) l)). intros w. apply rc_eq; unfold rnorm; cbn; ring.
Qed.
Lemma constrain_allowed m x : allowed_gain m x -> constrain m x = x.
Proof.
  destruct m; cbn; auto.
  - intros H. rewrite H. apply rc_eq; cbn; field.
  - intros [P I]. destruct x as [a b]. cbn in *. subst b. f_equal. unfold rabs, rnorm. cbn. replace (a * a + 0 * 0) with (a * a) by ring. now apply sqrt_square.
Qed.

(** * Least squares for two numbers *)
Definition row := (rc * rc * rc)%type.
Definition cost2 (d : list row) (x y : rc) : R := rsum (map (fun e => let '(a, b, v) := e in rnorm (rsub v (radd (rmul a x) (rmul b y)))) d).
Definition spread2 (d : list row) (x y : rc) : R := rsum (map (fun e => let '(a, b, _) := e in rnorm (radd (rmul a x) (rmul b y))) d).
Definition n00 (d : list row) : rc := csum (map (fun e => let '(a, _, _) := e in rmul (rconj a) a) d).
Definition n01 (d : list row) : rc := csum (map (fun e => let '(a, b, _) := e in rmul (rconj a) b) d).
Definition n10 (d : list row) : rc := csum (map (fun e => let '(a, b, _) := e in rmul (rconj b) a) d).
Definition n11 (d : list row) : rc := csum (map (fun e => let '(_, b, _) := e in rmul (rconj b) b) d).
Definition r0 (d : list row) : rc := csum (map (fun e => let '(a, _, v) := e in rmul (rconj a) v) d).
Definition r1 (d : list row) : rc := csum (map (fun e => let '(_, b, v) := e in rmul (rconj b) v) d).
Lemma cost2_expand d x y p q :
  cost2 d (radd x p) (radd y q) = cost2 d x y + spread2 d p q
    - 2 * re (radd (rmul (rconj p) (rsub (r0 d) (radd (rmul (n00 d) x) (rmul (n01 d) y)))) (rmul (rconj q) (rsub (r1 d) (radd (rmul (n10 d) x) (rmul (n11 d) y))))).
Proof.
  unfold cost2, spread2, n00, n01, n10, n11, r0, r1. induction d as [|[[a b] v] d IH]; [unfold rsum, csum; cbn; ring|]. cbn [map]. rewrite !rsum_cons, !csum_cons, IH.
  repeat match goal with |- context [csum ?l] => let s := fresh "s" in set (s := csum l); clearbody s end.
  repeat match goal with |- context [rsum ?l] => let s := fresh "s" in set (s := rsum l); clearbody s end.
  unfold rnorm. cbn. ring.
Qed.
Lemma spread2_nonneg d p q : 0 <= spread2 d p q.
Proof. apply rsum_nonneg. intros x I. apply in_map_iff in I as ([[a b] v] & <- & _). apply rnorm_nonneg. Qed.
Lemma spread2_zero d p q : spread2 d p q = 0 -> radd (rmul (n00 d) p) (rmul (n01 d) q) = rc0 /\ radd (rmul (n10 d) p) (rmul (n11 d) q) = rc0.
Proof.
  intros Z. assert (F : forall e, In e d -> let '(a, b, _) := e in radd (rmul a p) (rmul b q) = rc0).
  { intros [[a b] v] I. apply rnorm_0. apply (rsum_zero _) with (x := rnorm (radd (rmul a p) (rmul b q))) in Z; auto.
    - intros x X. apply in_map_iff in X as ([[a' b'] v'] & <- & _). apply rnorm_nonneg.
    - apply in_map_iff. exists (a, b, v). auto. }
  clear Z. unfold n00, n01, n10, n11. induction d as [|[[a b] v] d IH]; [split; unfold csum; cbn; ring|]. cbn [map]. rewrite !csum_cons.
  destruct IH as [H1 H2]; [intros e E; apply F; now right|]. pose proof (F _ (or_introl eq_refl)) as G. cbn in G.
  repeat match goal with |- context [csum ?l] => let s := fresh "s" in set (s := csum l) in *; clearbody s end.
  split.
  - transitivity (radd (rmul (rconj a) (radd (rmul a p) (rmul b q))) (radd (rmul s p) (rmul s0 q))); [ring|]. rewrite G, H1. ring.
  - transitivity (radd (rmul (rconj b) (radd (rmul a p) (rmul b q))) (radd (rmul s1 p) (rmul s2 q))); [ring|]. rewrite G, H2. ring.
Qed.
Definition det2 (d : list row) : rc := rsub (rmul (n00 d) (n11 d)) (rmul (n01 d) (n10 d)).
Definition sol0 (d : list row) : rc := rmul (rinv (det2 d)) (rsub (rmul (n11 d) (r0 d)) (rmul (n01 d) (r1 d))).
Definition sol1 (d : list row) : rc := rmul (rinv (det2 d)) (rsub (rmul (n00 d) (r1 d)) (rmul (n10 d) (r0 d))).
Lemma best2 d x y : det2 d <> rc0 -> cost2 d (sol0 d) (sol1 d) <= cost2 d x y /\ (cost2 d x y = cost2 d (sol0 d) (sol1 d) -> x = sol0 d /\ y = sol1 d).
Proof.
  intros N. set (x' := sol0 d). set (y' := sol1 d). pose proof (rinv_spec _ N) as I.
  assert (E0 : rsub (r0 d) (radd (rmul (n00 d) x') (rmul (n01 d) y')) = rc0).
  { transitivity (rmul (rsub rc1 (rmul (det2 d) (rinv (det2 d)))) (r0 d)); [|rewrite I; ring]. unfold x', y', sol0, sol1. set (i := rinv (det2 d)). unfold det2. ring. }
  assert (E1 : rsub (r1 d) (radd (rmul (n10 d) x') (rmul (n11 d) y')) = rc0).
  { transitivity (rmul (rsub rc1 (rmul (det2 d) (rinv (det2 d)))) (r1 d)); [|rewrite I; ring]. unfold x', y', sol0, sol1. set (i := rinv (det2 d)). unfold det2. ring. }
  pose proof (cost2_expand d x' y' (rsub x x') (rsub y y')) as X. rewrite E0, E1 in X.
  replace (radd x' (rsub x x')) with x in X by ring. replace (radd y' (rsub y y')) with y in X by ring.
  assert (C' : cost2 d x y = cost2 d x' y' + spread2 d (rsub x x') (rsub y y')) by (rewrite X; cbn; ring).
  split; [pose proof (spread2_nonneg d (rsub x x') (rsub y y')); lra|]. intros Q.
  assert (Z : spread2 d (rsub x x') (rsub y y') = 0) by lra. apply spread2_zero in Z as [Z0 Z1].
  set (p := rsub x x') in *. set (q := rsub y y') in *.
  assert (P0 : p = rc0).
  { transitivity (rmul (rmul (det2 d) (rinv (det2 d))) p); [rewrite I; ring|].
    transitivity (rmul (rinv (det2 d)) (rsub (rmul (n11 d) (radd (rmul (n00 d) p) (rmul (n01 d) q))) (rmul (n01 d) (radd (rmul (n10 d) p) (rmul (n11 d) q)))));
      [unfold det2 at 1; ring|rewrite Z0, Z1; ring]. }
  assert (Q0 : q = rc0).
  { transitivity (rmul (rmul (det2 d) (rinv (det2 d))) q); [rewrite I; ring|].
    transitivity (rmul (rinv (det2 d)) (rsub (rmul (n00 d) (radd (rmul (n10 d) p) (rmul (n11 d) q))) (rmul (n10 d) (radd (rmul (n00 d) p) (rmul (n01 d) q)))));
      [unfold det2 at 1; ring|rewrite Z0, Z1; ring]. }
  split; now apply rsub_0.
Qed.

(** * The places of a station *)
Lemma NoDup_flat_map {A B} (f : A -> list B) (key : B -> A) l : NoDup l -> (forall x, NoDup (f x)) -> (forall x y, In y (f x) -> key y = x) -> NoDup (flat_map f l).
Proof.
  intros N F K. induction N as [|x l X N IH]; [constructor|]. cbn. revert IH. generalize (F x). 
  assert (D : forall y, In y (f x) -> ~ In y (flat_map f l)).
  { intros y Y I. apply in_flat_map in I as (x' & I & J). apply K in J. apply K in Y. congruence. }
  revert D. generalize (f x). intros m D N1 N2. induction N1 as [|y m Y N1 IH]; [exact N2|]. cbn. constructor.
  - intros I. apply in_app_or in I as [I|I]; [auto|]. apply (D y); auto. now left.
  - apply IH. intros z Z. apply D. now right.
Qed.
Definition triples (c : config) : list (nat * nat * nat) :=
  flat_map (fun t => flat_map (fun h => map (fun s => (t, h, s)) (seq 0 (n_st c))) (seq 0 (n_chan c))) (seq 0 (sol_int c)).
Definition four (st : nat) (e : nat * nat * nat) : list place :=
  let '(t, h, s) := e in [Place s 0 t h 0 st; Place s 1 t h 0 st; Place s 0 t h 1 st; Place s 1 t h 1 st].
Lemma triples_NoDup c : NoDup (triples c).
Proof.
  unfold triples. apply NoDup_flat_map with (key := fun e => fst (fst e)); [apply seq_NoDup| |].
  - intros t. apply NoDup_flat_map with (key := fun e => snd (fst e)); [apply seq_NoDup| |].
    + intros h. apply FinFun.Injective_map_NoDup; [|apply seq_NoDup]. intros a b E. congruence.
    + intros h y I. apply in_map_iff in I as (s & <- & _). reflexivity.
  - intros t y I. apply in_flat_map in I as (h & _ & I). apply in_map_iff in I as (s & <- & _). reflexivity.
Qed.
Lemma triples_in c t h s : In (t, h, s) (triples c) <-> (t < sol_int c /\ h < n_chan c /\ s < n_st c)%nat.
Proof.
  unfold triples. split.
  - intros I. apply in_flat_map in I as (t' & I1 & I). apply in_flat_map in I as (h' & I2 & I). apply in_map_iff in I as (s' & E & I3). injection E as -> -> ->.
    apply in_seq in I1, I2, I3. lia.
  - intros (A & B & D). apply in_flat_map. exists t. split; [apply in_seq; lia|]. apply in_flat_map. exists h. split; [apply in_seq; lia|].
    apply in_map_iff. exists s. split; auto. apply in_seq. lia.
Qed.
Lemma four_lists c st : (st < n_st c)%nat -> lists_station c st (flat_map (four st) (triples c)).
Proof.
  intros S. split.
  - apply NoDup_flat_map with (key := fun p => (time p, ch p, st2 p)); [apply triples_NoDup| |].
    + intros [[t h] s]. cbn. repeat constructor; cbn; intuition congruence.
    + intros [[t h] s] p I. cbn in I. intuition (subst; reflexivity).
  - intros [s2 p2 t h p1 s1]. unfold inside. cbn [st2 pol2 time ch pol1 st1]. rewrite in_flat_map. split.
    + intros ([[t' h'] s'] & I & J). apply triples_in in I. cbn in J. destruct J as [J|[J|[J|[J|[]]]]]; injection J as <- <- <- <- <- <-; lia.
    + intros [(A & B & C' & D & E & F) <-]. exists (t, h, s2). split; [apply triples_in; lia|].
      destruct p2 as [|[|]]; [| |lia]; (destruct p1 as [|[|]]; [| |lia]); cbn; auto.
Qed.
Lemma total_triples c f : total c f = csum (map (fun e => let '(t, h, s) := e in f t h s) (triples c)).
Proof.
  unfold total, triples.
  transitivity (fold_left (fun acc e => radd acc (let '(t, h, s) := e in f t h s)) (triples c) rc0); [|rewrite fold_csum; unfold triples; ring].
  unfold triples. rewrite <- fold_flat. apply fold_ext. intros a t. rewrite <- fold_flat. apply fold_ext. intros b h. rewrite <- fold_map. reflexivity.
Qed.
Lemma rsum_flat {A B} (F : B -> R) (G : A -> list B) l : rsum (map F (flat_map G l)) = rsum (map (fun e => rsum (map F (G e))) l).
Proof. induction l as [|x l IH]; [reflexivity|]. cbn [flat_map map]. now rewrite map_app, rsum_app, rsum_cons, IH. Qed.
Lemma csum_flat {A B} (F : B -> rc) (G : A -> list B) l : csum (map F (flat_map G l)) = csum (map (fun e => csum (map F (G e))) l).
Proof. induction l as [|x l IH]; [reflexivity|]. cbn [flat_map map]. now rewrite map_app, csum_app, csum_cons, IH. Qed.

Section Station.
Variable c : config.
Variables vis mvis : nat -> rc.
Variable g : gains.
Notation h := (fun st cr => rconj (g st cr)).
Definition rows (st b : nat) : list row :=
  flat_map (fun e => let '(t, k, s) := e in
    [(z_of c mvis h st s t k 0, z_of c mvis h st s t k 1, vis (position c s 0 t k b st));
     (z_of c mvis h st s t k 2, z_of c mvis h st s t k 3, vis (position c s 1 t k b st))]) (triples c).
Ltac sums := unfold rows, n00, n01, n10, n11, r0, r1; cbn [w_of t_of]; rewrite ?total_triples, csum_flat; f_equal; apply map_ext; intros [[t k] s]; unfold csum; cbn [map fold_right]; ring.
Lemma w0 st b : w_of c mvis h st 0 = n00 (rows st b). Proof. sums. Qed.
Lemma w1 st b : w_of c mvis h st 1 = n01 (rows st b). Proof. sums. Qed.
Lemma w3 st b : w_of c mvis h st 3 = n11 (rows st b). Proof. sums. Qed.
Lemma csum_conj l : rconj (csum l) = csum (map rconj l).
Proof. induction l as [|x l IH]; [apply rc_eq; unfold csum; cbn; ring|]. cbn [map]. now rewrite !csum_cons, rconj_add, IH. Qed.
Lemma w2 st b : w_of c mvis h st 2 = n10 (rows st b).
Proof.
  cbn [w_of]. rewrite total_triples, csum_conj, map_map. unfold n10, rows. rewrite csum_flat. f_equal. apply map_ext. intros [[t k] s].
  unfold csum; cbn [map fold_right]. rewrite !rconj_add, !rconj_mul, !rconj_conj. ring.
Qed.
Lemma t0 st : t_of c vis mvis h st 0 = r0 (rows st 0). Proof. sums. Qed.
Lemma t1 st : t_of c vis mvis h st 1 = r0 (rows st 1). Proof. sums. Qed.
Lemma t2 st : t_of c vis mvis h st 2 = r1 (rows st 0). Proof. sums. Qed.
Lemma t3 st : t_of c vis mvis h st 3 = r1 (rows st 1). Proof. sums. Qed.
Lemma predicted_z st s t k x a b : (a < 2)%nat -> (b < 2)%nat ->
  predicted (g s) x (fun j i => value c mvis (Place s j t k i st)) a b =
  radd (rmul (z_of c mvis h st s t k (2 * a)) (x b)) (rmul (z_of c mvis h st s t k (2 * a + 1)) (x (2 + b)%nat)).
Proof.
  intros A B. unfold predicted, sum2, el, value. cbn [st2 pol2 time ch pol1 st1].
  destruct a as [|[|]]; [| |lia]; (destruct b as [|[|]]; [| |lia]); cbn; ring.
Qed.
Lemma misfit_rows st l x : (st < n_st c)%nat -> lists_station c st l ->
  misfit_matrix c vis mvis g l x = cost2 (rows st 0) (x 0%nat) (x 2%nat) + cost2 (rows st 1) (x 1%nat) (x 3%nat).
Proof.
  intros S [N L]. destruct (four_lists c st S) as [N' L'].
  assert (P : Permutation l (flat_map (four st) (triples c))) by (apply NoDup_Permutation; auto; intros p; now rewrite L, L').
  unfold misfit_matrix. rewrite (rsum_perm _ _ (Permutation_map _ P)). unfold cost2, rows. rewrite !rsum_flat. clear.
  induction (triples c) as [|[[t k] s] es IH]; [unfold rsum; cbn; lra|]. cbn [map]. rewrite !rsum_cons, IH.
  cbn [four map]. rewrite !rsum_cons. cbn [st2 pol2 time ch pol1 st1]. rewrite !predicted_z by lia. cbn [Nat.mul Nat.add]. unfold value. cbn [st2 pol2 time ch pol1 st1].
  replace (rsum []) with 0 by reflexivity. ring.
Qed.
Definition det_of (st : nat) : rc := det2 (rows st 0).
Lemma det2_rows st b : det2 (rows st b) = det_of st.
Proof. unfold det_of, det2. now rewrite <- !(w0 st), <- !(w1 st), <- !(w2 st), <- !(w3 st). Qed.
Definition fitted_matrix (st cr : nat) : rc :=
  match cr with 0%nat => sol0 (rows st 0) | 1%nat => sol0 (rows st 1) | 2%nat => sol1 (rows st 0) | _ => sol1 (rows st 1) end.
Lemma solve_station_spec s st :
  (flagged s st = true /\ solve_station c vis mvis h s st = s) \/
  (flagged s st = false /\ det_of st = rc0 /\ solve_station c vis mvis h s st = State (set_gain (gain s) st 0 rc0) (set_flag (flagged s) st)) \/
  (flagged s st = false /\ det_of st <> rc0 /\ flagged (solve_station c vis mvis h s st) = flagged s /\
   (forall st' cr, gain (solve_station c vis mvis h s st) st' cr = if ((st' =? st) && (cr <? 4))%nat%bool then fitted_matrix st cr else gain s st' cr)).
Proof.
  unfold solve_station. destruct (flagged s st) eqn:F; [left; auto|right].
  assert (E : rsub (rmul (w_of c mvis h st 0) (w_of c mvis h st 3)) (rmul (w_of c mvis h st 1) (w_of c mvis h st 2)) = det_of st).
  { unfold det_of, det2. now rewrite <- w0, <- w1, <- w2, <- w3. }
  cbn zeta. rewrite E. destruct (Req_EM_T (rabs (det_of st)) 0) as [Z|Z]; [left; apply rabs_0 in Z; auto|right].
  split; auto. split; [intros X; apply Z; now apply rabs_0|]. split; [reflexivity|]. intros st' cr. cbn [gain].
  destruct (Nat.eqb_spec st' st) as [->|X]; cbn [andb]; [|rewrite !set_gain_other by auto; reflexivity].
  destruct (Nat.ltb_spec cr 4) as [L|L]; [|rewrite !set_gain_other by lia; reflexivity].
  unfold fitted_matrix, sol0, sol1. rewrite !det2_rows, <- !w0, <- !w1, <- !w2, <- !w3, <- t0, <- t1, <- t2, <- t3.
  destruct cr as [|[|[|[|]]]]; [| | | |lia]; rewrite ?set_gain_same, ?set_gain_other by lia; rewrite ?set_gain_same, ?set_gain_other by lia; rewrite ?set_gain_same, ?set_gain_other by lia;
    rewrite ?set_gain_same; reflexivity.
Qed.
Lemma fold_station sts s st : NoDup sts -> 
  (~ In st sts -> flagged (fold_left (solve_station c vis mvis h) sts s) st = flagged s st /\
    forall cr, gain (fold_left (solve_station c vis mvis h) sts s) st cr = gain s st cr) /\
  (In st sts ->
    (flagged s st = true /\ flagged (fold_left (solve_station c vis mvis h) sts s) st = true /\ forall cr, gain (fold_left (solve_station c vis mvis h) sts s) st cr = gain s st cr) \/
    (flagged s st = false /\ det_of st = rc0 /\ flagged (fold_left (solve_station c vis mvis h) sts s) st = true /\
      forall cr, gain (fold_left (solve_station c vis mvis h) sts s) st cr = if (cr =? 0)%nat then rc0 else gain s st cr) \/
    (flagged s st = false /\ det_of st <> rc0 /\ flagged (fold_left (solve_station c vis mvis h) sts s) st = false /\
      forall cr, (cr < 4)%nat -> gain (fold_left (solve_station c vis mvis h) sts s) st cr = fitted_matrix st cr)).
Proof.
  intros N. revert s. induction N as [|a sts A N IH]; intros s; [split; auto; intros []|]. cbn [fold_left].
  set (s1 := solve_station c vis mvis h s a). specialize (IH s1). destruct IH as [IH1 IH2]. split.
  - intros X. assert (Q : st <> a /\ ~ In st sts) by (split; [intros ->; apply X; now left|intros I; apply X; now right]). destruct Q as [Q1 Q2].
    destruct (IH1 Q2) as [F G]. unfold s1 in *.
    destruct (solve_station_spec s a) as [(_ & E)|[(_ & _ & E)|(_ & _ & E & E')]].
    + now rewrite E in *.
    + rewrite E in *. cbn [flagged gain] in *. split.
      * rewrite F. unfold set_flag. destruct (Nat.eqb_spec st a); congruence.
      * intros cr. rewrite G. apply set_gain_other. auto.
    + split; [now rewrite F, E|]. intros cr. rewrite G, E'. destruct (Nat.eqb_spec st a); [congruence|reflexivity].
  - intros [->|I].
    + destruct (IH1 A) as [F G]. unfold s1 in *. destruct (solve_station_spec s st) as [(H & E)|[(H & Z & E)|(H & Z & E & E')]].
      * left. rewrite E in *. repeat split; auto. now rewrite F.
      * right; left. rewrite E in *. cbn [flagged gain] in *. repeat split; auto; [rewrite F; apply set_flag_spec; auto|].
        intros cr. rewrite G. unfold set_gain. now rewrite Nat.eqb_refl.
      * right; right. repeat split; auto; [now rewrite F, E|]. intros cr L. rewrite G, E', Nat.eqb_refl. apply Nat.ltb_lt in L. now rewrite L.
    + assert (X : st <> a) by congruence.
      assert (F : flagged s1 st = flagged s st /\ forall cr, gain s1 st cr = gain s st cr).
      { unfold s1. destruct (solve_station_spec s a) as [(_ & E)|[(_ & _ & E)|(_ & _ & E & E')]].
        - now rewrite E.
        - rewrite E. cbn [flagged gain]. split; [unfold set_flag; destruct (Nat.eqb_spec st a); congruence|intros; apply set_gain_other; auto].
        - rewrite E. split; auto. intros cr. rewrite E'. destruct (Nat.eqb_spec st a); [congruence|reflexivity]. }
      destruct F as [F G]. rewrite <- F. destruct (IH2 I) as [(H & H' & H'')|[(H & Z & H' & H'')|(H & Z & H' & H'')]].
      * left. repeat split; auto. intros cr. now rewrite H''.
      * right; left. repeat split; auto. intros cr. rewrite H''. destruct (cr =? 0)%nat; auto.
      * right; right. auto.
Qed.
Lemma exact_rows st b : (st < n_st c)%nat -> (b < 2)%nat -> exact_matrix c vis mvis g ->
  r0 (rows st b) = radd (rmul (n00 (rows st b)) (g st b)) (rmul (n01 (rows st b)) (g st (2 + b)%nat)) /\
  r1 (rows st b) = radd (rmul (n10 (rows st b)) (g st b)) (rmul (n11 (rows st b)) (g st (2 + b)%nat)).
Proof.
  intros S B E. assert (Q : forall e, In e (rows st b) -> let '(a, b', v) := e in v = radd (rmul a (g st b)) (rmul b' (g st (2 + b)%nat))).
  { intros e I. unfold rows in I. apply in_flat_map in I as ([[t k] s] & I & J). apply triples_in in I.
    assert (V : forall p2, (p2 < 2)%nat -> vis (position c s p2 t k b st) = radd (rmul (z_of c mvis h st s t k (2 * p2)) (g st b)) (rmul (z_of c mvis h st s t k (2 * p2 + 1)) (g st (2 + b)%nat))).
    { intros p2 P. rewrite <- (predicted_z st s t k (g st) p2 b P B). apply (E (Place s p2 t k b st)). unfold inside. cbn. lia. }
    destruct J as [<-|[<-|[]]]; [apply (V 0%nat)|apply (V 1%nat)]; lia. }
  unfold r0, r1, n00, n01, n10, n11. clear E. induction (rows st b) as [|[[a b'] v] d IH]; [split; unfold csum; cbn; ring|]. cbn [map]. rewrite !csum_cons.
  destruct IH as [IH1 IH2]; [intros e X; apply Q; now right|]. pose proof (Q _ (or_introl eq_refl)) as V. cbn beta iota in V. subst v. rewrite IH1, IH2. split; ring.
Qed.
Lemma exact_solution d x y : det2 d <> rc0 -> r0 d = radd (rmul (n00 d) x) (rmul (n01 d) y) -> r1 d = radd (rmul (n10 d) x) (rmul (n11 d) y) -> sol0 d = x /\ sol1 d = y.
Proof.
  intros N A B. pose proof (rinv_spec _ N) as I. unfold sol0, sol1. rewrite A, B. split.
  - transitivity (rmul (rmul (det2 d) (rinv (det2 d))) x); [|rewrite I; ring]. set (i := rinv (det2 d)). unfold det2. ring.
  - transitivity (rmul (rmul (det2 d) (rinv (det2 d))) y); [|rewrite I; ring]. set (i := rinv (det2 d)). unfold det2. ring.
Qed.
Lemma exact_fitted st cr : (st < n_st c)%nat -> (cr < 4)%nat -> det_of st <> rc0 -> exact_matrix c vis mvis g -> fitted_matrix st cr = g st cr.
Proof.
  intros S C' N E. destruct (exact_rows st 0 S) as [A0 B0]; auto. destruct (exact_rows st 1 S) as [A1 B1]; auto. cbn [Nat.add] in *.
  destruct (exact_solution (rows st 0) (g st 0%nat) (g st 2%nat)) as [X0 X2]; auto.
  destruct (exact_solution (rows st 1) (g st 1%nat) (g st 3%nat)) as [X1 X3]; auto. { now rewrite det2_rows. }
  unfold fitted_matrix. destruct cr as [|[|[|[|]]]]; auto. lia.
Qed.
End Station.

(** * No best matrix *)
Lemma spread2_form d p q : spread2 d p q = re (radd (rmul (rconj p) (radd (rmul (n00 d) p) (rmul (n01 d) q))) (rmul (rconj q) (radd (rmul (n10 d) p) (rmul (n11 d) q)))).
Proof.
  unfold spread2, n00, n01, n10, n11. induction d as [|[[a b] v] d IH]; [unfold rsum, csum; cbn; ring|]. cbn [map]. rewrite !rsum_cons, !csum_cons, IH.
  repeat match goal with |- context [csum ?l] => let s := fresh "s" in set (s := csum l); clearbody s end. unfold rnorm. cbn. ring.
Qed.
Lemma cost2_flat d x y p q : spread2 d p q = 0 -> cost2 d (radd x p) (radd y q) = cost2 d x y.
Proof.
  intros Z. pose proof (cost2_expand d x y p q) as E. rewrite Z in E. rewrite E. clear E.
  assert (F : forall e, In e d -> let '(a, b, _) := e in radd (rmul a p) (rmul b q) = rc0).
  { intros [[a b] v] I. apply rnorm_0. apply (rsum_zero _) with (x := rnorm (radd (rmul a p) (rmul b q))) in Z; auto.
    - intros z X. apply in_map_iff in X as ([[a' b'] v'] & <- & _). apply rnorm_nonneg.
    - apply in_map_iff. exists (a, b, v). auto. }
  assert (H : radd (rmul (rconj p) (rsub (r0 d) (radd (rmul (n00 d) x) (rmul (n01 d) y)))) (rmul (rconj q) (rsub (r1 d) (radd (rmul (n10 d) x) (rmul (n11 d) y)))) = rc0).
  { clear Z. unfold r0, r1, n00, n01, n10, n11. induction d as [|[[a b] v] d IH]; [unfold csum; apply rc_eq; cbn; ring|]. cbn [map]. rewrite !csum_cons.
    assert (IH' := IH (fun e I => F e (or_intror I))). clear IH. pose proof (F _ (or_introl eq_refl)) as G. cbn beta iota in G.
    repeat match goal with |- context [csum ?l] => let s := fresh "s" in set (s := csum l) in *; clearbody s end.
    match type of IH' with ?L = _ => transitivity (radd (rmul (rconj (radd (rmul a p) (rmul b q))) (rsub v (radd (rmul a x) (rmul b y)))) L) end.
    - rewrite rconj_add, !rconj_mul. ring.
    - rewrite G, IH', rconj_0. ring. }
  rewrite H. cbn. ring.
Qed.
Lemma n10_conj d : n10 d = rconj (n01 d).
Proof. unfold n10, n01. rewrite csum_conj, map_map. f_equal. apply map_ext. intros [[a b] v]. rewrite rconj_mul, rconj_conj. ring. Qed.
Lemma singular2 d : det2 d = rc0 -> exists p q, (p <> rc0 \/ q <> rc0) /\ spread2 d p q = 0.
Proof.
  intros Z. assert (DEC : n00 d = rc0 \/ n00 d <> rc0) by (destruct (Req_EM_T (rabs (n00 d)) 0) as [E|E]; [left; now apply rabs_0|right; intros X; apply E; now apply rabs_0]).
  destruct DEC as [E|E].
  - exists rc1, rc0. split; [left; intros X; injection X; lra|]. rewrite spread2_form, E. cbn. ring.
  - exists (ropp (n01 d)), (n00 d). split; auto. rewrite spread2_form.
    replace (radd (rmul (n00 d) (ropp (n01 d))) (rmul (n01 d) (n00 d))) with rc0 by ring.
    replace (radd (rmul (n10 d) (ropp (n01 d))) (rmul (n11 d) (n00 d))) with (det2 d) by (unfold det2; ring). rewrite Z. cbn. ring.
Qed.
