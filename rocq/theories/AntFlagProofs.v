From Coq Require Import List Bool Arith ZArith Lia ZifyBool ZifyNat Permutation QArith Qcanon.
From Verif Require Import QcUtil AverageModel BaselineModel BaselineProofs MedianSpec MedianProofs InfoModel DdecalProofs AntFlagModel AntFlagSpec.
Import ListNotations.
Open Scope nat_scope.

(** *** Outliers *)
Lemma map_seq_nth {A} (l : list A) d : map (fun j => nth j l d) (seq 0 (length l)) = l.
Proof. apply nth_error_same. intros i. rewrite nth_error_map, seq_nth_error. destruct (Nat.ltb_spec i (length l)) as [H|H]; cbn [option_map]; [symmetry; now apply nth_error_nth'|symmetry; now apply nth_error_None]. Qed.
Lemma qsum_shift l m : qsum (map (fun x => (x - m) * (x - m))%Qc l) = (qsum (map (fun x => x * x)%Qc l) - (1 + 1) * m * qsum l + qn (length l) * m * m)%Qc.
Proof. induction l as [|x l IH]; cbn [map length]; [rewrite !qsum_nil, qn_0; ring|]. rewrite !qsum_cons, IH, qn_S. ring. Qed.
Lemma variance_spread n f : variance (map f (seq 0 n)) = spread n f.
Proof.
  unfold variance, spread. set (l := map f (seq 0 n)). assert (L : length l = n) by (unfold l; now rewrite map_length, seq_length). rewrite L. destruct n as [|n].
  - assert (l = []) by (destruct l; [reflexivity|discriminate]). rewrite H. cbn [map]. rewrite !qsum_nil. unfold Qcdiv. ring.
  - rewrite qsum_shift, L. assert (qn (S n) <> 0%Qc) by (apply qn_neq0; lia). field. assumption.
Qed.
Section Rounds.
Variables (n : nat) (x : nat -> option Qc) (m sigma : Qc).
Notation out := (outlier n x m sigma).
Definition value (j : nat) : Qc := match x j with Some y => y | None => m end.
Definition stage (k : nat) : list (bool * Qc) := map (fun j => (out k j, if out k j then m else value j)) (seq 0 n).
Lemma out_none k j : x j = None -> out k j = true.
Proof. intros E. destruct k; cbn; rewrite E; [reflexivity|apply orb_true_r]. Qed.
Lemma snd_stage k : map snd (stage k) = map (fun j => if out k j then m else value j) (seq 0 n).
Proof. unfold stage. rewrite map_map. reflexivity. Qed.
Lemma fst_stage k : map fst (stage k) = map (out k) (seq 0 n).
Proof. unfold stage. rewrite map_map. reflexivity. Qed.
Lemma out_S k j : out (S k) j = out k j || outside sigma m (variance (map snd (stage k))) (if out k j then m else value j).
Proof.
  rewrite snd_stage, variance_spread. cbn [outlier]. destruct (out k j) eqn:E; [reflexivity|]. cbn [orb]. unfold value at 2. destruct (x j) as [y|] eqn:Ex; [reflexivity|]. rewrite (out_none k j Ex) in E. discriminate.
Qed.
Lemma stage_S k : map (fun p => if negb (fst p) && outside sigma m (variance (map snd (stage k))) (snd p) then (true, m) else p) (stage k) = stage (S k).
Proof.
  set (v := variance (map snd (stage k))). assert (H : forall j, out (S k) j = out k j || outside sigma m v (if out k j then m else value j)) by (intros; apply out_S). clearbody v.
  unfold stage at 1 2. rewrite map_map. apply map_ext. intros j. cbn [fst snd]. rewrite (H j). destruct (out k j); cbn [negb andb orb]; [reflexivity|]. destruct (outside _ _ _ _); reflexivity.
Qed.
Lemma spread_ext f g : (forall j, j < n -> f j = g j) -> spread n f = spread n g.
Proof. intros H. unfold spread. rewrite (map_ext_in f g); [reflexivity|]. intros j I. apply H. apply in_seq in I. lia. Qed.
Lemma stable k i : (forall j, j < n -> out (S i) j = out i j) -> forall j, j < n -> out (i + k) j = out i j.
Proof.
  intros H. induction k as [|k IH]; intros j Hj; [now rewrite Nat.add_0_r|]. rewrite <- (H j Hj). replace (i + S k) with (S (i + k)) by lia. cbn [outlier]. rewrite (IH j Hj). f_equal. destruct (x j); [|reflexivity].
  do 2 f_equal. apply spread_ext. intros l Hl. now rewrite (IH l Hl).
Qed.
Lemma iterate_ok k : forall i, iterate sigma k m (stage i) = map (out (i + k)) (seq 0 n).
Proof.
  induction k as [|k IH]; intros i; cbn [iterate]; [rewrite Nat.add_0_r; apply fst_stage|]. rewrite stage_S. destruct (existsb _ (stage i)) eqn:E.
  - rewrite IH. now replace (S i + k) with (i + S k) by lia.
  - rewrite fst_stage. apply map_ext_in. intros j I. apply in_seq in I. assert (H : forall j, j < n -> out (S i) j = out i j).
    { intros l Hl. rewrite out_S. destruct (out i l) eqn:El; [reflexivity|]. cbn [orb]. destruct (outside _ _ _ _) eqn:O; [|reflexivity]. exfalso. assert (T : existsb (fun p => negb (fst p) && outside sigma m (variance (map snd (stage i))) (snd p)) (stage i) = true); [|congruence].
      apply existsb_exists. exists (out i l, if out i l then m else value l). split; [unfold stage; apply (in_map (fun j => (out i j, if out i j then m else value j))); apply in_seq; lia|]. cbn [fst snd]. rewrite El. cbn [negb andb]. exact O. }
    rewrite (H j) by lia. symmetry. apply stable; [exact H|lia].
Qed.
End Rounds.
(** *** Medians *)
Lemma eleb_ele a b : eleb a b = true <-> ele a b.
Proof. destruct a, b; cbn; split; intros H; try easy; [now apply qleb_true|now apply qleb_true]. Qed.
Lemma ele_total a b : ele a b \/ ele b a.
Proof. destruct a, b; cbn; auto. apply qle_total. Qed.
Lemma ele_trans a b c : ele a b -> ele b c -> ele a c.
Proof. destruct a, b, c; cbn; try easy. apply Qcle_trans. Qed.
Lemma ele_antisym a b : ele a b -> ele b a -> a = b.
Proof. destruct a, b; cbn; try easy. intros A B. f_equal. now apply Qcle_antisym. Qed.
Lemma einsert_perm x l : Permutation (x :: l) (einsert x l).
Proof. induction l as [|y r IH]; cbn; [reflexivity|]. destruct (eleb x y); [reflexivity|]. rewrite perm_swap. now rewrite IH. Qed.
Lemma esort_perm l : Permutation l (esort l).
Proof. induction l as [|x r IH]; cbn; [constructor|]. rewrite <- einsert_perm. now rewrite <- IH. Qed.
Lemma einsert_order x l : in_order l -> in_order (einsert x l).
Proof.
  induction 1 as [|y r Hy Hr IH]; cbn.
  - constructor; [intros ? []|constructor].
  - destruct (eleb x y) eqn:E.
    + apply eleb_ele in E. constructor; [|now constructor]. intros z [Hz|Hz]; [now subst z|]. eapply ele_trans; [exact E|auto].
    + assert (E' : ele y x) by (destruct (ele_total x y) as [T|T]; [apply eleb_ele in T; congruence|exact T]). constructor; [|exact IH]. intros z Hz.
      apply (Permutation_in _ (Permutation_sym (einsert_perm x r))) in Hz. destruct Hz as [Hz|Hz]; [now subst z|auto].
Qed.
Lemma esort_order l : in_order (esort l).
Proof. induction l as [|x r IH]; cbn; [constructor|now apply einsert_order]. Qed.
Lemma order_unique a b : in_order a -> in_order b -> Permutation a b -> a = b.
Proof.
  intros Ha. revert b. induction Ha as [|x a Hx Ha IH]; intros b Hb P; [now apply Permutation_nil in P|]. destruct Hb as [|y b Hy Hb]; [apply Permutation_sym, Permutation_nil in P; discriminate|].
  assert (E : x = y).
  { apply ele_antisym.
    - assert (I : In y (x :: a)) by (apply (Permutation_in _ (Permutation_sym P)); now left). destruct I as [I|I]; [subst; destruct y; cbn; auto; apply Qcle_refl|auto].
    - assert (I : In x (y :: b)) by (apply (Permutation_in _ P); now left). destruct I as [I|I]; [subst; destruct x; cbn; auto; apply Qcle_refl|auto]. }
  subst y. f_equal. apply IH; [exact Hb|]. now apply Permutation_cons_inv in P.
Qed.
Lemma emedian_ok l m : l <> [] -> is_emedian l m -> emedian l = m.
Proof.
  intros N (s & P & O & H). assert (E : esort l = s) by (apply order_unique; [apply esort_order|exact O|]; now rewrite <- esort_perm). unfold emedian. rewrite E. destruct (Nat.odd (length s)).
  - now apply nth_error_nth with (d := Nan) in H.
  - destruct H as (a & b & A & B & ->). apply nth_error_nth with (d := Nan) in A, B. now rewrite A, B.
Qed.

Lemma emedian_fin l m : l <> [] -> is_median l m -> emedian (map Fin l) = Fin m.
Proof.
  intros N (s & P & A & H). apply emedian_ok; [destruct l; [congruence|discriminate]|]. exists (map Fin s). split; [now apply Permutation_map|]. split.
  - clear - A. induction A as [|x l H A IH]; [constructor|]. cbn [map]. constructor; [|exact IH]. intros y I. apply in_map_iff in I. destruct I as (z & <- & I). cbn. now apply H.
  - rewrite map_length. assert (L : length s <> 0) by (rewrite <- (Permutation_length P); destruct l; [congruence|discriminate]). destruct (length s) as [|k]; [congruence|]. cbv zeta in H. destruct (Nat.odd (S k)).
    + rewrite nth_error_map, H. reflexivity.
    + destruct H as (a & b & Ea & Eb & ->). exists (Fin a), (Fin b). rewrite !nth_error_map, Ea, Eb. split; [reflexivity|]. split; [reflexivity|]. cbn. f_equal.
Qed.

Lemma find_outliers_ok qmedian sigma max n x : (forall l, l <> [] -> is_median l (qmedian l)) ->
  find_outliers sigma max (map x (seq 0 n)) = map (is_outlier qmedian sigma max n x) (seq 0 n).
Proof.
  intros Hm. unfold find_outliers, is_outlier. destruct (forallb _ _) eqn:F.
  - rewrite map_map in *. apply map_ext_in. intros j I. rewrite forallb_forall in F. specialize (F (match x j with Some _ => false | None => true end) (in_map (fun j => match x j with Some _ => false | None => true end) _ _ I)).
    destruct (x j) eqn:E; [discriminate|]. symmetry. now apply out_none.
  - assert (Fn : flat_map (fun y => match y with Some y => [Fin y] | None => [] end) (map x (seq 0 n)) = map Fin (finites n x)).
    { unfold finites. generalize (seq 0 n). intros l. induction l as [|j l IH]; [reflexivity|]. cbn [map flat_map]. rewrite IH, map_app. now destruct (x j). }
    rewrite Fn. set (l := finites n x). assert (Nl : l <> []).
    { intros E. assert (T : forallb (fun b => b) (map (fun x => match x with Some _ => false | None => true end) (map x (seq 0 n))) = true); [|congruence]. rewrite map_map. apply forallb_forall. intros b I. apply in_map_iff in I. destruct I as (j & <- & I).
      destruct (x j) as [y|] eqn:Ej; [|reflexivity]. assert (In y l) by (apply in_flat_map; exists j; rewrite Ej; split; [exact I|now left]). rewrite E in H. destruct H. }
    rewrite (emedian_fin l (qmedian l) Nl (Hm l Nl)). set (m := qmedian l).
    transitivity (iterate sigma max m (stage n x m sigma 0)); [|rewrite iterate_ok; reflexivity]. f_equal. unfold stage. rewrite map_map. apply map_ext. intros j. cbn [outlier]. unfold value. now destruct (x j).
Qed.

(** *** Statistics *)
Lemma eadd_assoc a b c : eadd a (eadd b c) = eadd (eadd a b) c.
Proof. destruct a, b, c; cbn; try reflexivity. f_equal. ring. Qed.
Lemma eadd_0 a : eadd (Fin 0%Qc) a = a.
Proof. destruct a; cbn; try reflexivity. f_equal. ring. Qed.
Lemma eadd_0_r a : eadd a (Fin 0%Qc) = a.
Proof. destruct a; cbn; try reflexivity. f_equal. ring. Qed.
Lemma nansum_ok l : forall s, fold_left nan_add l s = (eadd (fst s) (fst (total l)), eadd (snd s) (snd (total l))).
Proof.
  induction l as [|[a b] l IH]; intros [s t]; cbn [fold_left total]; [cbn [fst snd]; now rewrite !eadd_0_r|]. rewrite IH. unfold nan_add. destruct a, b; cbn [fst snd]; rewrite <- ?eadd_assoc; reflexivity.
Qed.
Definition place (n_stations per : nat) (o : order) (a b : nat) : nat := Z.to_nat (baseline_index (Z.of_nat a) (Z.of_nat b) (Z.of_nat (n_stations * per)) o).
Lemma place_sym n_stations per o a b : place n_stations per o a b = place n_stations per o b a.
Proof. unfold place. now rewrite index_sym. Qed.
Lemma place_minmax n_stations per o a b : place n_stations per o a b = place n_stations per o (Nat.min a b) (Nat.max a b).
Proof. destruct (Nat.le_gt_cases a b); [now rewrite Nat.min_l, Nat.max_r by lia|]. rewrite Nat.min_r, Nat.max_l by lia. apply place_sym. Qed.
Section Stats.
Context {D : Type}.
Variables (n_stations per : nat) (o : order) (vis : nat -> nat -> list D) (pair : nat -> nat -> nat -> list D).
Notation n := (n_stations * per).
Hypothesis Hn : (Z.of_nat n <= 2 ^ 31)%Z.
Hypothesis Hv : forall p q c, p <= q < n -> vis (place n_stations per o p q) c = pair p q c.
Lemma group_stats_ok stat a c : a < n -> group_stats n_stations per o vis stat a c = statistic n_stations per pair stat a c.
Proof.
  intros Ha. unfold group_stats, statistic. rewrite nansum_ok. cbn [fst snd]. rewrite !eadd_0. unfold baseline_list. fold (n_ant n_stations per). rewrite map_map. unfold n_ant.
  assert (E : map (fun i => stat (vis (Z.to_nat (baseline_index (Z.of_nat a) (Z.of_nat i) (Z.of_nat n) o)) c)) (seq 0 n) = map (fun b => stat (pair (Nat.min a b) (Nat.max a b) c)) (seq 0 n)).
  { apply map_ext_in. intros b I. apply in_seq in I. f_equal. change (vis (place n_stations per o a b) c = pair (Nat.min a b) (Nat.max a b) c). rewrite place_minmax. apply Hv. lia. }
  rewrite E. reflexivity.
Qed.
End Stats.

(** *** Flags *)
Lemma map2_map f g h n : map2 h (map f (seq 0 n)) (map g (seq 0 n)) = map (fun i => h (f i) (g i)) (seq 0 n).
Proof. unfold map2. generalize (seq 0 n). intros l. induction l as [|x l IH]; [reflexivity|]. cbn [map combine]. cbn [fst snd]. f_equal. exact IH. Qed.
Lemma repeat_map {A} (x : A) n : repeat x n = map (fun _ => x) (seq 0 n).
Proof. generalize 0. induction n as [|n IH]; intros k; cbn; [reflexivity|]. f_equal. apply IH. Qed.
Lemma flat_map_blocks {A} (h : nat -> nat -> A) n per : 0 < per -> flat_map (fun s => map (h s) (seq 0 per)) (seq 0 n) = map (fun a => h (a / per) (a mod per)) (seq 0 (n * per)).
Proof.
  intros Hp. induction n as [|n IH]; [reflexivity|]. rewrite seq_S, flat_map_app, IH. cbn [flat_map]. rewrite app_nil_r. replace (S n * per) with (n * per + per) by lia. rewrite seq_app, map_app. f_equal. cbn [Nat.add].
  apply nth_error_same. intros i. rewrite !nth_error_map, !seq_nth_error. destruct (Nat.ltb_spec i per) as [H|H]; [|reflexivity]. cbn [option_map]. do 2 f_equal.
  - rewrite Nat.div_add_l, Nat.div_small by lia. lia.
  - rewrite (Nat.add_comm (n * per) i), Nat.mod_add, Nat.mod_small by lia. lia.
Qed.
Lemma nth_map_seq {A} (f : nat -> A) n i d : i < n -> nth i (map f (seq 0 n)) d = f i.
Proof. intros H. rewrite nth_indep with (d' := f 0) by (now rewrite map_length, seq_length). rewrite map_nth, seq_nth by exact H. reflexivity. Qed.
Lemma or_fold (f : nat -> nat -> bool) n (cs : list nat) : forall g, fold_left (fun flags c => orl flags (map (f c) (seq 0 n))) cs (map g (seq 0 n)) = map (fun i => g i || existsb (fun c => f c i) cs) (seq 0 n).
Proof.
  induction cs as [|c cs IH]; intros g; cbn [fold_left existsb]; [apply map_ext; intros; now rewrite orb_false_r|]. unfold orl at 2. rewrite map2_map, IH. apply map_ext. intros i. now rewrite orb_assoc.
Qed.

Section Step.
Context {D : Type}.
Variables (qmedian : list Qc -> Qc) (med : list ext -> ext).
Hypothesis Hq : forall l, l <> [] -> is_median l (qmedian l).
Hypothesis He : forall l, l <> [] -> is_emedian l (med l).
Variables deviation squares : list D -> ext * ext.
Variable log1 : ext * ext -> option Qc * option Qc.
Variables (n_stations per n_corr : nat) (o : order) (sigma_a sigma_s : Qc) (max_a max_s : nat) (vis : nat -> nat -> list D) (pair : nat -> nat -> nat -> list D).
Notation n := (n_stations * per).
Hypothesis Hp : 0 < per.
Hypothesis Hn : (Z.of_nat n <= 2 ^ 31)%Z.
Hypothesis Hv : forall p q c, p <= q < n -> vis (place n_stations per o p q) c = pair p q c.
Notation gs := (group_stats n_stations per o vis).
Notation st := (statistic n_stations per pair).
Lemma gs_st stat a c : a < n -> gs stat a c = st stat a c.
Proof. apply group_stats_ok; assumption. Qed.
Lemma antenna_flags_ok stat s : s < n_stations -> antenna_flags log1 n_stations per n_corr o sigma_a max_a vis stat s = map (antenna_out qmedian log1 n_stations per n_corr sigma_a max_a pair stat s) (seq 0 per).
Proof.
  intros Ls. unfold antenna_flags. rewrite repeat_map. unfold antenna_out.
  pose (g := fun c i => is_outlier qmedian sigma_a max_a per (fun i => fst (log1 (st stat (s * per + i) c))) i || is_outlier qmedian sigma_a max_a per (fun i => snd (log1 (st stat (s * per + i) c))) i).
  transitivity (fold_left (fun flags c => orl flags (map (g c) (seq 0 per))) (seq 0 n_corr) (map (fun _ => false) (seq 0 per))); [|rewrite or_fold; reflexivity].
  generalize (seq 0 n_corr). intros cs. generalize (map (fun _ : nat => false) (seq 0 per)). induction cs as [|c cs IH]; intros fl; [reflexivity|]. cbn [fold_left]. rewrite IH. f_equal. f_equal.
  assert (E : map (fun i => log1 (gs stat (s * per + i) c)) (seq 0 per) = map (fun i => log1 (st stat (s * per + i) c)) (seq 0 per)).
  { apply map_ext_in. intros i I. apply in_seq in I. f_equal. apply gs_st. nia. }
  rewrite E, !map_map, !(find_outliers_ok qmedian) by assumption. apply map2_map.
Qed.
Lemma station_flags_ok stat c : station_flags n_stations per o sigma_s max_s vis stat c = map (fun s => station_out qmedian med n_stations per sigma_s max_s pair stat s c) (seq 0 n_stations).
Proof.
  unfold station_flags, station_out.
  assert (E : forall part, station_values n_stations per o vis stat part c =
    map (fun s => finite (ediv (med (map (fun i => part (st stat (s * per + i) c)) (seq 0 per))) (med (map (fun a => part (st stat a c)) (seq 0 n))))) (seq 0 n_stations)).
  { intros part. unfold station_values. apply map_ext_in. intros s I. apply in_seq in I. rewrite (flat_map_blocks (fun s i => part (gs stat (s * per + i) c)) n_stations per Hp).
    assert (A : map (fun i => part (gs stat (s * per + i) c)) (seq 0 per) = map (fun i => part (st stat (s * per + i) c)) (seq 0 per)).
    { apply map_ext_in. intros i J. apply in_seq in J. f_equal. apply gs_st. nia. }
    assert (B : map (fun a => part (gs stat (a / per * per + a mod per) c)) (seq 0 n) = map (fun a => part (st stat a c)) (seq 0 n)).
    { apply map_ext_in. intros a J. apply in_seq in J. replace (a / per * per + a mod per) with a by (rewrite (Nat.mul_comm (a / per)); apply Nat.div_mod; lia). f_equal. apply gs_st. lia. }
    rewrite A, B. rewrite (emedian_ok _ (med (map (fun i => part (st stat (s * per + i) c)) (seq 0 per)))), (emedian_ok _ (med (map (fun a => part (st stat a c)) (seq 0 n)))); [reflexivity| | | |]; try (apply He).
    - destruct n_stations; [lia|]. destruct per; [lia|]. discriminate.
    - destruct n_stations; [lia|]. destruct per; [lia|]. discriminate.
    - destruct per; [lia|]. discriminate.
    - destruct per; [lia|]. discriminate. }
  rewrite !E, !(find_outliers_ok qmedian) by assumption. apply map2_map.
Qed.
Notation bad := (bad qmedian med deviation squares log1 n_stations per n_corr sigma_a sigma_s max_a max_s pair).
Lemma bad_ok : orl (bad_antennas deviation squares log1 n_stations per n_corr o sigma_a max_a vis) (bad_stations deviation squares n_stations per n_corr o sigma_s max_s vis) = map bad (seq 0 n).
Proof.
  assert (A : forall stat, flat_map (antenna_flags log1 n_stations per n_corr o sigma_a max_a vis stat) (seq 0 n_stations) = map (fun a => antenna_out qmedian log1 n_stations per n_corr sigma_a max_a pair stat (a / per) (a mod per)) (seq 0 n)).
  { intros stat. rewrite <- (flat_map_blocks (antenna_out qmedian log1 n_stations per n_corr sigma_a max_a pair stat) n_stations per Hp). rewrite !flat_map_concat_map. f_equal. apply map_ext_in. intros s I. apply in_seq in I. apply antenna_flags_ok. lia. }
  unfold bad_antennas. rewrite !A. unfold andl at 1. rewrite map2_map. unfold bad_stations.
  assert (B : flat_map (fun s => repeat (forallb (fun c => nth s (andl (station_flags n_stations per o sigma_s max_s vis deviation c) (station_flags n_stations per o sigma_s max_s vis squares c)) false) (used n_corr)) per) (seq 0 n_stations) =
    map (fun a => forallb (fun c => station_out qmedian med n_stations per sigma_s max_s pair deviation (a / per) c && station_out qmedian med n_stations per sigma_s max_s pair squares (a / per) c) (used n_corr)) (seq 0 n)).
  { rewrite <- (flat_map_blocks (fun s _ => forallb (fun c => station_out qmedian med n_stations per sigma_s max_s pair deviation s c && station_out qmedian med n_stations per sigma_s max_s pair squares s c) (used n_corr)) n_stations per Hp).
    rewrite !flat_map_concat_map. f_equal. apply map_ext_in. intros s I. apply in_seq in I. rewrite repeat_map. apply map_ext. intros _. generalize (used n_corr). intros cs. induction cs as [|c cs IHc]; [reflexivity|]. cbn [forallb]. rewrite IHc. f_equal. rewrite !station_flags_ok. unfold andl. rewrite map2_map. now rewrite nth_map_seq by lia. }
  rewrite B. unfold orl. rewrite map2_map. apply map_ext. intros a. unfold AntFlagSpec.bad, used. f_equal. destruct (n_corr =? 4); cbn [forallb negb orb]; rewrite ?andb_true_r; reflexivity.
Qed.
Lemma set_all_get (f : list (list bool) -> list (list bool)) (Hf : forall x, f (f x) = f x) : forall idx flags i,
  nth_error (fold_left (fun flags bl => set_nth flags bl (f (nth bl flags []))) idx flags) i = option_map (fun x => if existsb (Nat.eqb i) idx then f x else x) (nth_error flags i).
Proof.
  induction idx as [|b idx IH]; intros flags i; cbn [fold_left existsb]; [now destruct (nth_error flags i)|]. rewrite IH. destruct (Nat.ltb_spec b (length flags)) as [L|L].
  - rewrite set_nth_get by exact L. destruct (Nat.eqb_spec i b) as [->|N].
    + rewrite (nth_error_nth' flags [] L). cbn [option_map orb]. destruct (existsb _ _); now rewrite ?Hf.
    + destruct (nth_error flags i); reflexivity.
  - assert (E : set_nth flags b (f (nth b flags [])) = flags).
    { clear - L. revert b L. generalize (f (nth 0 flags [])). intros _. induction flags as [|x l IH]; intros [|b] L; cbn in *; try reflexivity; try lia. f_equal. specialize (IH b ltac:(lia)). exact IH. }
    rewrite E. destruct (Nat.eqb_spec i b) as [->|N]; [|reflexivity]. apply nth_error_None in L. now rewrite L.
Qed.
Lemma process_ok flags p q : p <= q < n ->
  nth_error (process deviation squares log1 n_stations per n_corr o sigma_a sigma_s max_a max_s vis flags) (place n_stations per o p q) =
    option_map (fun f => if bad p || bad q then map (map (fun _ => true)) f else f) (nth_error flags (place n_stations per o p q)).
Proof.
  intros H. unfold process. rewrite (set_all_get (map (map (fun _ => true)))) by (intros x; rewrite map_map; apply map_ext; intros; now rewrite map_map).
  destruct (nth_error flags _) as [f|]; [|reflexivity]. cbn [option_map]. f_equal. match goal with |- (if ?a then _ else _) = (if ?b then _ else _) => assert (E : a = b); [|now rewrite E] end.
  apply eq_true_iff_eq. rewrite existsb_exists, orb_true_iff. unfold flagged_antennas. rewrite bad_ok. unfold n_ant. split.
  - intros (i & I & E). apply Nat.eqb_eq in E. subst i. apply in_flat_map in I. destruct I as (a & Ia & I). apply filter_In in Ia. destruct Ia as [Ia Ba]. apply in_seq in Ia. rewrite nth_map_seq in Ba by lia.
    apply in_map_iff in I. destruct I as (b & E & Ib). apply in_seq in Ib. change (place n_stations per o a b = place n_stations per o p q) in E. rewrite (place_minmax _ _ _ a b) in E.
    unfold place in E. assert (Z.of_nat (Nat.min a b) = Z.of_nat p /\ Z.of_nat (Nat.max a b) = Z.of_nat q).
    { apply (index_inj_le _ _ _ _ (Z.of_nat n) o); try lia. apply Z2Nat.inj; [| |exact E]; apply index_range; lia. }
    destruct (Nat.le_gt_cases a b); [left; replace p with a by lia; exact Ba|right; replace q with a by lia; exact Ba].
  - intros B. exists (place n_stations per o p q). split; [|apply Nat.eqb_refl]. apply in_flat_map. destruct B as [B|B].
    + exists p. split; [apply filter_In; split; [apply in_seq; lia|rewrite nth_map_seq by lia; exact B]|]. apply (in_map (fun a2 => place n_stations per o p a2)). apply in_seq. lia.
    + exists q. split; [apply filter_In; split; [apply in_seq; lia|rewrite nth_map_seq by lia; exact B]|]. rewrite place_sym. apply (in_map (fun a2 => place n_stations per o q a2)). apply in_seq. lia.
Qed.
End Step.
