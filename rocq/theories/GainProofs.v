(** Proofs for the iterative solvers. *)
From Coq Require Import QArith Qcanon List Bool Arith ZArith Lia Permutation ZifyBool ZifyNat.
From Verif Require Import QcUtil InfoModel InfoProofs AverageModel SolveDataModel SolveDataSpec SolveDataProofs Cplx GainModel GainSpec.
Import ListNotations.
Open Scope nat_scope.

Lemma get_ok {T} (l : list T) i d : i < length l -> get l i = Ok (nth i l d).
Proof. intros H. unfold get. now rewrite (nth_error_nth' l d H). Qed.
Lemma first_solution_le n_sol d : d < length n_sol -> first_solution n_sol d + nth d n_sol 0 <= list_sum n_sol.
Proof.
  unfold first_solution. revert d. induction n_sol as [|n l IH]; cbn [length]; [lia|]. intros [|d] H; cbn; [lia|]. specialize (IH d ltac:(lia)). unfold list_sum in *. cbn in *. lia.
Qed.
Lemma first_solution_mono n_sol d d' : d < d' -> d' < length n_sol -> first_solution n_sol d + nth d n_sol 0 <= first_solution n_sol d'.
Proof.
  unfold first_solution. revert d d'. induction n_sol as [|n l IH]; cbn [length]; [lia|]. intros d [|d'] H H'; [lia|]. destruct d as [|d]; cbn; [lia|].
  specialize (IH d d' ltac:(lia) ltac:(lia)). unfold list_sum in *. cbn in *. lia.
Qed.

Section Loops.
Context {V S A R : Type}.
Variables vadd vsub : V -> V -> V.
Variable apply : V -> S -> S -> V.
Variables (a0 : A) (aadd : A -> A -> A).
Variables contribution_1 contribution_2 : V -> V -> S -> A.
Variable divide : A -> R.
Variables n_antennas n_sub : nat.
Variable n_sol : list nat.
Variable chunks : nat -> list (V * @visibility V unit) -> list (list (V * @visibility V unit)).
Variables (v0 : V) (s0 : S) (r0 : R).
Hypothesis aadd_assoc : forall a b c, aadd a (aadd b c) = aadd (aadd a b) c.
Hypothesis aadd_comm : forall a b, aadd a b = aadd b a.
Hypothesis aadd_0 : forall a, aadd a0 a = a.
Hypothesis chunks_ok : forall d l, Permutation (concat (chunks d l)) l.

Definition asum (l : list A) : A := fold_right aadd a0 l.
Lemma asum_app l1 l2 : asum (l1 ++ l2) = aadd (asum l1) (asum l2).
Proof. induction l1 as [|x l1 IH]; cbn [app asum fold_right]; [now rewrite aadd_0|]. fold (asum (l1 ++ l2)). now rewrite IH, aadd_assoc. Qed.
Lemma asum_perm l1 l2 : Permutation l1 l2 -> asum l1 = asum l2.
Proof. unfold asum. induction 1; cbn; auto; [now rewrite IHPermutation|now rewrite !aadd_assoc, (aadd_comm y x)|congruence]. Qed.
Lemma aadd_0r a : aadd a a0 = a. Proof. now rewrite aadd_comm, aadd_0. Qed.

Variable sols : list S.
Hypothesis sols_len : length sols = n_antennas * n_sub.
Definition sol (a s : nat) : S := nth (a * n_sub + s) sols s0.
Definition solution_of (d : nat) (v : @visibility V unit) : nat := nth d (vis_solutions v) 0.
Definition model_of (d : nat) (v : @visibility V unit) : V := nth d (vis_models v) v0.
Definition ok_vis (v : @visibility V unit) : Prop :=
  fst (vis_antennas v) < n_antennas /\ snd (vis_antennas v) < n_antennas /\ length (vis_models v) = length n_sol /\ length (vis_solutions v) = length n_sol /\
  forall d, d < length n_sol -> first_solution n_sol d <= solution_of d v < first_solution n_sol d + nth d n_sol 0.
Hypothesis sub_ok : list_sum n_sol <= n_sub.
Definition predict (d : nat) (v : @visibility V unit) : V :=
  apply (model_of d v) (sol (fst (vis_antennas v)) (solution_of d v)) (sol (snd (vis_antennas v)) (solution_of d v)).

Lemma sol_in a s : a < n_antennas -> s < n_sub -> a * n_sub + s < length sols.
Proof. rewrite sols_len. nia. Qed.
Lemma solution_sub d v : ok_vis v -> d < length n_sol -> solution_of d v < n_sub.
Proof. intros (_ & _ & _ & _ & H) Hd. specialize (H d Hd). pose proof (first_solution_le n_sol d Hd). lia. Qed.
Lemma corrected_spec d v : ok_vis v -> d < length n_sol -> corrected apply n_sub sols d v = Ok (predict d v).
Proof.
  intros H Hd. pose proof (solution_sub d v H Hd) as Hs. destruct H as (H1 & H2 & H3 & H4 & _). unfold corrected, predict.
  rewrite (get_ok _ d 0) by lia. cbn [bind]. rewrite (get_ok _ d v0) by lia. cbn [bind]. fold (solution_of d v). fold (model_of d v).
  rewrite (get_ok _ _ s0) by (now apply sol_in). cbn [bind]. rewrite (get_ok _ _ s0) by (now apply sol_in). reflexivity.
Qed.
Lemma add_or_subtract_spec op d l : Forall (fun p => ok_vis (snd p)) l -> d < length n_sol ->
  add_or_subtract apply n_sub op sols d l = Ok (map (fun p => (op (fst p) (predict d (snd p)), snd p)) l).
Proof.
  intros H Hd. induction H as [|[r v] l H _ IH]; [reflexivity|]. cbn [add_or_subtract]. cbn [snd] in H. rewrite corrected_spec by auto. cbn [bind]. rewrite IH. reflexivity.
Qed.
Lemma subtract_all_spec ds : Forall (fun d => d < length n_sol) ds -> forall l, Forall (fun p => ok_vis (snd p)) l ->
  subtract_all vsub apply n_sub sols ds l = Ok (map (fun p => (fold_left (fun r d => vsub r (predict d (snd p))) ds (fst p), snd p)) l).
Proof.
  induction 1 as [|d ds Hd _ IH]; intros l H.
  - cbn. now rewrite <- (map_id l) at 1; f_equal; apply map_ext; intros [].
  - cbn [subtract_all]. rewrite add_or_subtract_spec by auto. cbn [bind]. rewrite IH.
    + rewrite map_map. reflexivity.
    + clear - H. induction H; cbn; constructor; auto.
Qed.

Section Direction.
Variable d : nat.
Hypothesis Hd : d < length n_sol.
Notation n_dir := (nth d n_sol 0).
Notation sol0 := (first_solution n_sol d).
Hypothesis small : (Z.of_nat n_antennas * Z.of_nat n_sub < 2 ^ 32)%Z.

Lemma place_spec a v : ok_vis v -> a < n_antennas ->
  place n_dir sol0 a (solution_of d v) = Z.of_nat (a * n_dir + (solution_of d v - sol0)) /\ a * n_dir + (solution_of d v - sol0) < n_antennas * n_dir.
Proof.
  intros (_ & _ & _ & _ & H) Ha. specialize (H d Hd). pose proof (first_solution_le n_sol d Hd) as L. set (s := solution_of d v) in *.
  assert (I : a * n_dir + (s - sol0) < n_antennas * n_dir) by nia. split; [|exact I].
  assert (B : n_dir <= n_sub) by lia.
  assert (J : (Z.of_nat (n_antennas * n_dir) < 2 ^ 32)%Z). { rewrite Nat2Z.inj_mul. assert (Z.of_nat n_antennas * Z.of_nat n_dir <= Z.of_nat n_antennas * Z.of_nat n_sub)%Z by (apply Z.mul_le_mono_nonneg_l; lia). lia. }
  assert (Q : s - sol0 < n_antennas * n_dir) by nia.
  unfold place, u32. rewrite (Z.mod_small (_ - _)) by lia. rewrite Z.mod_small; [lia|]. split; [lia|]. eapply Z.le_lt_trans; [|exact J]. lia.
Qed.

Definition idx (a : nat) (v : @visibility V unit) : nat := a * n_dir + (solution_of d v - sol0).
Definition contrib_at (i : nat) (p : V * @visibility V unit) : A :=
  let v := snd p in
  aadd (if idx (fst (vis_antennas v)) v =? i then contribution_1 (fst p) (model_of d v) (sol (snd (vis_antennas v)) (solution_of d v)) else a0)
       (if idx (snd (vis_antennas v)) v =? i then contribution_2 (fst p) (model_of d v) (sol (fst (vis_antennas v)) (solution_of d v)) else a0).

Lemma add_at_spec acc k x : k < length acc -> exists acc', add_at a0 aadd acc (Z.of_nat k) x = Ok acc' /\ length acc' = length acc /\
  forall i, i < length acc -> nth i acc' a0 = aadd (nth i acc a0) (if k =? i then x else a0).
Proof.
  intros H. unfold add_at. destruct (Z.ltb_spec (Z.of_nat k) (Z.of_nat (length acc))); [|lia]. rewrite Nat2Z.id. eexists. split; [reflexivity|]. split; [apply set_nth_length|].
  intros i Hi. destruct (Nat.eqb_spec k i) as [<-|N]; [now rewrite set_nth_same|]. rewrite set_nth_other by auto. now rewrite aadd_0r.
Qed.
Lemma solve_chunk_spec l : Forall (fun p => ok_vis (snd p)) l -> forall acc, length acc = n_antennas * n_dir ->
  exists acc', solve_chunk a0 aadd contribution_1 contribution_2 n_sub sols d n_dir sol0 acc l = Ok acc' /\ length acc' = n_antennas * n_dir /\
  forall i, i < n_antennas * n_dir -> nth i acc' a0 = aadd (nth i acc a0) (asum (map (contrib_at i) l)).
Proof.
  induction 1 as [|[r v] l H _ IH]; intros acc Ha.
  - exists acc. cbn. repeat split; auto. intros. now rewrite aadd_0r.
  - cbn [snd] in H. pose proof (solution_sub d v H Hd) as Hs. pose proof H as (H1 & H2 & H3 & H4 & _). cbn [solve_chunk].
    rewrite (get_ok _ d 0) by lia. cbn [bind]. fold (solution_of d v).
    rewrite (get_ok _ _ s0) by (now apply sol_in). cbn [bind]. rewrite (get_ok _ _ s0) by (now apply sol_in). cbn [bind]. rewrite (get_ok _ d v0) by lia. cbn [bind].
    destruct (place_spec _ v H H1) as [P1 L1]. destruct (place_spec _ v H H2) as [P2 L2]. rewrite P1, P2.
    destruct (add_at_spec acc _ (contribution_1 r (nth d (vis_models v) v0) (nth (snd (vis_antennas v) * n_sub + solution_of d v) sols s0)) (eq_ind_r (fun x => _ < x) L1 Ha)) as (acc1 & E1 & F1 & G1).
    rewrite E1. cbn [bind].
    destruct (add_at_spec acc1 (snd (vis_antennas v) * n_dir + (solution_of d v - sol0)) (contribution_2 r (nth d (vis_models v) v0) (nth (fst (vis_antennas v) * n_sub + solution_of d v) sols s0))) as (acc2 & E2 & F2 & G2); [lia|].
    rewrite E2. cbn [bind]. destruct (IH acc2) as (acc' & E & F & G); [lia|]. exists acc'. split; [exact E|]. split; [exact F|]. intros i Hi. rewrite G, G2, G1 by lia.
    cbn [map asum fold_right]. unfold contrib_at, idx, sol, model_of. cbn [fst snd]. rewrite !aadd_assoc. reflexivity.
Qed.
Lemma add_lists_spec a : forall b, length a = length b -> length (add_lists aadd a b) = length a /\ forall i, i < length a -> nth i (add_lists aadd a b) a0 = aadd (nth i a a0) (nth i b a0).
Proof.
  induction a as [|x a IH]; intros [|y b] H; try discriminate; cbn; [split; [auto|lia]|]. destruct (IH b) as [E F]; [cbn in H; lia|]. split; [lia|]. intros [|i] Hi; [reflexivity|apply F; lia].
Qed.
Lemma solve_chunks_spec cs : Forall (fun p => ok_vis (snd p)) (concat cs) -> forall total, length total = n_antennas * n_dir ->
  exists t, solve_chunks a0 aadd contribution_1 contribution_2 n_antennas n_sub sols d n_dir sol0 total cs = Ok t /\ length t = n_antennas * n_dir /\
  forall i, i < n_antennas * n_dir -> nth i t a0 = aadd (nth i total a0) (asum (map (contrib_at i) (concat cs))).
Proof.
  induction cs as [|c cs IH]; intros H total Ht.
  - exists total. cbn. repeat split; auto. intros. now rewrite aadd_0r.
  - cbn [concat] in H. apply Forall_app in H as [H1 H2]. cbn [solve_chunks]. destruct (solve_chunk_spec c H1 (repeat a0 (n_antennas * n_dir)) (repeat_length _ _)) as (acc & E & F & G).
    rewrite E. cbn [bind]. destruct (add_lists_spec total acc) as [L1 L2]; [lia|]. destruct (IH H2 (add_lists aadd total acc)) as (t & E' & F' & G'); [lia|].
    exists t. repeat split; auto. intros i Hi. rewrite G', L2, G by lia. rewrite nth_repeat. cbn [concat]. now rewrite map_app, asum_app, aadd_0, !aadd_assoc.
Qed.

Lemma assign_all_spec total l : length total = n_antennas * n_dir -> Forall (fun p => fst p < n_antennas /\ snd p < n_dir) l -> NoDup l -> forall next, length next = n_antennas * n_sub ->
  exists next', assign_all divide n_sub n_dir sol0 total next l = Ok next' /\ length next' = n_antennas * n_sub /\
  (forall a k, In (a, k) l -> nth (a * n_sub + (sol0 + k)) next' r0 = divide (nth (a * n_dir + k) total a0)) /\
  (forall i, (forall a k, In (a, k) l -> i <> a * n_sub + (sol0 + k)) -> nth i next' r0 = nth i next r0).
Proof.
  intros Ht. pose proof (first_solution_le n_sol d Hd) as L. induction l as [|[a k] l IH]; intros H N next Hn.
  - exists next. repeat split; auto. intros ? ? [].
  - inversion H as [|? ? Hp Hl]; subst. inversion N as [|? ? Nl Nd]; subst. cbn [fst snd] in Hp. cbn [assign_all]. unfold assign at 1. cbn [fst snd].
    assert (J : (Z.of_nat n_sub < 2 ^ 32)%Z) by (assert (Z.of_nat n_sub <= Z.of_nat n_antennas * Z.of_nat n_sub)%Z by (nia); lia).
    assert (E : Z.to_nat (u32 (Z.of_nat k + Z.of_nat sol0)) = sol0 + k). { unfold u32. rewrite Z.mod_small by lia. lia. }
    rewrite E. destruct (Nat.ltb_spec (sol0 + k) n_sub); [|lia]. assert (B : a * n_sub + (sol0 + k) < length next) by (rewrite Hn; nia). apply Nat.ltb_lt in B as B'. rewrite B'. cbn [andb].
    rewrite (get_ok _ _ a0) by (rewrite Ht; nia). cbn [bind].
    destruct (IH Hl Nd (set_nth next (a * n_sub + (sol0 + k)) (divide (nth (a * n_dir + k) total a0)))) as (next' & E1 & E2 & E3 & E4); [now rewrite set_nth_length|].
    exists next'. split; [exact E1|]. split; [exact E2|].
    assert (U : forall a' k', In (a', k') l -> a * n_sub + (sol0 + k) <> a' * n_sub + (sol0 + k')).
    { intros a' k' I Q. rewrite Forall_forall in Hl. specialize (Hl _ I). cbn in Hl. assert (a = a' /\ k = k') as [-> ->]; [|auto].
      assert (a = a'). { destruct (Nat.lt_trichotomy a a') as [Z|[Z|Z]]; auto; exfalso.
        - assert (a * n_sub + n_sub <= a' * n_sub) by (replace (a * n_sub + n_sub) with ((a + 1) * n_sub) by ring; apply Nat.mul_le_mono_r; lia). lia.
        - assert (a' * n_sub + n_sub <= a * n_sub) by (replace (a' * n_sub + n_sub) with ((a' + 1) * n_sub) by ring; apply Nat.mul_le_mono_r; lia). lia. }
      subst. split; [auto|lia]. }
    split.
    + intros a' k' [I|I]; [injection I as <- <-|now apply E3]. rewrite E4; [now rewrite set_nth_same|exact U].
    + intros i I. rewrite E4; [|intros; apply I; now right]. rewrite set_nth_other; [reflexivity|]. apply not_eq_sym, I. now left.
Qed.

Definition starts (l : list (V * @visibility V unit)) : Prop := exists p l', l = p :: l' /\ solution_of d (snd p) = sol0.
Lemma solve_direction_spec l next : Forall (fun p => ok_vis (snd p)) l -> starts l -> length next = n_antennas * n_sub ->
  exists next', solve_direction a0 aadd contribution_1 contribution_2 divide n_antennas n_sub n_sol chunks sols d l next = Ok next' /\ length next' = n_antennas * n_sub /\
  (forall a k, a < n_antennas -> k < n_dir -> nth (a * n_sub + (sol0 + k)) next' r0 = divide (asum (map (contrib_at (a * n_dir + k)) l))) /\
  (forall i, (forall a k, a < n_antennas -> k < n_dir -> i <> a * n_sub + (sol0 + k)) -> nth i next' r0 = nth i next r0).
Proof.
  intros H (p & l' & El & Es) Hn. unfold solve_direction. rewrite (get_ok n_sol d 0) by auto. cbn [bind]. rewrite (get_ok l 0 p) by (rewrite El; cbn; lia). cbn [bind].
  replace (nth 0 l p) with p by (now rewrite El). assert (Hp : ok_vis (snd p)) by (rewrite El in H; now inversion H). pose proof Hp as (_ & _ & _ & Hl & _).
  rewrite (get_ok _ d 0) by lia. cbn [bind]. fold (solution_of d (snd p)). rewrite Es.
  destruct (solve_chunks_spec (chunks d l)) with (total := repeat a0 (n_antennas * n_dir)) as (t & E & F & G).
  { apply Forall_forall. intros x Hx. rewrite Forall_forall in H. apply H. eapply Permutation_in; [apply chunks_ok|exact Hx]. }
  { apply repeat_length. }
  rewrite E. cbn [bind]. destruct (assign_all_spec t (list_prod (seq 0 n_antennas) (seq 0 n_dir))) with (next := next) as (next' & E1 & E2 & E3 & E4); auto.
  { apply Forall_forall. intros [a k] I. apply in_prod_iff in I as [I1 I2]. rewrite in_seq in *. cbn. lia. }
  { apply FinFun.Injective_map_NoDup with (f := fun x : nat * nat => x) (l := list_prod (seq 0 n_antennas) (seq 0 n_dir)) || idtac.
    clear. generalize (seq_NoDup n_dir 0). generalize (seq_NoDup n_antennas 0). generalize (seq 0 n_antennas) as x. generalize (seq 0 n_dir) as y. intros y x. induction 1 as [|a x Na Nx IH]; intros Ny; cbn; [constructor|].
    assert (NoDup (map (fun k => (a, k)) y)) by (apply FinFun.Injective_map_NoDup; [intros ? ? Q; congruence|auto]).
    assert (D : forall q, In q (map (fun k => (a, k)) y) -> In q (list_prod x y) -> False). { intros q Q1 Q2. apply in_map_iff in Q1 as (k & <- & _). apply in_prod_iff in Q2. tauto. }
    specialize (IH Ny). revert H D. generalize (map (fun k => (a, k)) y) as m. induction m as [|q m IHm]; intros Hm Dm; cbn; auto. inversion Hm; subst. constructor.
    - rewrite in_app_iff. intros [I|I]; [auto|]. apply (Dm q); [now left|auto].
    - apply IHm; auto. intros q' Q. apply Dm. now right. }
  exists next'. split; [exact E1|]. split; [exact E2|]. split.
  - intros a k Ha Hk. rewrite E3 by (apply in_prod; apply in_seq; lia). rewrite G by nia. rewrite nth_repeat, aadd_0. f_equal. apply asum_perm, Permutation_map, chunks_ok.
  - intros i I. apply E4. intros a k J. apply in_prod_iff in J as [J1 J2]. rewrite in_seq in *. apply I; lia.
Qed.
End Direction.

Hypothesis small : (Z.of_nat n_antennas * Z.of_nat n_sub < 2 ^ 32)%Z.
Variable b : list (@visibility V unit).
Hypothesis b_ok : Forall ok_vis b.
Hypothesis b_first : exists v b', b = v :: b' /\ forall d, d < length n_sol -> solution_of d v = first_solution n_sol d.
(** The residual of a visibility for a direction *)
Definition residual (d : nat) (v : @visibility V unit) : V :=
  vadd (fold_left (fun r d => vsub r (predict d v)) (seq 0 (length n_sol)) (vis_data v)) (predict d v).
(** What a visibility adds to an antenna and solution *)
Definition contribution (d a s : nat) (v : @visibility V unit) : A :=
  if solution_of d v =? s then
    aadd (if fst (vis_antennas v) =? a then contribution_1 (residual d v) (model_of d v) (sol (snd (vis_antennas v)) s) else a0)
         (if snd (vis_antennas v) =? a then contribution_2 (residual d v) (model_of d v) (sol (fst (vis_antennas v)) s) else a0)
  else a0.

Lemma idx_eq d a a' k v : d < length n_sol -> ok_vis v -> k < nth d n_sol 0 -> (idx d a v =? a' * nth d n_sol 0 + k) = (solution_of d v =? first_solution n_sol d + k) && (a =? a').
Proof.
  intros Hd (_ & _ & _ & _ & H) Hk. specialize (H d Hd). unfold idx. set (n := nth d n_sol 0) in *. set (s := solution_of d v) in *. set (f := first_solution n_sol d) in *.
  destruct (Nat.eqb_spec s (f + k)) as [E|E], (Nat.eqb_spec a a') as [<-|E']; cbn [andb]; [apply Nat.eqb_eq; lia|apply Nat.eqb_neq; intros Q|apply Nat.eqb_neq; lia|apply Nat.eqb_neq; intros Q].
  - apply E'. nia.
  - assert (a = a') by nia. subst. lia.
Qed.

Theorem iteration_spec next : length next = n_antennas * n_sub ->
  exists next', perform_iteration vadd vsub apply a0 aadd contribution_1 contribution_2 divide n_antennas n_sub n_sol chunks b sols next = Ok next' /\ length next' = n_antennas * n_sub /\
  forall d a k, d < length n_sol -> a < n_antennas -> k < nth d n_sol 0 ->
    nth (a * n_sub + (first_solution n_sol d + k)) next' r0 = divide (asum (map (contribution d a (first_solution n_sol d + k)) b)).
Proof.
  intros Hn. unfold perform_iteration.
  rewrite subtract_all_spec.
  2:{ apply Forall_forall. intros d I. apply in_seq in I. lia. }
  2:{ clear - b_ok. induction b_ok; cbn; constructor; auto. }
  cbn [bind]. rewrite map_map. cbn [fst snd]. set (l := map _ b).
  assert (Hl : Forall (fun p => ok_vis (snd p)) l). { unfold l. clear - b_ok. induction b_ok; cbn; constructor; auto. }
  assert (G : forall n d1, d1 + n = length n_sol -> forall next, length next = n_antennas * n_sub ->
    exists next', solve_all vadd apply a0 aadd contribution_1 contribution_2 divide n_antennas n_sub n_sol chunks sols (seq d1 n) l next = Ok next' /\ length next' = n_antennas * n_sub /\
    (forall d a k, d1 <= d -> d < length n_sol -> a < n_antennas -> k < nth d n_sol 0 ->
      nth (a * n_sub + (first_solution n_sol d + k)) next' r0 = divide (asum (map (contribution d a (first_solution n_sol d + k)) b))) /\
    (forall i, (forall d a k, d1 <= d -> d < length n_sol -> a < n_antennas -> k < nth d n_sol 0 -> i <> a * n_sub + (first_solution n_sol d + k)) -> nth i next' r0 = nth i next r0)).
  2:{ destruct (G (length n_sol) 0 ltac:(lia) next Hn) as (next' & E1 & E2 & E3 & _). exists next'. repeat split; auto. intros. apply E3; auto; lia. }
  induction n as [|n IH]; intros d1 Hd1 nx Hnx.
  - exists nx. cbn. repeat split; auto. intros. lia.
  - cbn [seq solve_all]. rewrite add_or_subtract_spec by (auto; lia). cbn [bind].
    destruct (solve_direction_spec d1) with (l := map (fun p : V * visibility => (vadd (fst p) (predict d1 (snd p)), snd p)) l) (next := nx) as (nx1 & E1 & E2 & E3 & E4); auto; try lia.
    { clear - Hl. induction Hl; cbn; constructor; auto. }
    { destruct b_first as (v & b' & Eb & F). unfold l. rewrite Eb. eexists _, _. split; [reflexivity|]. cbn. apply F. lia. }
    rewrite E1. cbn [bind]. destruct (IH (Datatypes.S d1) ltac:(lia) nx1 E2) as (nx2 & F1 & F2 & F3 & F4). exists nx2. split; [exact F1|]. split; [exact F2|]. split.
    + intros d a k H1 H2 Ha Hk. destruct (Nat.eq_dec d d1) as [->|N]; [|apply F3; auto; lia].
      rewrite F4.
      * rewrite E3 by auto. f_equal. unfold l. rewrite !map_map. f_equal. apply map_ext_in. intros v Iv. rewrite Forall_forall in b_ok. specialize (b_ok v Iv).
        unfold contrib_at, contribution. cbn [fst snd]. rewrite !idx_eq by auto. fold (residual d1 v).
        destruct (Nat.eqb_spec (solution_of d1 v) (first_solution n_sol d1 + k)) as [E|E]; cbn [andb]; [now rewrite E|apply aadd_0].
      * intros d' a' k' H3 H4 Ha' Hk'. pose proof (first_solution_mono n_sol d1 d' ltac:(lia) H4). pose proof (first_solution_le n_sol d' H4). pose proof (first_solution_le n_sol d1 H2). intros Q.
        assert (a = a'). { destruct (Nat.lt_trichotomy a a') as [Z|[Z|Z]]; auto; exfalso.
          - assert (a * n_sub + n_sub <= a' * n_sub) by (replace (a * n_sub + n_sub) with ((a + 1) * n_sub) by ring; apply Nat.mul_le_mono_r; lia). lia.
          - assert (a' * n_sub + n_sub <= a * n_sub) by (replace (a' * n_sub + n_sub) with ((a' + 1) * n_sub) by ring; apply Nat.mul_le_mono_r; lia). lia. }
        subst. lia.
    + intros i I. rewrite F4; [|intros; apply I; auto; lia]. rewrite E4; [reflexivity|]. intros. apply I; auto; lia.
Qed.
End Loops.
