(** Proofs about demixing. *)
From Coq Require Import Reals List Arith Bool Lia Ring FinFun.
From Verif Require Import RealCplx DemixModel DemixSpec.
Import ListNotations.
Open Scope R_scope.

Lemma fold_sum {A} (f : A -> rc) l : forall a, fold_left (fun s x => radd s (f x)) l a = radd a (lsum f l).
Proof.
  unfold lsum. induction l as [|x l IH]; intros a; cbn [fold_left]; [ring|]. rewrite IH, (IH (radd rc0 (f x))). ring.
Qed.
Lemma lsum_cons {A} (f : A -> rc) x l : lsum f (x :: l) = radd (f x) (lsum f l).
Proof. unfold lsum at 1. cbn [fold_left]. rewrite fold_sum. ring. Qed.
Lemma lsum_nil {A} (f : A -> rc) : lsum f [] = rc0. Proof. reflexivity. Qed.
Lemma lsum_ext {A} (f g : A -> rc) l : (forall x, In x l -> f x = g x) -> lsum f l = lsum g l.
Proof.
  induction l as [|x l IH]; intros H; [reflexivity|]. rewrite !lsum_cons, (H x (or_introl eq_refl)), IH; [reflexivity|]. intros y I. apply H. now right.
Qed.
Lemma lsum_app {A} (f : A -> rc) l k : lsum f (l ++ k) = radd (lsum f l) (lsum f k).
Proof. induction l as [|x l IH]; [rewrite lsum_nil; cbn [app]; ring|]. cbn [app]. rewrite !lsum_cons, IH. ring. Qed.
Lemma lsum_add {A} (f g : A -> rc) l : lsum (fun x => radd (f x) (g x)) l = radd (lsum f l) (lsum g l).
Proof. induction l as [|x l IH]; [rewrite !lsum_nil; ring|]. rewrite !lsum_cons, IH. ring. Qed.
Lemma lsum_mul_l {A} c (f : A -> rc) l : lsum (fun x => rmul c (f x)) l = rmul c (lsum f l).
Proof. induction l as [|x l IH]; [rewrite !lsum_nil; ring|]. rewrite !lsum_cons, IH. ring. Qed.
Lemma lsum_mul_r {A} c (f : A -> rc) l : lsum (fun x => rmul (f x) c) l = rmul (lsum f l) c.
Proof. induction l as [|x l IH]; [rewrite !lsum_nil; ring|]. rewrite !lsum_cons, IH. ring. Qed.
Lemma lsum_conj {A} (f : A -> rc) l : rconj (lsum f l) = lsum (fun x => rconj (f x)) l.
Proof. induction l as [|x l IH]; [apply rconj_0|]. now rewrite !lsum_cons, rconj_add, IH. Qed.
Lemma lsum_0 {A} (l : list A) : lsum (fun _ => rc0) l = rc0.
Proof. induction l as [|x l IH]; [reflexivity|]. rewrite lsum_cons, IH. ring. Qed.
Lemma total_ext n (f g : nat -> rc) : (forall d, (d < n)%nat -> f d = g d) -> total n f = total n g.
Proof. induction n as [|n IH]; intros H; [reflexivity|]. cbn [total]. rewrite IH by (intros; apply H; lia). now rewrite H by lia. Qed.
Lemma lsum_seq n (f : nat -> rc) : lsum f (seq 0 n) = total n f.
Proof.
  induction n as [|n IH]; [reflexivity|]. rewrite seq_S, lsum_app, IH. cbn [total]. rewrite lsum_cons, lsum_nil, Nat.add_0_l. ring.
Qed.
Lemma total_mul_l n c (f : nat -> rc) : total n (fun x => rmul c (f x)) = rmul c (total n f).
Proof. rewrite <- !lsum_seq. apply lsum_mul_l. Qed.
Lemma total_mul_r n c (f : nat -> rc) : total n (fun x => rmul (f x) c) = rmul (total n f) c.
Proof. rewrite <- !lsum_seq. apply lsum_mul_r. Qed.
Lemma total_add n (f g : nat -> rc) : total n (fun x => radd (f x) (g x)) = radd (total n f) (total n g).
Proof. rewrite <- !lsum_seq. apply lsum_add. Qed.
Lemma total_0 n : total n (fun _ => rc0) = rc0.
Proof. rewrite <- lsum_seq. apply lsum_0. Qed.
Lemma total_zero n (f : nat -> rc) : (forall d, (d < n)%nat -> f d = rc0) -> total n f = rc0.
Proof. intros H. rewrite (total_ext n f (fun _ => rc0) H). apply total_0. Qed.
Lemma lsum_total {A} n (g : A -> nat -> rc) l : lsum (fun x => total n (g x)) l = total n (fun d => lsum (fun x => g x d) l).
Proof.
  induction l as [|x l IH]; [rewrite lsum_nil, total_zero; reflexivity|]. rewrite lsum_cons, IH, <- total_add. apply total_ext. intros d _. now rewrite lsum_cons.
Qed.
Lemma total_swap n m (g : nat -> nat -> rc) : total n (fun i => total m (g i)) = total m (fun j => total n (fun i => g i j)).
Proof. rewrite <- lsum_seq, lsum_total. apply total_ext. intros d _. apply lsum_seq. Qed.
Lemma total_delta n i (f : nat -> rc) : (i < n)%nat -> total n (fun j => rmul (delta i j) (f j)) = f i.
Proof.
  intros L. induction n as [|n IH]; [lia|]. cbn [total]. unfold delta in *. destruct (i =? n)%nat eqn:E.
  - apply Nat.eqb_eq in E. subst. rewrite total_zero; [ring|]. intros d D. replace (n =? d)%nat with false by (symmetry; apply Nat.eqb_neq; lia). ring.
  - apply Nat.eqb_neq in E. rewrite IH by lia. ring.
Qed.
Lemma total_split n m (f : nat -> rc) : total (n + m) f = radd (total n f) (total m (fun k => f (n + k)%nat)).
Proof.
  induction m as [|m IH]; cbn [total]; [rewrite Nat.add_0_r; ring|]. replace (n + S m)%nat with (S (n + m)) by lia. cbn [total]. rewrite IH. ring.
Qed.
Lemma rscale_mul x a : rscale x a = rmul (RC x 0) a. Proof. apply rc_eq; cbn; ring. Qed.
Lemma lsum_scale {A} x (f : A -> rc) l : lsum (fun y => rscale x (f y)) l = rscale x (lsum f l).
Proof. rewrite rscale_mul, <- lsum_mul_l. apply lsum_ext. intros. apply rscale_mul. Qed.
Lemma wsum_lsum {A} (f : A -> R) l : lsum (fun x => RC (f x) 0) l = RC (wsum f l) 0.
Proof.
  assert (G : forall l a, fold_left (fun s x => radd s (RC (f x) 0)) l (RC a 0) = RC (fold_left (fun s x => s + f x) l a) 0); [|exact (G l 0)].
  clear l. induction l as [|x l IH]; intros a; [reflexivity|]. cbn [fold_left]. rewrite <- IH. f_equal. apply rc_eq; cbn; ring.
Qed.
Lemma wsum_zero {A} (f : A -> R) l : (forall x, In x l -> f x = 0) -> wsum f l = 0.
Proof.
  intros H. assert (E : RC (wsum f l) 0 = rc0) by (rewrite <- wsum_lsum, <- (lsum_0 l); apply lsum_ext; intros x I; now rewrite H). apply (f_equal re E).
Qed.

(** Channels *)
Lemma channels_nth n_in n_avg : forall n ch_out k, (k < n)%nat -> ((ch_out + n - 1) * n_avg <= n_in)%nat ->
  nth k (channels n_in n_avg (ch_out * n_avg) ch_out n) [] = averaged_channels n_in n_avg (ch_out + k).
Proof.
  induction n as [|n IH]; intros c k L B; [lia|]. cbn [channels]. destruct k as [|k].
  - cbn [nth]. now rewrite Nat.add_0_r.
  - cbn [nth]. replace (c + S k)%nat with (S c + k)%nat by lia. rewrite <- IH by (auto; try lia; nia). f_equal. f_equal. cbn [Nat.mul].
    assert ((S c * n_avg <= n_in)%nat) by nia. cbn [Nat.mul] in *. lia.
Qed.

(** Pairs of directions *)
Lemma in_pairs n a b : In (a, b) (pairs n) <-> (a < b < n)%nat.
Proof.
  unfold pairs. rewrite in_flat_map. split.
  - intros (x & I & J). apply in_map_iff in J. destruct J as (y & E & J). injection E as <- <-. apply in_seq in I, J. lia.
  - intros H. exists a. split; [apply in_seq; lia|]. apply in_map_iff. exists b. split; [reflexivity|]. apply in_seq. lia.
Qed.
Lemma nodup_flat (g : nat -> list nat) : forall l, NoDup l -> (forall x, NoDup (g x)) -> NoDup (flat_map (fun x => map (fun y => (x, y)) (g x)) l).
Proof.
  induction l as [|x l IH]; intros N G; cbn; [constructor|]. inversion N; subst.
  assert (A : forall (u v : list (nat * nat)), NoDup u -> NoDup v -> (forall z, In z u -> ~ In z v) -> NoDup (u ++ v)).
  { clear. induction u as [|z u IH]; intros v U V D; [exact V|]. inversion U; subst. cbn. constructor.
    - intros I. apply in_app_or in I. destruct I as [I|I]; [auto|]. now apply (D z (or_introl eq_refl)).
    - apply IH; auto. intros w I. apply D. now right. }
  apply A.
  - apply FinFun.Injective_map_NoDup; [|apply G]. intros u v E. now injection E.
  - now apply IH.
  - intros [a b] I J. apply in_map_iff in I. destruct I as (y & E & _). injection E as <- <-. apply in_flat_map in J. destruct J as (z & Z & J). apply in_map_iff in J.
    destruct J as (y' & E & _). injection E as <- <-. contradiction.
Qed.
Lemma nodup_pairs n : NoDup (pairs n).
Proof. apply nodup_flat; [apply seq_NoDup|]. intros. apply seq_NoDup. Qed.
Lemma in_combine_seq {A} (l : list A) : forall s k x, In (k, x) (combine (seq s (length l)) l) -> (s <= k)%nat /\ nth_error l (k - s) = Some x.
Proof.
  induction l as [|y l IH]; intros s k x I; [destruct I|]. cbn [length seq combine] in I. destruct I as [E|I].
  - injection E as <- <-. rewrite Nat.sub_diag. split; [lia|reflexivity].
  - apply IH in I. destruct I as [L E]. split; [lia|]. replace (k - s)%nat with (S (k - S s)) by lia. exact E.
Qed.
Lemma in_combine_ex {A} (l : list A) x : In x l -> forall s, exists k, In (k, x) (combine (seq s (length l)) l).
Proof.
  induction l as [|y l IH]; intros I s; [destruct I|]. cbn [length seq combine]. destruct I as [->|I].
  - exists s. now left.
  - destruct (IH I (S s)) as [k K]. exists k. now right.
Qed.
Lemma snd_combine {A} (l : list A) : forall s, map snd (combine (seq s (length l)) l) = l.
Proof. induction l as [|y l IH]; intros s; [reflexivity|]. cbn [length seq combine map snd]. now rewrite IH. Qed.
Definition fill (f : nat -> nat -> nat -> rc) (m : nat -> nat -> rc) (l : list (nat * (nat * nat))) : nat -> nat -> rc :=
  fold_left (fun m '(k, (d0, d1)) => set2 (set2 m d0 d1 (f k d0 d1)) d1 d0 (rconj (f k d0 d1))) l m.
Lemma fill_other f : forall l m x y, (forall k a b, In (k, (a, b)) l -> ~ (x = a /\ y = b) /\ ~ (x = b /\ y = a)) -> fill f m l x y = m x y.
Proof.
  unfold fill. induction l as [|[k [a b]] l IH]; intros m x y H; [reflexivity|]. cbn [fold_left]. rewrite IH.
  - destruct (H k a b (or_introl eq_refl)) as [P Q]. unfold set2.
    destruct (Nat.eqb_spec x b), (Nat.eqb_spec y a), (Nat.eqb_spec x a), (Nat.eqb_spec y b); cbn; try reflexivity; exfalso; tauto.
  - intros k' a' b' I. apply (H k'). now right.
Qed.
Lemma fill_in f : forall l m k a b, NoDup (map snd l) -> (forall k a b, In (k, (a, b)) l -> (a < b)%nat) -> In (k, (a, b)) l ->
  fill f m l a b = f k a b /\ fill f m l b a = rconj (f k a b).
Proof.
  unfold fill. induction l as [|[k' [a' b']] l IH]; intros m k a b N O I; [destruct I|]. cbn [map snd] in N. inversion N as [|? ? N1 N2]; subst. cbn [fold_left]. destruct I as [E|I].
  - injection E as -> -> ->. assert (L : (a < b)%nat) by (apply (O k); now left).
    assert (D : forall k' a' b', In (k', (a', b')) l -> (a' < b')%nat /\ (a', b') <> (a, b)).
    { intros k' a' b' J. split; [apply (O k'); now right|]. intros E. apply N1. rewrite <- E. now apply (in_map snd l (k', (a', b'))). }
    split.
    + change (fill f (set2 (set2 m a b (f k a b)) b a (rconj (f k a b))) l a b = f k a b). rewrite fill_other.
      * unfold set2. replace (a =? b)%nat with false by (symmetry; apply Nat.eqb_neq; lia). now rewrite !Nat.eqb_refl.
      * intros k' a' b' J. apply D in J. destruct J as [J K]. split; [intros [-> ->]; now apply K|]. lia.
    + change (fill f (set2 (set2 m a b (f k a b)) b a (rconj (f k a b))) l b a = rconj (f k a b)). rewrite fill_other.
      * unfold set2. now rewrite !Nat.eqb_refl.
      * intros k' a' b' J. apply D in J. destruct J as [J K]. split; [lia|]. intros [-> ->]. now apply K.
  - apply IH; auto. intros k2 a2 b2 J. apply (O k2). now right.
Qed.

(** Mixing factors *)
Lemma add_factors_fold n_dir k d0 d1 ch : nth_error (pairs n_dir) k = Some (d0, d1) -> forall slots fb,
  fold_left (add_factors n_dir) slots fb k ch = radd (fb k ch) (lsum (fun s => rscale (weight_of s ch) (factor n_dir s d0 d1 ch)) slots).
Proof.
  intros E. induction slots as [|s l IH]; intros fb; cbn [fold_left]; [rewrite lsum_nil; ring|]. rewrite IH, lsum_cons. unfold add_factors. rewrite E. ring.
Qed.
Definition mean (slots : list slot) (chs : list nat) (w : R) (g : slot -> nat -> rc) : rc := rscale (/ w) (lsum (fun ch => lsum (fun s => rscale (weight_of s ch) (g s ch)) slots) chs).
Lemma mean_ext slots chs w g h : (forall s ch, In s slots -> In ch chs -> g s ch = h s ch) -> mean slots chs w g = mean slots chs w h.
Proof. intros H. unfold mean. f_equal. apply lsum_ext. intros ch C. apply lsum_ext. intros s I. now rewrite H. Qed.
Lemma mean_conj slots chs w g : rconj (mean slots chs w g) = mean slots chs w (fun s ch => rconj (g s ch)).
Proof.
  unfold mean. transitivity (rscale (/ w) (rconj (lsum (fun ch => lsum (fun s => rscale (weight_of s ch) (g s ch)) slots) chs))); [apply rc_eq; cbn; ring|].
  f_equal. rewrite lsum_conj. apply lsum_ext. intros ch _. rewrite lsum_conj. apply lsum_ext. intros s _. apply rc_eq; cbn; ring.
Qed.
Lemma mean_total n slots chs w g : mean slots chs w (fun s ch => total n (g s ch)) = total n (fun d => mean slots chs w (fun s ch => g s ch d)).
Proof.
  unfold mean. rewrite rscale_mul, (total_ext n _ (fun d => rmul (RC (/ w) 0) (lsum (fun ch => lsum (fun s => rscale (weight_of s ch) (g s ch d)) slots) chs))) by (intros; apply rscale_mul).
  rewrite total_mul_l. f_equal. rewrite <- lsum_total. apply lsum_ext. intros ch _. rewrite <- lsum_total. apply lsum_ext. intros s _.
  rewrite rscale_mul, <- total_mul_l. apply total_ext. intros d _. now rewrite rscale_mul.
Qed.
Lemma mean_mul slots chs w c g : mean slots chs w (fun s ch => rmul c (g s ch)) = rmul c (mean slots chs w g).
Proof.
  unfold mean. rewrite !rscale_mul. transitivity (rmul (RC (/ w) 0) (rmul c (lsum (fun ch => lsum (fun s => rscale (weight_of s ch) (g s ch)) slots) chs))); [|ring].
  f_equal. rewrite <- lsum_mul_l. apply lsum_ext. intros ch _. rewrite <- lsum_mul_l. apply lsum_ext. intros s _. rewrite !rscale_mul. ring.
Qed.
Lemma mean_one slots chs : wsum (fun ch => wsum (fun s => weight_of s ch) slots) chs <> 0 ->
  mean slots chs (wsum (fun ch => wsum (fun s => weight_of s ch) slots) chs) (fun _ _ => rc1) = rc1.
Proof.
  intros W. unfold mean. rewrite (lsum_ext _ (fun ch => RC (wsum (fun s => weight_of s ch) slots) 0)).
  - rewrite wsum_lsum. apply rc_eq; cbn; [field; exact W|ring].
  - intros ch _. rewrite <- wsum_lsum. apply lsum_ext. intros s _. apply rc_eq; cbn; ring.
Qed.
Section Factors.
Variables (n_dir n_in n_avg n_out : nat) (slots : list slot) (ch_out : nat).
Hypothesis C : (ch_out < n_out)%nat.
Hypothesis B : ((n_out - 1) * n_avg <= n_in)%nat.
Let chs := averaged_channels n_in n_avg ch_out.
Let w := snd (fst (average n_dir n_in n_avg slots 0 ch_out)).
Lemma factors_pair a b : (a < b < n_dir)%nat ->
  factors n_dir n_in n_avg n_out slots ch_out a b = mean slots chs w (fun s ch => rmul (shift n_dir s b ch) (rconj (shift n_dir s a ch))) /\
  factors n_dir n_in n_avg n_out slots ch_out b a = mean slots chs w (fun s ch => rmul (shift n_dir s a ch) (rconj (shift n_dir s b ch))).
Proof.
  intros L. unfold factors, make_factors.
  set (fb := fold_left (add_factors n_dir) slots (fun _ _ => rc0)).
  set (f := fun k (_ _ : nat) => rscale (/ snd (fst (average n_dir n_in n_avg slots 0 ch_out))) (lsum (fun ch => fb k ch) (nth ch_out (channels n_in n_avg 0 0 n_out) []))).
  destruct (in_combine_ex (pairs n_dir) (a, b) (proj2 (in_pairs n_dir a b) L) 0) as [k K].
  pose proof (in_combine_seq _ _ _ _ K) as [_ E]. rewrite Nat.sub_0_r in E.
  assert (F : f k a b = mean slots chs w (fun s ch => rmul (shift n_dir s b ch) (rconj (shift n_dir s a ch)))).
  { unfold f, mean. f_equal. change 0%nat with (0 * n_avg)%nat at 1. rewrite channels_nth by (auto; lia). apply lsum_ext. intros ch _. unfold fb.
    rewrite (add_factors_fold n_dir k a b ch E). transitivity (lsum (fun s => rscale (weight_of s ch) (factor n_dir s a b ch)) slots); [ring|]. apply lsum_ext. intros s _. f_equal.
    unfold factor, shift. replace (a =? n_dir - 1)%nat with false by (symmetry; apply Nat.eqb_neq; lia). destruct (b =? n_dir - 1)%nat; [ring|reflexivity]. }
  destruct (fill_in f (combine (seq 0 (length (pairs n_dir))) (pairs n_dir)) (fun _ _ => rc1) k a b) as [P Q].
  - rewrite snd_combine. apply nodup_pairs.
  - intros k' a' b' I. apply in_combine_r in I. apply in_pairs in I. lia.
  - exact K.
  - unfold fill in P, Q. split; [now rewrite <- F|]. rewrite F, mean_conj in Q. etransitivity; [exact Q|]. apply mean_ext. intros s ch _ _. rewrite rconj_mul, rconj_conj. ring.
Qed.
Lemma factors_diagonal a : factors n_dir n_in n_avg n_out slots ch_out a a = rc1.
Proof.
  unfold factors, make_factors.
  set (fb := fold_left (add_factors n_dir) slots (fun _ _ => rc0)).
  set (f := fun k (_ _ : nat) => rscale (/ snd (fst (average n_dir n_in n_avg slots 0 ch_out))) (lsum (fun ch => fb k ch) (nth ch_out (channels n_in n_avg 0 0 n_out) []))).
  change (fill f (fun _ _ => rc1) (combine (seq 0 (length (pairs n_dir))) (pairs n_dir)) a a = rc1). apply fill_other. intros k x y I. apply in_combine_r in I. apply in_pairs in I. lia.
Qed.
Hypothesis U : Forall unit_phasors slots.
Hypothesis N : snd (average n_dir n_in n_avg slots 0 ch_out) = false.
Lemma weight_not_zero : w = wsum (fun ch => wsum (fun s => weight_of s ch) slots) chs /\ w <> 0.
Proof. unfold w, average in *. fold chs in N |- *. destruct (Req_EM_T _ 0) as [E|E]; [discriminate N|]. cbn. split; [reflexivity|exact E]. Qed.
Lemma factors_mean a b : (a < n_dir)%nat -> (b < n_dir)%nat ->
  factors n_dir n_in n_avg n_out slots ch_out a b = mean slots chs w (fun s ch => rmul (shift n_dir s b ch) (rconj (shift n_dir s a ch))).
Proof.
  intros A D. destruct (Nat.lt_trichotomy a b) as [L|[L|L]].
  - apply (factors_pair a b). lia.
  - subst b. rewrite factors_diagonal. destruct weight_not_zero as [E W].
    rewrite (mean_ext slots chs w _ (fun _ _ => rc1)); [rewrite E in *; now rewrite mean_one|].
    intros s ch I _. unfold shift. destruct (a =? n_dir - 1)%nat; [apply rc_eq; cbn; ring|]. apply (proj1 (Forall_forall _ _) U s I).
  - apply (factors_pair b a). lia.
Qed.
Lemma average_mean d : (d < n_dir)%nat -> average n_dir n_in n_avg slots d ch_out = (mean slots chs w (fun s ch => rmul (s_data s ch) (shift n_dir s d ch)), w, false).
Proof.
  intros D. destruct weight_not_zero as [E W]. unfold average. fold chs. rewrite <- E. destruct (Req_EM_T w 0) as [X|X]; [contradiction|]. f_equal. f_equal. unfold mean. f_equal.
  apply lsum_ext. intros ch _. apply lsum_ext. intros s _. f_equal. unfold shifted, shift. destruct (Nat.ltb_spec d (n_dir - 1)).
  - replace (d =? n_dir - 1)%nat with false by (symmetry; apply Nat.eqb_neq; lia). reflexivity.
  - replace (d =? n_dir - 1)%nat with true by (symmetry; apply Nat.eqb_eq; lia). ring.
Qed.
End Factors.

(** Deprojection *)
Section Deproject.
Variables (invert : nat -> (nat -> nat -> rc) -> option (nat -> nat -> rc)) (n_dir n_model n_dep : nat) (buf : nat -> nat -> rc).
Let a i j := matrix buf i (n_model + j)%nat.
Let x0 := match invert n_dep (fun i j => lsum (fun k => rmul (rconj (a k i)) (a k j)) (seq 0 n_dir)) with Some x => x | None => fun _ _ => rc0 end.
Lemma projection_spec i j : projection invert n_dir n_model n_dep buf i j =
  rsub (delta i j) (total n_dep (fun k => rmul (total n_dep (fun l => rmul (a i l) (x0 l k))) (rconj (a j k)))).
Proof.
  unfold projection. fold a. rewrite lsum_seq. unfold delta. transitivity (radd (ropp (total n_dep (fun k => rmul (total n_dep (fun l => rmul (a i l) (x0 l k))) (rconj (a j k))))) (if (i =? j)%nat then rc1 else rc0)); [|ring].
  f_equal. f_equal. apply total_ext. intros k _. f_equal. apply lsum_seq.
Qed.
Lemma projection_mul i (f : nat -> rc) : (i < n_dir)%nat -> total n_dir (fun j => rmul (projection invert n_dir n_model n_dep buf i j) (f j)) =
  rsub (f i) (total n_dep (fun k => rmul (total n_dep (fun l => rmul (a i l) (x0 l k))) (total n_dir (fun j => rmul (rconj (a j k)) (f j))))).
Proof.
  intros I. set (y := fun k => total n_dep (fun l => rmul (a i l) (x0 l k))).
  rewrite (total_ext n_dir _ (fun j => radd (rmul (delta i j) (f j)) (rmul (ropp rc1) (total n_dep (fun k => rmul (y k) (rmul (rconj (a j k)) (f j))))))).
  - rewrite total_add, total_delta by exact I. rewrite total_mul_l, total_swap.
    rewrite (total_ext n_dep _ (fun k => rmul (y k) (total n_dir (fun j => rmul (rconj (a j k)) (f j))))) by (intros; apply total_mul_l). unfold y. ring.
  - intros j _. rewrite projection_spec. fold y. rewrite (total_ext n_dep (fun k => rmul (y k) (rmul (rconj (a j k)) (f j))) (fun k => rmul (rmul (y k) (rconj (a j k))) (f j))) by (intros; ring).
    rewrite total_mul_r. unfold y. ring.
Qed.
Lemma projection_kills i c : (i < n_dir)%nat -> (c < n_dep)%nat -> is_inverse n_dep x0 (gram n_dir n_model (matrix buf)) ->
  total n_dir (fun j => rmul (projection invert n_dir n_model n_dep buf i j) (matrix buf j (n_model + c)%nat)) = rc0.
Proof.
  intros I K H. rewrite (projection_mul i (fun j => matrix buf j (n_model + c)%nat)) by exact I.
  rewrite (total_ext n_dep _ (fun k => total n_dep (fun l => rmul (a i l) (rmul (x0 l k) (gram n_dir n_model (matrix buf) k c))))).
  - rewrite total_swap. rewrite (total_ext n_dep _ (fun l => rmul (delta c l) (a i l))).
    + rewrite total_delta by exact K. unfold a. ring.
    + intros l L. rewrite total_mul_l, (H l c L K). unfold delta. rewrite Nat.eqb_sym. ring.
  - intros k _. rewrite <- total_mul_r. apply total_ext. intros l _. unfold gram. unfold a. ring.
Qed.
Lemma projection_none i j : (forall k l, x0 k l = rc0) -> projection invert n_dir n_model n_dep buf i j = delta i j.
Proof.
  intros H. rewrite projection_spec, (total_zero n_dep (fun k => rmul (total n_dep (fun l => rmul (a i l) (x0 l k))) (rconj (a j k)))); [ring|].
  intros k _. rewrite total_zero; [ring|]. intros l _. rewrite H. ring.
Qed.
End Deproject.
Lemma is_inverse_ext n x m m' : (forall i j, m i j = m' i j) -> is_inverse n x m -> is_inverse n x m'.
Proof. intros E H i j I J. rewrite <- (H i j I J). apply total_ext. intros k _. now rewrite E. Qed.
