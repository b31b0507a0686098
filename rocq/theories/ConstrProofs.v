(** Lemmas about the constraints of DDECal. *)
From Coq Require Import Reals List Arith Bool Lia Lra.
From Verif Require Import RealCplx AverageModel ConstrModel ConstrSpec.
Import ListNotations.
Open Scope R_scope.

Lemma rltb_true a b : rltb a b = true <-> a < b.
Proof. unfold rltb. destruct (Rlt_dec a b); split; easy. Qed.
Lemma rltb_false a b : rltb a b = false <-> b <= a.
Proof. unfold rltb. destruct (Rlt_dec a b); split; try easy; lra. Qed.

(** * Means *)
Lemma mean_fold l : forall acc n,
  fold_left (fun acc x => radd acc (match x with Some z => z | None => rc0 end)) l acc = radd acc (fold_right radd rc0 (finite l)) /\
  fold_left (fun n x => match x with Some _ => n + 1 | None => n end)%nat l n = (n + length (finite l))%nat.
Proof.
  induction l as [|[z|] l IH]; intros acc n; cbn [fold_left finite flat_map app fold_right length].
  - split; [ring|lia].
  - destruct (IH (radd acc z) (n + 1)%nat) as [-> ->]. fold (finite l). split; [ring|lia].
  - destruct (IH (radd acc rc0) n) as [-> ->]. fold (finite l). split; [ring|lia].
Qed.
Lemma mean_ok l : is_mean l (mean l).
Proof.
  unfold mean, is_mean. destruct (mean_fold l rc0 0%nat) as [-> ->]. cbn [Nat.add].
  destruct (finite l) as [|z f] eqn:E.
  - left. cbn. auto.
  - right. split; [easy|]. cbn [length Nat.eqb]. eexists. split; [reflexivity|].
    assert (N : INR (S (length f)) <> 0) by (apply not_0_INR; easy).
    set (x := fold_right radd rc0 (z :: f)). apply rc_eq; cbn [rscale re im radd rc0]; field; exact N.
Qed.
Lemma mean_const l v : l <> [] -> (forall x, In x l -> x = v) -> mean l = v.
Proof.
  intros N H. destruct (mean_ok l) as [[E ->]|(E & z & -> & M)].
  - destruct l as [|x l]; [easy|]. specialize (H x (or_introl eq_refl)). subst. destruct v; [discriminate|reflexivity].
  - destruct v as [v|].
    + assert (F : forall l, (forall x, In x l -> x = Some v) -> finite l = repeat v (length l)).
      { clear. induction l as [|x l IH]; intros H; [reflexivity|]. rewrite (H x (or_introl eq_refl)). cbn. f_equal. apply IH. intros; apply H; now right. }
      rewrite (F l H) in *. rewrite repeat_length in M.
      assert (S : forall n, fold_right radd rc0 (repeat v n) = rscale (INR n) v).
      { induction n as [|n IH]; [apply rc_eq; cbn; ring|]. cbn [repeat fold_right]. rewrite IH, S_INR. apply rc_eq; cbn [rscale re im radd]; ring. }
      rewrite S in M. assert (P : INR (length l) <> 0) by (apply not_0_INR; destruct l; easy).
      f_equal. inversion M as [[A B]]. apply rc_eq; [apply (Rmult_eq_reg_l _ _ _ A P)|apply (Rmult_eq_reg_l _ _ _ B P)].
    + elim E. assert (F : forall l, (forall x, In x l -> x = None) -> finite l = []).
      { clear. induction l as [|x l IH]; intros H; [reflexivity|]. rewrite (H x (or_introl eq_refl)). cbn. apply IH. intros; apply H; now right. }
      now apply F.
Qed.

(** * Averaging over antennas *)
Lemma in_existsb a set : existsb (Nat.eqb a) set = true <-> In a set.
Proof. rewrite existsb_exists. split; [intros (x & I & E); apply Nat.eqb_eq in E; now subst|intros I; exists a; now rewrite Nat.eqb_refl]. Qed.
Lemma average_sets_other ch sets : forall s c a d p, (c <> ch \/ forall set, In set sets -> ~ In a set) ->
  fold_left (fun s set => average_set s ch set) sets s c a d p = s c a d p.
Proof.
  induction sets as [|set sets IH]; intros s c a d p H; [reflexivity|]. cbn [fold_left]. rewrite IH.
  - unfold average_set. destruct (Nat.eqb_spec c ch) as [->|]; [|reflexivity]. destruct (existsb (Nat.eqb a) set) eqn:E; [|reflexivity].
    apply in_existsb in E. destruct H as [H|H]; [easy|]. elim (H set); [now left|assumption].
  - destruct H as [H|H]; [now left|]. right. intros s' I. apply H. now right.
Qed.
Lemma average_sets_in ch sets : ForallOrdPairs disjoint sets -> forall s a d p set, In set sets -> In a set ->
  fold_left (fun s set => average_set s ch set) sets s ch a d p = mean (map (fun b => s ch b d p) set).
Proof.
  intros D. induction D as [|set sets F D IH]; intros s a d p set' I J; [easy|]. cbn [fold_left]. destruct I as [<-|I].
  - rewrite average_sets_other.
    + unfold average_set. rewrite Nat.eqb_refl. apply in_existsb in J. now rewrite J.
    + right. intros s' I K. rewrite Forall_forall in F. exact (F s' I a J K).
  - rewrite (IH _ a d p set' I J). f_equal. apply map_ext_in. intros b B. unfold average_set. rewrite Nat.eqb_refl.
    destruct (existsb (Nat.eqb b) set) eqn:E; [|reflexivity]. apply in_existsb in E. rewrite Forall_forall in F. elim (F set' I b E B).
Qed.
Lemma antenna_channels (f : solutions -> nat -> solutions) :
  (forall s ch c a d p, c <> ch -> f s ch c a d p = s c a d p) ->
  (forall s s' ch, (forall a d p, s ch a d p = s' ch a d p) -> forall a d p, f s ch ch a d p = f s' ch ch a d p) ->
  forall m k s c a d p, fold_left f (seq k m) s c a d p = if ((k <=? c) && (c <? k + m))%nat%bool then f s c c a d p else s c a d p.
Proof.
  intros Hother Hext. induction m as [|m IH]; intros k s c a d p.
  - cbn [seq fold_left]. destruct (Nat.leb_spec k c), (Nat.ltb_spec c (k + 0)%nat); cbn; try reflexivity; lia.
  - cbn [seq fold_left]. rewrite IH. destruct (Nat.eq_dec c k) as [->|N].
    + rewrite (proj2 (Nat.leb_gt (S k) k)) by lia. rewrite (proj2 (Nat.leb_le k k)) by lia. rewrite (proj2 (Nat.ltb_lt k (k + S m))) by lia. reflexivity.
    + destruct (Nat.leb_spec (S k) c), (Nat.ltb_spec c (S k + m)), (Nat.leb_spec k c), (Nat.ltb_spec c (k + S m)); try lia; cbn; try (apply Hother; lia).
      apply Hext. intros. apply Hother. lia.
Qed.
Lemma average_sets_ext ch sets : forall s s', (forall a d p, s ch a d p = s' ch a d p) -> forall a d p,
  fold_left (fun s set => average_set s ch set) sets s ch a d p = fold_left (fun s set => average_set s ch set) sets s' ch a d p.
Proof.
  induction sets as [|set sets IH]; intros s s' H a d p; [apply H|]. cbn [fold_left]. apply IH. intros. unfold average_set. rewrite Nat.eqb_refl, H.
  cbn [andb]. destruct (existsb _ _); [|reflexivity]. f_equal. now apply map_ext.
Qed.
Lemma antenna_constraint_at n_ch sets s c a d p :
  antenna_constraint n_ch sets s c a d p = if (c <? n_ch)%nat then fold_left (fun s set => average_set s c set) sets s c a d p else s c a d p.
Proof.
  unfold antenna_constraint. rewrite (antenna_channels (fun s ch => fold_left (fun s set => average_set s ch set) sets s)).
  - reflexivity.
  - intros. apply average_sets_other. now left.
  - intros. now apply average_sets_ext.
Qed.

(** * Averaging over intervals *)
Lemma interval_other fuel : forall ant f n start index s c a d p, (a <> ant \/ (d < index)%nat \/ (index + (n - start) <= d)%nat) ->
  fst (interval_loop fuel ant f n start index s) c a d p = s c a d p.
Proof.
  induction fuel as [|fuel IH]; intros ant f n start index s c a d p H; [reflexivity|]. cbn [interval_loop].
  destruct (Nat.ltb_spec start n); [|reflexivity]. rewrite IH by lia. unfold average_interval.
  destruct (Nat.eqb_spec a ant), (Nat.leb_spec index d), (Nat.ltb_spec d (index + (Nat.min (f + start) n - start))); cbn; try reflexivity. lia.
Qed.
Lemma interval_index fuel : forall ant f n start index s, (1 <= f)%nat -> (n - start <= fuel)%nat -> (start <= n)%nat ->
  snd (interval_loop fuel ant f n start index s) = (index + (n - start))%nat.
Proof.
  induction fuel as [|fuel IH]; intros ant f n start index s F L M; cbn [interval_loop]; [cbn; lia|].
  destruct (Nat.ltb_spec start n); [|cbn; lia]. rewrite IH; lia.
Qed.
(** the block that starts at sub-solution b f of a direction *)
Lemma block_list f n b : (1 <= f)%nat -> (b * f < n)%nat ->
  filter (fun i => (i / f =? b)%nat) (seq 0 n) = map (fun i => (b * f + i)%nat) (seq 0 (Nat.min (f + b * f) n - b * f)).
Proof.
  intros F L. set (size := (Nat.min (f + b * f) n - b * f)%nat).
  replace n with (b * f + (size + (n - b * f - size)))%nat at 1 by lia.
  rewrite !seq_app, !filter_app. cbn [Nat.add].
  assert (Hn : forall (P : nat -> bool) l, (forall x, In x l -> P x = false) -> filter P l = []).
  { clear. intros P l. induction l as [|x l IH]; intros H; [reflexivity|]. cbn. rewrite (H x (or_introl eq_refl)). apply IH. intros; apply H; now right. }
  assert (Hy : forall (P : nat -> bool) l, (forall x, In x l -> P x = true) -> filter P l = l).
  { clear. intros P l. induction l as [|x l IH]; intros H; [reflexivity|]. cbn. rewrite (H x (or_introl eq_refl)). f_equal. apply IH. intros; apply H; now right. }
  rewrite (Hn _ (seq 0 (b * f))), (Hy _ (seq (b * f) size)), (Hn _ (seq (b * f + size) _)).
  - rewrite app_nil_r. cbn [app]. clear. generalize (b * f)%nat as k. intros k.
    assert (G : forall m j k, seq (k + j) m = map (fun i => (k + i)%nat) (seq j m)).
    { induction m as [|m IH]; intros j k'; [reflexivity|]. cbn [seq map]. f_equal. replace (S (k' + j)) with (k' + S j)%nat by lia. apply IH. }
    rewrite <- (G size 0%nat k). now rewrite Nat.add_0_r.
  - intros x I. apply in_seq in I. apply Nat.eqb_neq. intros E. pose proof (Nat.div_mod x f). pose proof (Nat.mod_upper_bound x f).
    rewrite E in *. unfold size in I. nia.
  - intros x I. apply in_seq in I. apply Nat.eqb_eq. symmetry. apply Nat.div_unique with (r := (x - b * f)%nat); unfold size in I; nia.
  - intros x I. apply in_seq in I. apply Nat.eqb_neq. intros E. pose proof (Nat.div_mod x f). rewrite E in *. nia.
Qed.
Lemma interval_in fuel : forall ant f n b index s c d p, (1 <= f)%nat -> (n - b * f <= fuel)%nat ->
  (index <= d)%nat -> (d < index + (n - b * f))%nat ->
  fst (interval_loop fuel ant f n (b * f) index s) c ant d p =
  mean (map (fun i => s c ant (index + i - b * f)%nat p) (same_block f n (b * f + (d - index)))).
Proof.
  induction fuel as [|fuel IH]; intros ant f n b index s c d p F L D1 D2; [lia|]. cbn [interval_loop].
  rewrite (proj2 (Nat.ltb_lt (b * f) n)) by lia. set (size := (Nat.min (f + b * f) n - b * f)%nat).
  destruct (Nat.lt_ge_cases d (index + size)) as [H|H].
  - rewrite interval_other by lia. unfold average_interval. rewrite Nat.eqb_refl, (proj2 (Nat.leb_le index d)), (proj2 (Nat.ltb_lt d _)) by lia. cbn [andb].
    unfold same_block. replace ((b * f + (d - index)) / f)%nat with b.
    + rewrite block_list by lia. fold size. rewrite map_map. f_equal. apply map_ext. intros i. f_equal. lia.
    + apply Nat.div_unique with (r := (d - index)%nat); unfold size in H; lia.
  - assert (size = f) as Z by (unfold size in *; lia). rewrite Z in *. replace (b * f + f)%nat with (S b * f)%nat by lia.
    rewrite IH by lia. replace (S b * f + (d - (index + f)))%nat with (b * f + (d - index))%nat by lia.
    f_equal. apply map_ext_in. intros i I. unfold same_block in I. apply filter_In in I as [_ I]. apply Nat.eqb_eq in I.
    assert (S b <= (b * f + (d - index)) / f)%nat by (apply Nat.div_le_lower_bound; lia).
    pose proof (Nat.div_mod i f). assert (S b * f <= i)%nat by nia.
    unfold average_interval. rewrite (proj2 (Nat.ltb_ge (index + f + i - S b * f) (index + f))) by lia. rewrite andb_false_r. f_equal. lia.
Qed.
Lemma directions_fold ant f subs : (1 <= f)%nat -> forall s index c a d p,
  let r := fst (fold_left (fun '(s, index) n => interval_loop n ant f n 0 index s) subs (s, index)) in
  ((a <> ant \/ (d < index)%nat \/ (index + fold_right plus 0 subs <= d)%nat) -> r c a d p = s c a d p) /\
  (forall k j, a = ant -> (k < length subs)%nat -> (j < nth k subs 0)%nat -> d = (index + offset subs k + j)%nat ->
   r c a d p = mean (map (fun i => s c ant (index + offset subs k + i)%nat p) (same_block f (nth k subs 0%nat) j))).
Proof.
  intros F. induction subs as [|n subs IH]; intros s index c a d p; cbn [fold_left].
  - split; [reflexivity|]. intros k j _ K. cbn in K. lia.
  - destruct (interval_loop n ant f n 0 index s) as [s1 i1] eqn:E.
    assert (I1 : i1 = (index + n)%nat) .
    { pose proof (interval_index n ant f n 0 index s F) as X. rewrite E in X. cbn [snd] in X. lia. }
    assert (S1 : s1 = fst (interval_loop n ant f n 0 index s)) by now rewrite E.
    destruct (IH s1 i1 c a d p) as [IH1 IH2]. subst i1. cbn zeta in *. split.
    + intros H. cbn [fold_right] in H. rewrite IH1 by lia. subst s1. apply interval_other. lia.
    + intros k j -> K J D. destruct k as [|k].
      * unfold offset in D |- *. cbn [firstn fold_right nth length] in *. rewrite IH1 by lia. subst s1.
        pose proof (interval_in n ant f n 0 index s c d p F) as X. cbn [Nat.mul Nat.add] in X. rewrite X by lia.
        replace (d - index)%nat with j by lia. f_equal. apply map_ext. intros i. f_equal. lia.
      * unfold offset in D |- *. cbn [firstn fold_right nth length] in *. rewrite (IH2 k j) by (unfold offset; lia). f_equal. apply map_ext. intros i. subst s1.
        rewrite interval_other by (unfold offset; lia). f_equal. unfold offset. lia.
Qed.
Lemma interval_constraint_at factors subs s c a d p : (forall f, In f factors -> (1 <= f)%nat) ->
  ((length factors <= a)%nat \/ (fold_right plus 0 subs <= d)%nat -> interval_constraint factors subs s c a d p = s c a d p) /\
  (forall k j, (a < length factors)%nat -> (k < length subs)%nat -> (j < nth k subs 0)%nat -> d = (offset subs k + j)%nat ->
   interval_constraint factors subs s c a d p = mean (map (fun i => s c a (offset subs k + i)%nat p) (same_block (nth a factors 0%nat) (nth k subs 0%nat) j))).
Proof.
  intros F. unfold interval_constraint.
  set (g := fun s ant => fst (fold_left (fun '(s, index) n => interval_loop n ant (nth ant factors 0%nat) n 0 index s) subs (s, 0%nat))).
  assert (Hg : forall m l s, (l + m <= length factors)%nat ->
    ((a < l \/ l + m <= a \/ fold_right plus 0 subs <= d)%nat -> fold_left g (seq l m) s c a d p = s c a d p) /\
    (forall k j, (l <= a)%nat -> (a < l + m)%nat -> (k < length subs)%nat -> (j < nth k subs 0)%nat -> d = (offset subs k + j)%nat ->
     fold_left g (seq l m) s c a d p = mean (map (fun i => s c a (offset subs k + i)%nat p) (same_block (nth a factors 0%nat) (nth k subs 0%nat) j)))).
  { induction m as [|m IH]; intros l t L; [cbn; split; [reflexivity|intros; lia]|]. cbn [seq fold_left]. destruct (IH (S l) (g t l)) as [A B]; [lia|].
    assert (F1 : (1 <= nth l factors 0)%nat) by (apply F, nth_In; lia).
    split.
    - intros H. rewrite A by lia. apply (proj1 (directions_fold l (nth l factors 0%nat) subs F1 t 0%nat c a d p)). lia.
    - intros k j L1 L2 K J D. destruct (Nat.eq_dec a l) as [->|N].
      + rewrite A by lia. apply (proj2 (directions_fold l (nth l factors 0%nat) subs F1 t 0%nat c l d p) k j); auto.
      + rewrite (B k j) by lia. f_equal. apply map_ext. intros i.
        apply (proj1 (directions_fold l (nth l factors 0%nat) subs F1 t 0%nat c a _ p)). now left. }
  destruct (Hg (length factors) 0%nat s) as [A B]; [lia|]. split; [intros; apply A; lia|intros; apply B; auto; lia].
Qed.

(** * Reference antenna *)
Lemma finite_count n (s : nat -> option rc) :
  has_fifth n s <-> (n < 5 * length (filter (fun ch => match s ch with Some _ => true | None => false end) (seq 0 n)))%nat.
Proof.
  set (l := filter _ _).
  assert (L : forall ch, In ch l <-> (ch < n)%nat /\ s ch <> None).
  { intros ch. unfold l. rewrite filter_In, in_seq. destruct (s ch); split; intros [A B]; split; try easy; lia. }
  assert (N : NoDup l) by apply NoDup_filter, seq_NoDup.
  split.
  - intros (m & M1 & M2 & M3). assert (length m <= length l)%nat; [|lia]. apply NoDup_incl_length; [assumption|].
    intros x I. apply L, M2, I.
  - intros H. exists l. auto.
Qed.
Lemma enough_ok n_ch s a p : enough n_ch s a p = true <-> has_fifth n_ch (fun ch => s ch a 0%nat p).
Proof.
  unfold enough. rewrite rltb_true, finite_count. set (k := length _). split; intros H.
  - apply INR_lt. rewrite mult_INR. replace (INR 5) with 5 by (cbn; lra). lra.
  - apply lt_INR in H. rewrite mult_INR in H. replace (INR 5) with 5 in H by (cbn; lra). lra.
Qed.
Lemma find_seq (P : nat -> bool) m : forall k,
  match find P (seq k m) with
  | Some a => (k <= a < k + m)%nat /\ P a = true /\ forall b, (k <= b < a)%nat -> P b = false
  | None => forall b, (k <= b < k + m)%nat -> P b = false
  end.
Proof.
  induction m as [|m IH]; intros k; cbn [seq find]; [intros; lia|]. destruct (P k) eqn:E.
  - split; [lia|]. split; [assumption|]. lia.
  - specialize (IH (S k)). destruct (find P (seq (S k) m)) as [a|].
    + destruct IH as (A & B & C). split; [lia|]. split; [assumption|]. intros b L. destruct (Nat.eq_dec b k) as [->|]; [assumption|]. apply C. lia.
    + intros b L. destruct (Nat.eq_dec b k) as [->|]; [assumption|]. apply IH. lia.
Qed.
Lemma reference_ok n_ch n_ant s p : is_reference n_ch n_ant (fun a ch => s ch a 0%nat p) (reference n_ch n_ant s p).
Proof.
  unfold reference, is_reference. pose proof (find_seq (fun a => enough n_ch s a p) n_ant 0) as X.
  assert (F : forall a, enough n_ch s a p = false -> ~ has_fifth n_ch (fun ch => s ch a 0%nat p)).
  { intros a E H. apply enough_ok in H. congruence. }
  destruct (find _ _) as [a|].
  - destruct X as (A & B & C). left. split; [lia|]. split; [now apply enough_ok|]. intros b L. apply F, C. lia.
  - right. split; [reflexivity|]. intros b L. apply F, X. lia.
Qed.
Lemma reference_ext n_ch n_ant s s' p : (forall c a d, s c a d p = s' c a d p) -> reference n_ch n_ant s p = reference n_ch n_ant s' p.
Proof.
  intros H. unfold reference. replace (find (fun a => enough n_ch s a p) (seq 0 n_ant)) with (find (fun a => enough n_ch s' a p) (seq 0 n_ant)); [reflexivity|].
  assert (G : forall l, find (fun a => enough n_ch s' a p) l = find (fun a => enough n_ch s a p) l).
  { assert (E : forall a, enough n_ch s' a p = enough n_ch s a p).
    { intros a. unfold enough. f_equal. do 2 f_equal. apply filter_ext. intros. now rewrite H. }
    induction l as [|x l IH]; [reflexivity|]. cbn [find]. now rewrite E, IH. }
  apply G.
Qed.
Lemma refer_fold n_ch n_ant m : forall k s c a d p,
  fold_left (refer_pol n_ch n_ant) (seq k m) s c a d p = if ((k <=? p) && (p <? k + m))%nat%bool then refer_pol n_ch n_ant s p c a d p else s c a d p.
Proof.
  induction m as [|m IH]; intros k s c a d p.
  - cbn [seq fold_left]. destruct (Nat.leb_spec k p), (Nat.ltb_spec p (k + 0)%nat); cbn; try reflexivity; lia.
  - cbn [seq fold_left]. rewrite IH. destruct (Nat.eq_dec p k) as [->|N].
    + rewrite (proj2 (Nat.leb_gt (S k) k)), (proj2 (Nat.leb_le k k)), (proj2 (Nat.ltb_lt k (k + S m))) by lia. reflexivity.
    + assert (O : forall c a d, refer_pol n_ch n_ant s k c a d p = s c a d p).
      { intros. unfold refer_pol. rewrite (proj2 (Nat.eqb_neq p k) N). reflexivity. }
      replace ((k <=? p) && (p <? k + S m))%nat%bool with ((S k <=? p) && (p <? S k + m))%nat%bool.
      * destruct ((S k <=? p) && (p <? S k + m))%nat%bool; [|apply O]. unfold refer_pol at 1 3. rewrite (reference_ext n_ch n_ant (refer_pol n_ch n_ant s k) s p) by (intros; apply O). now rewrite !O.
      * destruct (Nat.leb_spec (S k) p), (Nat.ltb_spec p (S k + m)), (Nat.leb_spec k p), (Nat.ltb_spec p (k + S m)); cbn; try reflexivity; lia.
Qed.

(** * Smoothing *)
Lemma fold_left_rsum (g : nat -> R) l : forall acc, fold_left (fun acc j => acc + g j) l acc = acc + fold_right (fun j acc => g j + acc) 0 l.
Proof. induction l as [|x l IH]; intros acc; cbn; [ring|]. rewrite IH. ring. Qed.
Lemma fold_left_csum (g : nat -> rc) l : forall acc, fold_left (fun acc j => radd acc (g j)) l acc = radd acc (fold_right (fun j acc => radd (g j) acc) rc0 l).
Proof. induction l as [|x l IH]; intros acc; cbn [fold_left fold_right]; [ring|]. rewrite IH. ring. Qed.
Lemma fold_zero_r (g : nat -> R) l : (forall j, In j l -> g j = 0) -> fold_right (fun j acc => g j + acc) 0 l = 0.
Proof. induction l as [|x l IH]; intros H; cbn; [reflexivity|]. rewrite (H _ (or_introl eq_refl)), IH by (intros; apply H; now right). ring. Qed.
Lemma fold_zero_c (g : nat -> rc) l : (forall j, In j l -> g j = rc0) -> fold_right (fun j acc => radd (g j) acc) rc0 l = rc0.
Proof. induction l as [|x l IH]; intros H; cbn [fold_right]; [reflexivity|]. rewrite (H _ (or_introl eq_refl)), IH by (intros; apply H; now right). ring. Qed.
Lemma split_seq a b n : (a <= b)%nat -> (b <= n)%nat -> seq 0 n = seq 0 a ++ seq a (b - a) ++ seq b (n - b).
Proof.
  intros H1 H2. replace n with (a + ((b - a) + (n - b)))%nat at 1 by lia. rewrite !seq_app. cbn [Nat.add]. replace (a + (b - a))%nat with b by lia. reflexivity.
Qed.
Lemma rsum_window (g : nat -> R) a b n : (a <= b)%nat -> (b <= n)%nat -> (forall j, (j < n)%nat -> (j < a \/ b <= j)%nat -> g j = 0) ->
  rsum n g = fold_right (fun j acc => g j + acc) 0 (seq a (b - a)).
Proof.
  intros H1 H2 H. unfold rsum. rewrite (split_seq a b n) by lia. rewrite !fold_right_app.
  rewrite (fold_zero_r g (seq b (n - b))) by (intros j I; apply in_seq in I; apply H; lia).
  set (x := fold_right _ 0 (seq a (b - a))).
  assert (Z : forall l, (forall j, In j l -> g j = 0) -> fold_right (fun j acc => g j + acc) x l = x).
  { clear. induction l as [|y l IH]; intros H; cbn; [reflexivity|]. rewrite (H _ (or_introl eq_refl)), IH by (intros; apply H; now right). ring. }
  apply Z. intros j I. apply in_seq in I. apply H; lia.
Qed.
Lemma csum_window (g : nat -> rc) a b n : (a <= b)%nat -> (b <= n)%nat -> (forall j, (j < n)%nat -> (j < a \/ b <= j)%nat -> g j = rc0) ->
  csum n g = fold_right (fun j acc => radd (g j) acc) rc0 (seq a (b - a)).
Proof.
  intros H1 H2 H. unfold csum. rewrite (split_seq a b n) by lia. rewrite !fold_right_app.
  rewrite (fold_zero_c g (seq b (n - b))) by (intros j I; apply in_seq in I; apply H; lia).
  set (x := fold_right _ rc0 (seq a (b - a))).
  assert (Z : forall l, (forall j, In j l -> g j = rc0) -> fold_right (fun j acc => radd (g j) acc) x l = x).
  { clear. induction l as [|y l IH]; intros H; cbn [fold_right]; [reflexivity|]. rewrite (H _ (or_introl eq_refl)), IH by (intros; apply H; now right). ring. }
  apply Z. intros j I. apply in_seq in I. apply H; lia.
Qed.
Lemma fold_ext_r (g h : nat -> R) l : (forall j, In j l -> g j = h j) -> fold_right (fun j acc => g j + acc) 0 l = fold_right (fun j acc => h j + acc) 0 l.
Proof. induction l as [|x l IH]; intros H; cbn; [reflexivity|]. rewrite (H _ (or_introl eq_refl)), IH by (intros; apply H; now right). reflexivity. Qed.
Lemma fold_ext_c (g h : nat -> rc) l : (forall j, In j l -> g j = h j) -> fold_right (fun j acc => radd (g j) acc) rc0 l = fold_right (fun j acc => radd (h j) acc) rc0 l.
Proof. induction l as [|x l IH]; intros H; cbn [fold_right]; [reflexivity|]. rewrite (H _ (or_introl eq_refl)), IH by (intros; apply H; now right). reflexivity. Qed.
Lemma fold_scale_const (g : nat -> R) z l : fold_right (fun j acc => radd (rscale (g j) z) acc) rc0 l = rscale (fold_right (fun j acc => g j + acc) 0 l) z.
Proof. induction l as [|x l IH]; cbn [fold_right]; [apply rc_eq; cbn; ring|]. rewrite IH. apply rc_eq; cbn; ring. Qed.
Lemma fold_nonneg (g : nat -> R) l : (forall j, In j l -> 0 <= g j) -> 0 <= fold_right (fun j acc => g j + acc) 0 l.
Proof.
  induction l as [|x l IH]; intros H; cbn; [lra|]. assert (0 <= g x) by (apply H; now left).
  assert (0 <= fold_right (fun j acc => g j + acc) 0 l) by (apply IH; intros; apply H; now right). lra.
Qed.
Lemma fold_pos (g : nat -> R) l i : (forall j, In j l -> 0 <= g j) -> In i l -> 0 < g i -> 0 < fold_right (fun j acc => g j + acc) 0 l.
Proof.
  induction l as [|x l IH]; intros H I P; [easy|]. cbn. assert (0 <= g x) by (apply H; now left).
  assert (0 <= fold_right (fun j acc => g j + acc) 0 l) by (apply fold_nonneg; intros; apply H; now right).
  destruct I as [->|I]; [lra|]. assert (0 < fold_right (fun j acc => g j + acc) 0 l) by (apply IH; auto; intros; apply H; now right). lra.
Qed.

Section Bands.
Variables (n : nat) (freq : nat -> R) (bw ref expo : R) (trunc : bool).
Hypothesis Hinc : forall i j, (i < j)%nat -> freq i < freq j.
Hypothesis Hpos : 0 < freq 0%nat.
Hypothesis Hbw : 0 < bw.
Hypothesis Href : 0 <= ref.
Lemma freq_pos i : 0 < freq i.
Proof. destruct i as [|i]; [exact Hpos|]. pose proof (Hinc 0 (S i)). assert (0 < S i)%nat by lia. specialize (H H0). lra. Qed.
Lemma freq_le i j : (i <= j)%nat -> freq i <= freq j.
Proof. intros L. destruct (Nat.eq_dec i j) as [->|N]; [lra|]. left. apply Hinc. lia. Qed.
Lemma local_pos i : 0 < local_bandwidth freq bw ref i.
Proof.
  unfold local_bandwidth. destruct (Req_EM_T ref 0); [assumption|]. pose proof (freq_pos i). assert (0 < ref) by lra.
  unfold Rdiv. apply Rmult_lt_0_compat; [nra|now apply Rinv_0_lt_compat].
Qed.
Lemma advance_le fuel x m : ~ freq m < x -> forall k, (k <= m)%nat -> (advance freq fuel n x k <= m)%nat.
Proof.
  intros H. induction fuel as [|fuel IH]; intros k L; cbn [advance]; [assumption|].
  destruct (negb (k =? n)%nat && rltb (freq k) x)%bool eqn:E; [|assumption]. apply IH.
  apply andb_true_iff in E as [_ E]. apply rltb_true in E. destruct (Nat.eq_dec k m) as [->|]; [easy|lia].
Qed.
Lemma advance_ok fuel x : forall k, (k <= n)%nat -> (n <= k + fuel)%nat ->
  let r := advance freq fuel n x k in
  (k <= r <= n)%nat /\ (r = n \/ x <= freq r) /\ forall j, (k <= j < r)%nat -> freq j < x.
Proof.
  induction fuel as [|fuel IH]; intros k L M; cbn [advance].
  - split; [lia|]. split; [left; lia|]. lia.
  - destruct (Nat.eqb_spec k n) as [->|N]; cbn [negb andb].
    + split; [lia|]. split; [now left|]. lia.
    + destruct (rltb (freq k) x) eqn:E.
      * destruct (IH (S k)) as (A & B & C); [lia|lia|]. split; [lia|]. split; [assumption|]. intros j J. destruct (Nat.eq_dec j k) as [->|]; [now apply rltb_true|]. apply C. lia.
      * apply rltb_false in E. split; [lia|]. split; [now right|]. lia.
Qed.
(** what holds of the boundaries of channel block i *)
Definition good (i : nat) (b : nat * nat) : Prop :=
  (fst b <= i)%nat /\ (i < n)%nat /\ (snd b <= n)%nat /\
  (trunc = true -> (i < snd b)%nat) /\
  (trunc = true -> snd b = n \/ freq i + local_bandwidth freq bw ref i * / 2 <= freq (snd b)) /\
  (trunc = true -> ref = 0 -> forall j, (j < fst b)%nat -> freq j < freq i - bw * / 2).
Definition before (i : nat) (b : nat * nat) : Prop :=
  (fst b <= i)%nat /\ (snd b <= n)%nat /\ (ref = 0 -> forall j, (j < fst b)%nat -> freq j < freq i - bw * / 2).
Lemma move_good i b : (i < n)%nat -> before i b -> good i (move n freq bw ref trunc i b).
Proof.
  intros L (A & B & C). unfold move, good. destruct trunc.
  - cbn [fst snd]. pose proof (local_pos i) as P.
    assert (A' : (advance freq n n (freq i - local_bandwidth freq bw ref i * / 2) (fst b) <= i)%nat) by (apply advance_le; [lra|assumption]).
    destruct (advance_ok n (freq i - local_bandwidth freq bw ref i * / 2) (fst b)) as (D & E & F); [lia|lia|].
    destruct (advance_ok n (freq i + local_bandwidth freq bw ref i * / 2) (snd b)) as (G & H & I); [lia|lia|].
    set (l := advance _ _ _ _ (fst b)) in *. set (r := advance _ _ _ _ (snd b)) in *.
    repeat match goal with |- _ /\ _ => split end; try lia; try tauto.
    + intros _. destruct H as [->|H]; [assumption|]. destruct (Nat.lt_ge_cases i r) as [|Q]; [assumption|]. pose proof (freq_le r i Q). lra.
    + intros _ Z j J. destruct (Nat.lt_ge_cases j (fst b)) as [Q|Q]; [now apply C|]. assert (J' : (fst b <= j < l)%nat) by lia.
      specialize (F j J'). unfold local_bandwidth in F. destruct (Req_EM_T ref 0); [exact F|easy].
  - repeat match goal with |- _ /\ _ => split end; try lia; easy.
Qed.
Lemma good_before i b : good i b -> trunc = true -> before (S i) b.
Proof.
  intros (A & B & C & D & E & F) T. split; [lia|]. split; [lia|]. intros Z j J. specialize (F T Z j J). pose proof (freq_le i (S i)). assert (i <= S i)%nat by lia. specialize (H H0). lra.
Qed.
Lemma smooth_from_at data weight factor todo : forall i b k, (i + todo <= n)%nat -> before i b \/ (trunc = false /\ snd b <= n /\ fst b <= i)%nat -> (k < todo)%nat ->
  exists b', good (i + k) b' /\ nth k (smooth_from n freq bw ref expo trunc data weight factor todo i b) None = smooth_value n freq bw ref expo trunc data weight factor (i + k) b'.
Proof.
  induction todo as [|todo IH]; intros i b k L B K; [lia|]. cbn [smooth_from].
  assert (G : good i (move n freq bw ref trunc i b)).
  { destruct B as [B|(T & B & C)]; [apply move_good; [lia|assumption]|]. unfold move, good. rewrite T.
    repeat match goal with |- _ /\ _ => split end; try lia; discriminate. }
  destruct k as [|k].
  - exists (move n freq bw ref trunc i b). rewrite Nat.add_0_r. split; [assumption|reflexivity].
  - cbn [nth]. replace (i + S k)%nat with (S i + k)%nat by lia. apply IH; [lia| |lia].
    destruct (Bool.bool_dec trunc true) as [T|T]; [left; now apply good_before|]. right. destruct G as (A & _ & C & _). split; [now destruct trunc|]. split; lia.
Qed.
Lemma smooth_at data weight factor i : (i < n)%nat ->
  exists b, good i b /\ nth i (smooth n freq bw ref expo trunc data weight factor) None = smooth_value n freq bw ref expo trunc data weight factor i b.
Proof.
  intros L. unfold smooth. destruct (smooth_from_at data weight factor n 0 (0%nat, Nat.min (advance freq n n (freq 0%nat + bw * / 2) 0 + 1) n) i) as (b & G & E); [lia| |assumption|].
  - left. split; [cbn; lia|]. split; [cbn; lia|]. cbn. intros; lia.
  - exists b. cbn [Nat.add] in *. auto.
Qed.
Lemma window_ok i b : good i b -> let w := window n trunc b in (fst w <= i)%nat /\ (i < snd w)%nat /\ (snd w <= n)%nat.
Proof.
  intros (A & B & C & D & _). unfold window. destruct trunc; [|cbn; lia]. specialize (D eq_refl). cbn [fst snd].
  destruct (Nat.ltb_spec 0 (fst b)), (Nat.ltb_spec (snd b) n); lia.
Qed.
(** channel blocks outside of the window are far away *)
Lemma window_far i b j : good i b -> ref = 0 -> (j < n)%nat -> (j < fst (window n trunc b) \/ snd (window n trunc b) <= j)%nat -> bw * / 2 < Rabs (freq i - freq j).
Proof.
  intros (A & B & C & D & E & F) Z L. unfold window. destruct trunc; [|cbn; lia]. specialize (D eq_refl). specialize (E eq_refl). specialize (F eq_refl Z). cbn [fst snd].
  intros [H|H].
  - destruct (Nat.ltb_spec 0 (fst b)); [|lia]. specialize (F j). assert (j < fst b)%nat by lia. specialize (F H1). rewrite Rabs_right; lra.
  - destruct (Nat.ltb_spec (snd b) n); [|lia]. destruct E as [E|E]; [lia|]. pose proof (Hinc (snd b) j). assert (snd b < j)%nat by lia. specialize (H1 H2).
    unfold local_bandwidth in E. destruct (Req_EM_T ref 0); [|easy]. rewrite Rabs_left; lra.
Qed.
End Bands.
