From Coq Require Import QArith Qround Qcanon List Bool Arith Lia Lqa.
From Verif Require Import QcUtil AverageModel AverageSpec.
Import ListNotations.
Open Scope Qc_scope.

(** * Lists *)

Lemma filter_seq_range lo hi a n : (a <= lo)%nat -> (lo <= hi)%nat -> (hi <= a + n)%nat ->
  filter (fun i => (lo <=? i)%nat && (i <? hi)%nat) (seq a n) = seq lo (hi - lo).
Proof.
  intros H1 H2 H3.
  replace n with ((lo - a) + ((hi - lo) + (a + n - hi)))%nat by lia.
  rewrite seq_app, seq_app, !filter_app.
  replace (a + (lo - a))%nat with lo by lia. replace (lo + (hi - lo))%nat with hi by lia.
  assert (A : forall l, (forall x, In x l -> (x < lo \/ hi <= x)%nat) ->
     filter (fun i => (lo <=? i)%nat && (i <? hi)%nat) l = []).
  { induction l as [|x l IH]; intros Hl; auto. simpl.
    destruct (Nat.leb_spec lo x), (Nat.ltb_spec x hi); simpl;
      try (specialize (Hl x (or_introl eq_refl)); lia);
      apply IH; intros; apply Hl; simpl; auto. }
  rewrite (A (seq a (lo - a))) by (intros x Hx; apply in_seq in Hx; lia).
  rewrite (A (seq hi _)) by (intros x Hx; apply in_seq in Hx; lia).
  rewrite app_nil_r. simpl.
  assert (B : forall l, (forall x, In x l -> (lo <= x < hi)%nat) ->
     filter (fun i => (lo <=? i)%nat && (i <? hi)%nat) l = l).
  { induction l as [|x l IH]; intros Hl; auto. simpl.
    pose proof (Hl x (or_introl eq_refl)).
    destruct (Nat.leb_spec lo x), (Nat.ltb_spec x hi); simpl; try lia.
    f_equal. apply IH; intros; apply Hl; simpl; auto. }
  apply B. intros x Hx. apply in_seq in Hx. lia.
Qed.

Lemma div_range c cavg o : (0 < cavg)%nat -> (c / cavg =? o)%nat = (o * cavg <=? c)%nat && (c <? S o * cavg)%nat.
Proof.
  intros H. pose proof (Nat.div_mod c cavg ltac:(lia)) as D. pose proof (Nat.mod_upper_bound c cavg ltac:(lia)).
  destruct (Nat.eqb_spec (c / cavg) o) as [E|E].
  - symmetry. apply andb_true_iff. split; [apply Nat.leb_le|apply Nat.ltb_lt]; subst o; nia.
  - symmetry. apply andb_false_iff.
    destruct (Nat.lt_ge_cases (c / cavg) o); [left; apply Nat.leb_gt|right; apply Nat.ltb_ge]; nia.
Qed.

Lemma chan_range_spec nchan cavg o : (0 < cavg)%nat -> (o < nchan_out nchan cavg)%nat ->
  filter (fun c => (c / cavg =? o)%nat) (seq 0 nchan) = chan_range nchan cavg o.
Proof.
  intros Hc Ho. unfold nchan_out in Ho.
  assert (Hlt : (o * cavg < nchan)%nat).
  { pose proof (Nat.mul_div_le (nchan + cavg - 1) cavg ltac:(lia)). nia. }
  unfold chan_range.
  rewrite (filter_ext_in _ (fun i => (o * cavg <=? i)%nat && (i <? o * cavg + Nat.min cavg (nchan - o * cavg))%nat)).
  - rewrite filter_seq_range by lia. f_equal. lia.
  - intros c Hin. apply in_seq in Hin. rewrite div_range by auto.
    f_equal. destruct (Nat.ltb_spec c (S o * cavg)), (Nat.ltb_spec c (o * cavg + Nat.min cavg (nchan - o * cavg))); auto; lia.
Qed.

Lemma qsum_filter {A} (p : A -> bool) (f : A -> Qc) l :
  qsum (map f (filter p l)) = qsum (map (fun x => if p x then f x else 0) l).
Proof.
  induction l as [|a l IH]; auto. cbn [filter map]. rewrite qsum_cons. destruct (p a); cbn [map].
  - rewrite qsum_cons, IH. reflexivity.
  - rewrite IH. ring.
Qed.

Lemma length_filter_sum {A} (p : A -> bool) l :
  length (filter p l) = list_sum (map (fun x => if p x then 1%nat else 0%nat) l).
Proof. induction l as [|a l IH]; auto. simpl. destruct (p a); simpl; lia. Qed.

Lemma map_flat_map {A B C} (f : B -> C) (g : A -> list B) l :
  map f (flat_map g l) = flat_map (fun x => map f (g x)) l.
Proof. induction l as [|a l IH]; auto. simpl. rewrite map_app, IH. reflexivity. Qed.

Lemma list_sum_flat_map {A} (f : A -> list nat) l : list_sum (flat_map f l) = list_sum (map (fun x => list_sum (f x)) l).
Proof. induction l as [|a l IH]; auto. simpl. rewrite list_sum_app, IH. reflexivity. Qed.

Lemma list_sum_plus {A} (f g : A -> nat) l :
  list_sum (map (fun x => (f x + g x)%nat) l) = (list_sum (map f l) + list_sum (map g l))%nat.
Proof. induction l as [|a l IH]; auto. simpl. rewrite IH. lia. Qed.

Lemma list_sum_swap {A B} (f : A -> B -> nat) l m :
  list_sum (map (fun a => list_sum (map (f a) m)) l) = list_sum (map (fun b => list_sum (map (fun a => f a b) l)) m).
Proof.
  induction l as [|a l IH]; simpl.
  - induction m; auto.
  - rewrite IH. rewrite <- list_sum_plus. reflexivity.
Qed.

Lemma fold_chan_sum (f : nat -> Qc) l x : fold_left (fun x c => x + f c) l x = x + qsum (map f l).
Proof. revert x. induction l as [|a l IH]; intros x; cbn [fold_left map]; [rewrite qsum_nil; ring|]. rewrite IH, qsum_cons. ring. Qed.

Lemma fold_chan_count (f : nat -> nat) l x : fold_left (fun x c => (x + f c)%nat) l x = (x + list_sum (map f l))%nat.
Proof. revert x. induction l as [|a l IH]; intros x; simpl; [lia|]. rewrite IH. lia. Qed.

(** * The accumulator holds the sums of the block *)

Section Avg.
Variables (nchan cavg tavg : nat) (int_in int_out : Qc) (minpts : nat) (minperc : Qc).

Definition sum_of (block : list tslot) (a : acc) : Prop :=
  k_n a = length block /\
  (forall s, hd_error block = Some s -> k_time a = t_time s + half * (int_out - int_in)) /\
  k_exposure a = int_out /\
  forall b,
   (forall i, k_uvw a b i = qsum (map (fun s => t_uvw s b i) block)) /\
   forall c p,
    k_data a b c p = qsum (map (fun s => if t_flag s b c p then 0 else t_weight s b c p * t_vis s b c p) block) /\
    k_weight a b c p = qsum (map (fun s => if t_flag s b c p then 0 else t_weight s b c p) block) /\
    k_all a b c p = qsum (map (fun s => t_weight s b c p * t_vis s b c p) block) /\
    k_wall a b c p = qsum (map (fun s => t_weight s b c p) block) /\
    k_pts a b c p = list_sum (map (fun s => if t_flag s b c p then 0%nat else 1%nat) block).

Lemma sum_of_first s : sum_of [s] (first_slot int_in int_out s).
Proof.
  unfold sum_of, first_slot. cbn [k_n k_time k_exposure k_data k_weight k_all k_wall k_pts k_uvw].
  split; [auto|]. split; [intros s' E; now inversion E|]. split; auto. intros b. split.
  - intros i. cbn [map]. rewrite qsum_cons, qsum_nil. ring.
  - intros c p. cbn [map]. rewrite !qsum_cons, !qsum_nil. simpl list_sum.
    destruct (t_flag s b c p); repeat split; try ring; auto.
Qed.

Lemma sum_of_next block a s : block <> [] -> sum_of block a -> sum_of (block ++ [s]) (next_slot a s).
Proof.
  intros Hne (H1 & H2 & H3 & H4). unfold sum_of, next_slot.
  cbn [k_n k_time k_exposure k_data k_weight k_all k_wall k_pts k_uvw].
  split; [rewrite app_length, H1; simpl; lia|].
  split. { intros s' E. apply H2. destruct block; [congruence|exact E]. }
  split; auto. intros b. destruct (H4 b) as [U D]. split.
  - intros i. rewrite map_app, qsum_app, U. cbn [map]. rewrite qsum_cons, qsum_nil. ring.
  - intros c p. destruct (D c p) as (D1 & D2 & D3 & D4 & D5).
    rewrite !map_app, !qsum_app, list_sum_app, D1, D2, D3, D4, D5. cbn [map].
    rewrite !qsum_cons, !qsum_nil. simpl list_sum. destruct (t_flag s b c p); repeat split; try ring; lia.
Qed.

Lemma samples_eq block o : (0 < cavg)%nat -> (o < nchan_out nchan cavg)%nat ->
  samples nchan cavg block o = flat_map (fun s => map (fun c => (s, c)) (chan_range nchan cavg o)) block.
Proof. intros. unfold samples. rewrite chan_range_spec by auto. reflexivity. Qed.

Lemma samples_qsum block o (f : tslot -> nat -> Qc) : (0 < cavg)%nat -> (o < nchan_out nchan cavg)%nat ->
  chan_sum nchan cavg (fun c => qsum (map (fun s => f s c) block)) o
  = qsum (map (fun x => f (fst x) (snd x)) (samples nchan cavg block o)).
Proof.
  intros H1 H2. rewrite samples_eq by auto. unfold chan_sum. rewrite fold_chan_sum.
  rewrite map_flat_map, qsum_flat_map.
  rewrite (qsum_map_ext (fun x => qsum (map _ (map _ _))) (fun s => qsum (map (f s) (chan_range nchan cavg o)))).
  - rewrite (qsum_swap f block), Qcplus_0_l. reflexivity.
  - intros s _. rewrite map_map. reflexivity.
Qed.

Lemma samples_count block o (f : tslot -> nat -> nat) : (0 < cavg)%nat -> (o < nchan_out nchan cavg)%nat ->
  chan_count nchan cavg (fun c => list_sum (map (fun s => f s c) block)) o
  = list_sum (map (fun x => f (fst x) (snd x)) (samples nchan cavg block o)).
Proof.
  intros H1 H2. rewrite samples_eq by auto. unfold chan_count. rewrite fold_chan_count.
  rewrite map_flat_map, list_sum_flat_map. simpl.
  rewrite (map_ext (fun x => list_sum (map _ (map _ _))) (fun s => list_sum (map (f s) (chan_range nchan cavg o)))).
  - rewrite list_sum_swap. reflexivity.
  - intros s. rewrite map_map. reflexivity.
Qed.

Lemma samples_length block o : (0 < cavg)%nat -> (o < nchan_out nchan cavg)%nat ->
  length (samples nchan cavg block o) = (length (chan_range nchan cavg o) * length block)%nat.
Proof.
  intros H1 H2. rewrite samples_eq by auto. induction block as [|s l IH]; simpl; [lia|].
  rewrite app_length, map_length, IH. lia.
Qed.

Lemma chan_sum_ext f g o : (forall c, f c = g c) -> chan_sum nchan cavg f o = chan_sum nchan cavg g o.
Proof.
  intros H. unfold chan_sum. rewrite !fold_chan_sum. f_equal. f_equal. now apply map_ext.
Qed.
Lemma chan_count_ext f g o : (forall c, f c = g c) -> chan_count nchan cavg f o = chan_count nchan cavg g o.
Proof.
  intros H. unfold chan_count. rewrite !fold_chan_count. f_equal. f_equal. now apply map_ext.
Qed.

Lemma is_zero_spec x : is_zero x = true <-> x = 0.
Proof. unfold is_zero. destruct (Qc_eq_dec x 0); split; auto; discriminate. Qed.

Theorem average_spec block a : (0 < cavg)%nat -> block <> [] -> sum_of block a ->
  is_average nchan cavg int_in int_out minpts minperc block (average nchan cavg minpts minperc a).
Proof.
  intros Hc Hne (H1 & H2 & H3 & H4). unfold is_average, average.
  cbn [t_time t_exposure t_vis t_weight t_flag t_uvw].
  split. { intros s E. rewrite (H2 s E). ring. }
  split; auto. split.
  { intros b i. destruct (H4 b) as [U _]. rewrite U, H1. field. apply qn_neq0. destruct block; [congruence|simpl; lia]. }
  intros b o p Ho. cbv zeta.
  destruct (H4 b) as [_ D].
  set (all := samples nchan cavg block o). set (ok := filter (good b p) all).
  assert (EW : chan_sum nchan cavg (fun c => k_weight a b c p) o = wsum b p ok).
  { rewrite (chan_sum_ext _ _ o (fun c => proj1 (proj2 (D c p)))).
    rewrite (samples_qsum block o (fun s c => if t_flag s b c p then 0 else t_weight s b c p)) by auto.
    unfold wsum, ok. rewrite qsum_filter. apply qsum_map_ext. intros x _. unfold good, w.
    destruct (t_flag (fst x) b (snd x) p); reflexivity. }
  assert (ED : chan_sum nchan cavg (fun c => k_data a b c p) o = vsum b p ok).
  { rewrite (chan_sum_ext _ _ o (fun c => proj1 (D c p))).
    rewrite (samples_qsum block o (fun s c => if t_flag s b c p then 0 else t_weight s b c p * t_vis s b c p)) by auto.
    unfold vsum, ok. rewrite qsum_filter. apply qsum_map_ext. intros x _. unfold good, w, v.
    destruct (t_flag (fst x) b (snd x) p); reflexivity. }
  assert (EA : chan_sum nchan cavg (fun c => k_all a b c p) o = vsum b p all).
  { rewrite (chan_sum_ext _ _ o (fun c => proj1 (proj2 (proj2 (D c p))))).
    rewrite (samples_qsum block o (fun s c => t_weight s b c p * t_vis s b c p)) by auto. reflexivity. }
  assert (EL : chan_sum nchan cavg (fun c => k_wall a b c p) o = wsum b p all).
  { rewrite (chan_sum_ext _ _ o (fun c => proj1 (proj2 (proj2 (proj2 (D c p)))))).
    rewrite (samples_qsum block o (fun s c => t_weight s b c p)) by auto. reflexivity. }
  assert (EP : chan_count nchan cavg (fun c => k_pts a b c p) o = length ok).
  { rewrite (chan_count_ext _ _ o (fun c => proj2 (proj2 (proj2 (proj2 (D c p)))))).
    rewrite (samples_count block o (fun s c => if t_flag s b c p then 0%nat else 1%nat)) by auto.
    unfold ok. rewrite length_filter_sum. f_equal. apply map_ext. intros x. unfold good.
    destruct (t_flag (fst x) b (snd x) p); reflexivity. }
  assert (EF : out_flagged nchan cavg minpts minperc a b o p = true <->
               wsum b p ok = 0 \/ (length ok < minpts)%nat \/ qn (length ok) < qn (length all) * minperc).
  { unfold out_flagged. rewrite EW, EP. rewrite !orb_true_iff, is_zero_spec, Nat.ltb_lt, qltb_true.
    unfold all. rewrite samples_length by auto. rewrite H1. tauto. }
  rewrite EW, ED, EA, EL.
  destruct (out_flagged nchan cavg minpts minperc a b o p) eqn:E.
  - repeat split; try discriminate; try tauto.
    + intros Hn. destruct (is_zero (wsum b p all)) eqn:Ez; [apply is_zero_spec in Ez; congruence|].
      field. auto.
    + intros Hz. apply is_zero_spec in Hz. now rewrite Hz.
  - repeat split; try discriminate; try tauto.
    assert (wsum b p ok <> 0).
    { intros Z. assert (false = true) by (apply EF; auto). discriminate. }
    field. auto.
Qed.

(** * Blocks *)

Definition result (block : list tslot) (out : tslot) : Prop :=
  is_average nchan cavg int_in int_out minpts minperc block out.

Definition Inv (slots : list tslot) (st : option acc * list tslot) : Prop :=
  exists blocks rest,
    slots = concat blocks ++ rest /\
    (forall b, In b blocks -> length b = tavg) /\
    Forall2 result blocks (snd st) /\
    match fst st with
    | None => rest = []
    | Some a => rest <> [] /\ (length rest < tavg)%nat /\ sum_of rest a
    end.

Hypothesis cavg_pos : (0 < cavg)%nat.
Hypothesis tavg_pos : (0 < tavg)%nat.

Lemma process_inv slots st s : Inv slots st ->
  Inv (slots ++ [s]) (process nchan cavg tavg int_in int_out minpts minperc st s).
Proof.
  intros (blocks & rest & E & L & F & C). destruct st as [cur out]. cbn [fst snd] in *. unfold process.
  set (a := match cur with None => first_slot int_in int_out s | Some a => next_slot a s end).
  assert (Ha : sum_of (rest ++ [s]) a /\ (length (rest ++ [s]) <= tavg)%nat).
  { unfold a. destruct cur as [a0|].
    - destruct C as (C1 & C2 & C3). split; [now apply sum_of_next|]. rewrite app_length; simpl; lia.
    - subst rest. split; [apply sum_of_first|simpl; lia]. }
  destruct Ha as [Ha Hl]. clearbody a.
  pose proof (proj1 Ha) as Hn.
  destruct (Nat.leb_spec tavg (k_n a)) as [Hle|Hgt].
  - exists (blocks ++ [rest ++ [s]]), []. cbn [fst snd]. repeat split; auto.
    + rewrite concat_app, E. simpl. rewrite !app_nil_r, <- app_assoc. reflexivity.
    + intros b. rewrite in_app_iff. intros [Hb|[<-|[]]]; [now apply L|]. lia.
    + apply Forall2_app; auto. constructor; [|constructor].
      apply average_spec; auto. intros N. apply (f_equal (@length _)) in N. rewrite app_length in N. simpl in N. lia.
  - exists blocks, (rest ++ [s]). cbn [fst snd]. repeat split; auto; try apply Ha.
    + rewrite E, app_assoc. reflexivity.
    + intros N. apply (f_equal (@length _)) in N. rewrite app_length in N. simpl in N. lia.
    + lia.
Qed.

Lemma run_inv slots : Inv slots (fold_left (process nchan cavg tavg int_in int_out minpts minperc) slots (None, [])).
Proof.
  induction slots as [|s l IH] using rev_ind.
  - exists [], []. simpl. repeat split; auto. intros b [].
  - rewrite fold_left_app. simpl. now apply process_inv.
Qed.

Theorem run_spec slots : exists blocks,
  divides_into tavg slots blocks /\
  Forall2 result blocks (run nchan cavg tavg int_in int_out minpts minperc false slots).
Proof.
  unfold run. destruct (run_inv slots) as (blocks & rest & E & L & F & C).
  destruct (fold_left _ slots (None, [])) as [cur out]. cbn [fst snd] in *. unfold finish.
  destruct cur as [a|].
  - destruct C as (C1 & C2 & C3). exists (blocks ++ [rest]). split; [repeat split|].
    + rewrite concat_app, E. simpl. now rewrite app_nil_r.
    + apply in_app_iff in H. destruct H as [H|[<-|[]]]; [rewrite (L b H); lia|].
      destruct rest; [congruence|simpl; lia].
    + apply in_app_iff in H. destruct H as [H|[<-|[]]]; [rewrite (L b H); lia|lia].
    + intros i b Hi Hlt. rewrite app_length in Hlt. simpl in Hlt.
      rewrite nth_error_app1 in Hi by lia. apply L. eapply nth_error_In; eauto.
    + apply Forall2_app; auto. constructor; [|constructor]. now apply average_spec.
  - subst rest. exists blocks. split; [repeat split|auto].
    + now rewrite E, app_nil_r.
    + rewrite (L b H); lia.
    + rewrite (L b H); lia.
    + intros i b Hi _. apply L. eapply nth_error_In; eauto.
Qed.
End Avg.

(** Number of blocks. *)
Lemma divides_into_count {A} n (l : list A) blocks : (0 < n)%nat -> divides_into n l blocks ->
  length blocks = ((length l + n - 1) / n)%nat.
Proof.
  intros Hn (C & B & F). subst l.
  assert (G : forall bl : list (list A), (forall b, In b bl -> (1 <= length b <= n)%nat) ->
     (forall i b, nth_error bl i = Some b -> (S i < length bl)%nat -> length b = n) ->
     (length bl = 0 /\ length (concat bl) = 0 \/
      exists r, (1 <= r <= n) /\ length (concat bl) = (length bl - 1) * n + r /\ 0 < length bl)%nat).
  { induction bl as [|b bl IH]; intros HB HF; [left; auto|]. right.
    destruct bl as [|b' bl'].
    - exists (length b). pose proof (HB b (or_introl eq_refl)). simpl. rewrite app_nil_r. lia.
    - destruct IH as [[H0 _]|(r & R1 & R2 & R3)].
      + intros; apply HB; simpl; auto.
      + intros i x Hi Hlt. apply (HF (S i) x); auto. simpl in *. lia.
      + simpl in H0. lia.
      + exists r. split; auto. cbn [concat] in *. rewrite app_length.
        rewrite (HF 0%nat b eq_refl) by (simpl; lia). rewrite R2. cbn [length] in *. split; [nia|lia]. }
  destruct (G blocks B F) as [[H0 H1]|(r & R1 & R2 & R3)].
  - rewrite H1, H0. symmetry. apply Nat.div_small. lia.
  - rewrite R2.
    assert (E : ((length blocks - 1) * n + r + n - 1 = length blocks * n + (r - 1))%nat) by nia.
    rewrite E. rewrite Nat.div_add_l by lia. rewrite Nat.div_small by lia. lia.
Qed.

(** * Metadata *)

Lemma nth_firstn {A} (l : list A) n i d : (i < n)%nat -> nth i (firstn n l) d = nth i l d.
Proof.
  revert n i. induction l as [|a l IH]; intros n i H; [now rewrite firstn_nil|].
  destruct n; [lia|]. destruct i; auto. simpl. apply IH. lia.
Qed.

Lemma nth_skipn {A} (l : list A) k i d : nth i (skipn k l) d = nth (k + i) l d.
Proof.
  revert l. induction k as [|k IH]; intros l; auto.
  destruct l as [|a l]; simpl; auto. now destruct i.
Qed.

Lemma qsum_nth (l : list Qc) : qsum l = qsum (map (fun i => nth i l 0) (seq 0 (length l))).
Proof.
  f_equal. apply (nth_ext _ _ 0 0).
  - now rewrite map_length, seq_length.
  - intros n Hn. rewrite (nth_indep (map _ _) 0 (nth (length l) l 0)) by (now rewrite map_length, seq_length).
    rewrite (map_nth (fun i => nth i l 0)). rewrite seq_nth by auto. reflexivity.
Qed.

Lemma block_sum_firstn l c i : (i * c + c <= length l)%nat ->
  block_sum l c i = qsum (firstn c (skipn (i * c) l)).
Proof.
  intros H. unfold block_sum. rewrite fold_chan_sum, Qcplus_0_l. rewrite (qsum_nth (firstn _ _)).
  rewrite firstn_length, skipn_length. rewrite Nat.min_l by lia.
  apply qsum_map_ext. intros j Hj. apply in_seq in Hj. rewrite nth_firstn by lia. now rewrite nth_skipn.
Qed.

Lemma map_seq_nth (f : nat -> Qc) n i : (i < n)%nat -> nth i (map f (seq 0 n)) 0 = f i.
Proof.
  intros H. rewrite (nth_indep _ 0 (f 0%nat)) by (now rewrite map_length, seq_length).
  rewrite map_nth, seq_nth by auto. reflexivity.
Qed.

Lemma block_sums_total c : forall n l, length l = (n * c)%nat ->
  qsum (map (block_sum l c) (seq 0 n)) = qsum l.
Proof.
  intros n l H.
  rewrite (qsum_map_ext _ (fun i => qsum (firstn c (skipn (i * c) l)))).
  2: { intros i Hi. apply in_seq in Hi. apply block_sum_firstn. nia. }
  revert l H. induction n as [|n IH]; intros l H; simpl in H.
  - destruct l; [reflexivity|discriminate].
  - cbn [seq map]. rewrite qsum_cons. rewrite <- seq_shift, map_map.
    rewrite (qsum_map_ext _ (fun i => qsum (firstn c (skipn (i * c) (skipn c l))))).
    + rewrite IH by (rewrite skipn_length; lia). simpl skipn.
      rewrite <- qsum_app, firstn_skipn. reflexivity.
    + intros i _. do 2 f_equal. rewrite <- (firstn_skipn c l) at 1.
      destruct (Nat.le_gt_cases c (length l)); [|lia].
      rewrite skipn_app, firstn_length, Nat.min_l by lia.
      rewrite (skipn_all2 (firstn c l)) by (rewrite firstn_length; lia).
      simpl. f_equal. lia.
Qed.

Lemma ceil_div_exact n c : (0 < c)%nat -> (n mod c = 0)%nat -> ((n + c - 1) / c = n / c /\ n / c * c = n)%nat.
Proof.
  intros H M. pose proof (Nat.div_mod n c ltac:(lia)) as D. rewrite M, Nat.add_0_r in D.
  split; [|lia]. rewrite D at 1. replace (c * (n / c) + c - 1)%nat with ((n / c) * c + (c - 1))%nat by nia.
  rewrite Nat.div_add_l by lia. rewrite (Nat.div_small (c - 1) c) by lia. lia.
Qed.

(** The sum of an arithmetic progression. *)
Lemma qsum_progression a d n : (1 + 1) * qsum (map (fun i => a + qn i * d) (seq 0 n))
  = qn n * (a + (a + (qn n - 1) * d)).
Proof.
  induction n as [|n IH].
  - rewrite qn_0. simpl seq. cbn [map]. rewrite qsum_nil. ring.
  - rewrite seq_S, map_app, qsum_app. cbn [map]. rewrite qsum_cons, qsum_nil, qn_S. simpl Nat.add.
    transitivity ((1 + 1) * qsum (map (fun i : nat => a + qn i * d) (seq 0 n)) + (1 + 1) * (a + qn n * d)); [ring|].
    rewrite IH. ring.
Qed.

Lemma half_two : half * (1 + 1) = 1.
Proof. apply qc_eq. vm_compute. reflexivity. Qed.

Definition info_ok (inf : info) : Prop :=
  (length (i_freqs inf) = i_nchan inf /\ length (i_widths inf) = i_nchan inf /\
  length (i_resol inf) = i_nchan inf /\ length (i_effbw inf) = i_nchan inf)%nat /\
  i_totbw inf = qsum (i_effbw inf) /\
  i_last inf = i_first inf + (qn (i_ntime inf) - 1) * i_interval inf.

Lemma update_ok inf ca ta inf' c : info_ok inf -> update inf ca ta = Ok (inf', c) ->
  (0 < c)%nat /\ c = Nat.min ca (i_nchan inf) /\ (i_nchan inf mod c = 0)%nat /\
  info_ok inf' /\
  i_nchan inf' = nchan_out (i_nchan inf) c /\ (i_nchan inf' * c)%nat = i_nchan inf /\
  block_sums c (i_widths inf) (i_widths inf') /\
  block_sums c (i_resol inf) (i_resol inf') /\
  block_sums c (i_effbw inf) (i_effbw inf') /\
  i_totbw inf' = i_totbw inf /\
  (regular (i_freqs inf) -> block_means c (i_freqs inf) (i_freqs inf') /\ regular (i_freqs inf')) /\
  let t := Nat.min ta (i_ntime inf) in
  (0 < t)%nat /\
  i_ntime inf' = ((i_ntime inf + t - 1) / t)%nat /\ i_interval inf' = qn t * i_interval inf /\
  i_first inf' - half * i_interval inf' = i_first inf - half * i_interval inf.
Proof.
  intros ((L1 & L2 & L3 & L4) & TB & LT). unfold update.
  replace (if (i_nchan inf <? ca)%nat then i_nchan inf else ca) with (Nat.min ca (i_nchan inf))
    by (destruct (Nat.ltb_spec (i_nchan inf) ca); lia).
  replace (if (i_ntime inf <? ta)%nat then i_ntime inf else ta) with (Nat.min ta (i_ntime inf))
    by (destruct (Nat.ltb_spec (i_ntime inf) ta); lia).
  set (c0 := Nat.min ca (i_nchan inf)). set (t := Nat.min ta (i_ntime inf)). cbv zeta.
  destruct (Nat.eqb_spec c0 0) as [|Hc]; [discriminate|].
  destruct (Nat.eqb_spec (i_nchan inf mod c0) 0) as [Hm|]; [|discriminate]. cbn [negb].
  destruct (Nat.eqb_spec t 0) as [|Ht]; [discriminate|].
  intros E. assert (c = c0) by congruence. subst c.
  destruct (ceil_div_exact (i_nchan inf) c0 ltac:(lia) Hm) as [D1 D2].
  set (n := ((i_nchan inf + c0 - 1) / c0)%nat) in *.
  match type of E with Ok (?x, _) = _ => assert (inf' = x) by congruence end. subst inf'. clear E.
  assert (Dn : (n * c0 = i_nchan inf)%nat) by (rewrite D1; exact D2).
  cbn [i_nchan i_widths i_resol i_effbw i_totbw i_freqs i_ntime i_interval i_first i_last].
  assert (BS : forall l, length l = i_nchan inf -> block_sums c0 l (map (block_sum l c0) (seq 0 n))).
  { intros l Hl i Hi. rewrite map_length, seq_length in Hi. rewrite map_seq_nth by auto.
    apply block_sum_firstn. nia. }
  assert (TBn : fold_left Qcplus (map (block_sum (i_effbw inf) c0) (seq 0 n)) 0 = i_totbw inf).
  { rewrite qsum_fold_left, Qcplus_0_l, TB. apply block_sums_total. lia. }
  split; [lia|]. split; [auto|]. split; [auto|]. split.
  { unfold info_ok. cbn [i_nchan i_widths i_resol i_effbw i_totbw i_freqs i_ntime i_interval i_first i_last].
    rewrite !map_length, !seq_length. repeat split; auto.
    rewrite qsum_fold_left. ring. }
  split; [reflexivity|]. split; [auto|]. split; [auto|]. split; [auto|]. split; [auto|]. split; [auto|].
  split.
  { intros (a & d & R). split.
    - intros i Hi. rewrite map_length, seq_length in Hi. rewrite map_seq_nth by auto.
      rewrite (qsum_nth (firstn _ _)), firstn_length, skipn_length, Nat.min_l by nia.
      rewrite (qsum_map_ext _ (fun j => (a + qn (i * c0) * d) + qn j * d)).
      2: { intros j Hj. apply in_seq in Hj. rewrite nth_firstn, nth_skipn, R by nia. rewrite qn_plus. ring. }
      rewrite !R by nia.
      pose proof (qsum_progression (a + qn (i * c0) * d) d c0) as P.
      replace ((i + 1) * c0 - 1)%nat with (i * c0 + (c0 - 1))%nat by nia.
      rewrite qn_plus.
      assert (Q : qn (c0 - 1) = qn c0 - 1).
      { replace c0 with (S (c0 - 1)) at 2 by lia. rewrite qn_S. ring. }
      rewrite Q.
      transitivity (half * ((1 + 1) * qsum (map (fun j => a + qn (i * c0) * d + qn j * d) (seq 0 c0)))).
      + rewrite P. ring.
      + rewrite Qcmult_assoc, half_two. ring.
    - exists (half * (a + (a + (qn c0 - 1) * d))), (qn c0 * d). intros i Hi.
      rewrite map_length, seq_length in Hi. rewrite map_seq_nth by auto. rewrite !R by nia.
      replace ((i + 1) * c0 - 1)%nat with (i * c0 + (c0 - 1))%nat by nia.
      assert (Q : qn (c0 - 1) = qn c0 - 1).
      { replace c0 with (S (c0 - 1)) at 2 by lia. rewrite qn_S. ring. }
      rewrite qn_plus, Q, !qn_mult.
      transitivity (half * (a + (a + (qn c0 - 1) * d)) + (half * (1 + 1)) * qn i * qn c0 * d); [ring|].
      rewrite half_two. ring. }
  split; [lia|]. split; auto. split; ring.
Qed.

Lemma update_outcome inf ca ta :
  match update inf ca ta with
  | Ok _ => True
  | Throw => (0 < Nat.min ca (i_nchan inf))%nat /\ (i_nchan inf mod (Nat.min ca (i_nchan inf)) <> 0)%nat
  | Undefined => ca = 0%nat \/ ta = 0%nat \/ i_nchan inf = 0%nat \/ i_ntime inf = 0%nat
  end.
Proof.
  unfold update.
  replace (if (i_nchan inf <? ca)%nat then i_nchan inf else ca) with (Nat.min ca (i_nchan inf))
    by (destruct (Nat.ltb_spec (i_nchan inf) ca); lia).
  replace (if (i_ntime inf <? ta)%nat then i_ntime inf else ta) with (Nat.min ta (i_ntime inf))
    by (destruct (Nat.ltb_spec (i_ntime inf) ta); lia).
  cbv zeta. destruct (Nat.eqb_spec (Nat.min ca (i_nchan inf)) 0); [lia|].
  destruct (Nat.eqb_spec (i_nchan inf mod Nat.min ca (i_nchan inf)) 0); cbn [negb]; [|split; [lia|auto]].
  destruct (Nat.eqb_spec (Nat.min ta (i_ntime inf)) 0); [lia|exact I].
Qed.

Lemma factor_from_pos f res unit : (1 <= factor_from f res unit)%nat.
Proof.
  unfold factor_from. destruct (Nat.eqb_spec f 0); [|lia]. destruct (qltb 0 res); lia.
Qed.

(** * Announced against delivered time slots *)

Lemma divides_into_hd {A} n (l : list A) blocks : divides_into n l blocks ->
  forall j b, nth_error blocks j = Some b -> hd_error b = nth_error l (j * n).
Proof.
  intros (C & B & F). subst l. revert B F.
  induction blocks as [|b0 bl IH]; intros B F j b Hj; [destruct j; discriminate|].
  destruct j as [|j]; simpl in Hj.
  - inversion Hj; subst b0. simpl. pose proof (B b (or_introl eq_refl)). destruct b; [simpl in *; lia|reflexivity].
  - cbn [concat]. assert (Hl : length b0 = n).
    { apply (F 0%nat b0 eq_refl). simpl. assert (j < length bl)%nat by (apply nth_error_Some; congruence). lia. }
    rewrite nth_error_app2 by (rewrite Hl; simpl; lia).
    rewrite Hl. replace (S j * n - n)%nat with (j * n)%nat by (simpl; lia).
    apply IH; auto.
    + intros; apply B; simpl; auto.
    + intros i x Hi Hlt. apply (F (S i) x); auto. simpl. lia.
Qed.

Lemma Forall2_nth {A B} (R : A -> B -> Prop) l l' : Forall2 R l l' ->
  forall i y, nth_error l' i = Some y -> exists x, nth_error l i = Some x /\ R x y.
Proof.
  induction 1 as [|x y l l' H1 H2 IH]; intros i z Hi; [destruct i; discriminate|].
  destruct i; simpl in *; [inversion Hi; subst; eauto|now apply IH].
Qed.

Lemma Forall2_length' {A B} (R : A -> B -> Prop) l l' : Forall2 R l l' -> length l = length l'.
Proof. induction 1; simpl; auto. Qed.

Theorem announced_delivered inf ca ta fr tr inf' c t noavg slots minpts minperc :
  info_ok inf -> (0 < i_ntime inf)%nat ->
  update_info inf ca ta fr tr = Ok (inf', c, t, noavg) ->
  length slots = i_ntime inf ->
  (forall k s, nth_error slots k = Some s -> t_time s = i_first inf + qn k * i_interval inf) ->
  let out := run (i_nchan inf) c t (i_interval inf) (i_interval inf') minpts minperc noavg slots in
  length out = i_ntime inf' /\
  (forall j o, nth_error out j = Some o -> t_time o = i_first inf' + qn j * i_interval inf') /\
  i_last inf' = i_first inf' + (qn (i_ntime inf') - 1) * i_interval inf'.
Proof.
  intros HI Hnt HU HL HT.
  unfold update_info in HU. cbv zeta in HU.
  pose proof (factor_from_pos ca fr (nth 0 (i_widths inf) 0)) as Pc.
  pose proof (factor_from_pos ta tr (i_interval inf)) as Pt.
  set (c1 := factor_from ca fr _) in *. set (t1 := factor_from ta tr _) in *. clearbody c1 t1.
  destruct (update inf c1 (Nat.min t1 (i_ntime inf))) as [[i1 c2]| |] eqn:EU; try discriminate.
  assert (i1 = inf' /\ c2 = c /\ Nat.min t1 (i_ntime inf) = t /\ ((c1 =? 1) && (t1 =? 1))%nat = noavg) as (-> & -> & <- & <-)
    by (repeat split; congruence). clear HU.
  destruct (update_ok _ _ _ _ _ HI EU) as (K1 & K2 & K3 & K4 & K5 & K6 & _ & _ & _ & _ & _ & Ht).
  rewrite <- Nat.min_assoc, Nat.min_id in Ht. destruct Ht as (T1 & T2 & T3 & T4).
  set (t := Nat.min t1 (i_ntime inf)) in *. cbv zeta.
  split; [|split]; [| |apply K4].
  - destruct ((c1 =? 1) && (t1 =? 1))%nat eqn:EN.
    + cbn [run]. apply andb_true_iff in EN. destruct EN as [_ EN]. apply Nat.eqb_eq in EN.
      assert (t = 1)%nat by lia. rewrite H in T2. rewrite T2, HL, Nat.div_1_r. lia.
    + destruct (run_spec (i_nchan inf) c t (i_interval inf) (i_interval inf') minpts minperc K1 T1 slots) as (bl & D & R).
      apply Forall2_length' in R. rewrite <- R. rewrite (divides_into_count t slots bl T1 D), HL. auto.
  - intros j o Hj. destruct ((c1 =? 1) && (t1 =? 1))%nat eqn:EN.
    + cbn [run] in Hj. apply andb_true_iff in EN. destruct EN as [_ EN]. apply Nat.eqb_eq in EN.
      assert (Et : t = 1%nat) by lia. clearbody t. subst t.
      assert (E1 : qn 1 = 1) by (rewrite (qn_S 0), qn_0; ring).
      rewrite E1 in T3. rewrite (HT j o Hj). rewrite T3 in T4 |- *.
      assert (i_first inf' = i_first inf).
      { rewrite Qcmult_1_l in T4. set (x := half * i_interval inf) in *. clearbody x. qclra. }
      rewrite H. ring.
    + destruct (run_spec (i_nchan inf) c t (i_interval inf) (i_interval inf') minpts minperc K1 T1 slots) as (bl & D & R).
      destruct (Forall2_nth _ _ _ R j o Hj) as (b & Hb & (A1 & _)).
      pose proof (divides_into_hd t slots bl D j b Hb) as Hh.
      destruct (nth_error slots (j * t)) as [s|] eqn:Es.
      * specialize (A1 s Hh). rewrite (HT _ _ Es) in A1.
        rewrite qn_mult in A1. rewrite T3 in A1, T4 |- *.
        set (x := qn j * qn t * i_interval inf) in *.
        replace (qn j * (qn t * i_interval inf)) with x by (unfold x; ring).
        set (y := qn t * i_interval inf) in *.
        replace (y * half) with (half * y) in A1 by ring.
        replace (i_interval inf * half) with (half * i_interval inf) in A1 by ring.
        set (u := half * y) in *. set (v := half * i_interval inf) in *.
        clearbody x u v. clear - A1 T4. qclra.
      * destruct D as (_ & D & _). apply nth_error_In in Hb. specialize (D b Hb).
        destruct b; [simpl in D; lia|discriminate].
Qed.

Lemma factor_from_wanted f res unit : 0 < unit -> wanted_factor f res unit (factor_from f res unit).
Proof.
  intros Hu. unfold wanted_factor, factor_from.
  split; [intros H; destruct (Nat.eqb_spec f 0); [lia|reflexivity]|].
  assert (P : forall x, x / unit * unit = x).
  { intros x. field. intros ->. now apply Qclt_not_eq in Hu. }
  assert (C : forall a x, a * unit <= x -> a <= x / unit).
  { intros a x H. apply Qcmult_lt_0_le_reg_r with unit; auto. now rewrite P. }
  split; [|split].
  - intros -> H. cbn [Nat.eqb]. destruct (qltb_spec 0 res) as [G|G]; [|reflexivity]. now apply Qcle_not_lt in H.
  - intros -> H0 H. cbn [Nat.eqb]. destruct (qltb_spec 0 res) as [G|G]; [|reflexivity].
    assert (L : res / unit < half).
    { apply Qcnot_le_lt. intros X. apply (Qclt_not_le _ _ H). rewrite <- (P res) at 1. apply Qcmult_le_compat_r; auto. now apply Qclt_le_weak. }
    assert (Z : (Qfloor (this (res / unit + half)) < 1)%Z).
    { rewrite Zlt_Qlt. eapply Qle_lt_trans; [apply Qfloor_le|]. rewrite this_plus. unfold Qclt in L. change (this half) with (1 # 2)%Q in *. change (inject_Z 1) with 1%Q. lra. }
    lia.
  - intros -> H. cbn [Nat.eqb].
    assert (H0 : 0 < res). { eapply Qclt_le_trans; [|exact H]. apply qc_mult_pos; auto. reflexivity. }
    destruct (qltb_spec 0 res) as [G|G]; [|contradiction].
    assert (L : half <= res / unit) by now apply C.
    pose proof (Qfloor_le (this (res / unit + half))) as F1. pose proof (Qlt_floor (this (res / unit + half))) as F2.
    set (z := Qfloor (this (res / unit + half))) in *.
    assert (Hz : (1 <= z)%Z).
    { unfold z. change 1%Z with (Qfloor 1). apply Qfloor_resp_le. rewrite this_plus. unfold Qcle in L. change (this half) with (1 # 2)%Q in *. lra. }
    rewrite Nat.max_r by lia. rewrite this_plus in F1, F2. change (this half) with (1 # 2)%Q in F1, F2.
    assert (E : this (qn (Z.to_nat z)) == inject_Z z).
    { unfold qn. rewrite this_Q2Qc, Z2Nat.id by lia. reflexivity. }
    rewrite inject_Z_plus in F2. change (inject_Z 1) with 1%Q in F2. split.
    + rewrite <- (P res). apply Qcmult_le_compat_r; [|now apply Qclt_le_weak]. unfold Qcle. rewrite this_minus, E. change (this half) with (1 # 2)%Q. lra.
    + rewrite <- (P res) at 1. apply Qcmult_lt_compat_r; auto. unfold Qclt. rewrite this_plus, E. change (this half) with (1 # 2)%Q. lra.
Qed.

Lemma update_factors inf ca ta fr tr inf' c t noavg : 0 < nth 0 (i_widths inf) 0 -> 0 < i_interval inf -> info_ok inf ->
  update_info inf ca ta fr tr = Ok (inf', c, t, noavg) ->
  exists fc ft, wanted_factor ca fr (nth 0 (i_widths inf) 0) fc /\ wanted_factor ta tr (i_interval inf) ft /\
    c = Nat.min fc (i_nchan inf) /\ t = Nat.min ft (i_ntime inf) /\ (noavg = true <-> fc = 1%nat /\ ft = 1%nat).
Proof.
  intros H1 H2 HI. unfold update_info. cbv zeta.
  pose proof (factor_from_wanted ca fr _ H1) as W1. pose proof (factor_from_wanted ta tr _ H2) as W2.
  set (fc := factor_from ca fr _) in *. set (ft := factor_from ta tr _) in *.
  destruct (update inf fc (Nat.min ft (i_ntime inf))) as [[i c']| |] eqn:E; try discriminate.
  intros X. assert (i = inf' /\ c' = c /\ Nat.min ft (i_ntime inf) = t /\ ((fc =? 1) && (ft =? 1))%nat = noavg) as (-> & -> & <- & <-) by (split; [|split; [|split]]; congruence).
  exists fc, ft. split; [exact W1|]. split; [exact W2|].
  destruct (update_ok _ _ _ _ _ HI E) as (_ & Ec & _). split; [exact Ec|]. split; [reflexivity|].
  rewrite andb_true_iff, !Nat.eqb_eq. tauto.
Qed.
