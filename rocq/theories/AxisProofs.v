(** Proofs about the axes of the parameter database. *)
From Coq Require Import Qcanon List Arith Lia Bool QArith.
From Verif Require Import QcUtil AverageModel GainModel AxisModel AxisSpec.
Import ListNotations.
Open Scope Qc_scope.
Open Scope nat_scope.

Ltac nope := solve [intro; qclra | intros [? ?]; qclra].

Lemma near_spec x y : reflect (x = y) (near x y).
Proof. unfold near. destruct (Qc_eq_dec x y); constructor; auto. Qed.

Lemma half_2 : (half + half = 1)%Qc.
Proof. apply Qc_is_canon. vm_compute. reflexivity. Qed.

Lemma half_mul (x : Qc) : (x * half + x * half = x)%Qc.
Proof. rewrite <- Qcmult_plus_distr_r, half_2. apply Qcmult_1_r. Qed.

Lemma center_inside c : (fst c < snd c)%Qc -> (fst c < center c)%Qc /\ (center c < snd c)%Qc.
Proof.
  intro H. unfold center. pose proof (half_mul (fst c + snd c)%Qc) as E.
  set (h := ((fst c + snd c) * half)%Qc) in *. clearbody h. split; qclra.
Qed.

Lemma around_center c : around (center c) (width c) = c.
Proof.
  destruct c as [s e]. unfold around, center, width. cbn [fst snd].
  pose proof (half_mul (s + e)%Qc) as E1. pose proof (half_mul (e - s)%Qc) as E2.
  assert (E : ((s + e) * half - (e - s) * half = s)%Qc).
  { replace ((s + e) * half - (e - s) * half)%Qc with (s * (half + half))%Qc by ring.
    rewrite half_2. ring. }
  rewrite E. f_equal. ring.
Qed.

Lemma ordered_after_ordered lo l : ordered_after lo l -> ordered l.
Proof. destruct l as [|[s e] l]; cbn; tauto. Qed.

Lemma ordered_after_le lo lo' l : (lo' <= lo)%Qc -> ordered_after lo l -> ordered_after lo' l.
Proof.
  destruct l as [|[s e] l]; cbn; auto. intros H (H1 & H2 & H3). repeat split; auto.
  eapply Qcle_trans; eauto.
Qed.

Lemma ordered_after_in lo l c : ordered_after lo l -> In c l -> (lo <= fst c)%Qc /\ (fst c < snd c)%Qc.
Proof.
  revert lo. induction l as [|[s e] l IH]; cbn [ordered_after In]; [tauto|].
  intros lo (H1 & H2 & H3) [<-|H]; cbn [fst snd]; auto.
  destruct (IH _ H3 H) as [A B]. split; auto. qclra.
Qed.

Lemma ordered_after_app lo a b : ordered_after lo (a ++ b) -> ordered_after lo a /\
  (forall c d, In c a -> In d b -> (snd c <= fst d)%Qc) /\ ordered_after lo b.
Proof.
  revert lo. induction a as [|[s e] a IH]; cbn [app ordered_after In].
  - intros lo H. repeat split; auto. intros c d [].
  - intros lo (H1 & H2 & H3). destruct (IH _ H3) as (A & B & C). repeat split; auto.
    + intros c d [<-|H]; [|auto]. intro D. cbn [snd].
      destruct (ordered_after_in _ _ _ C D). auto.
    + eapply ordered_after_le; [|exact C]. qclra.
Qed.

Lemma ordered_is_after l : ordered l -> exists lo, ordered_after lo l.
Proof.
  destruct l as [|[s e] l]; cbn; [exists 0%Qc; auto|].
  intros [A B]. exists s. repeat split; auto. apply Qcle_refl.
Qed.

Lemma tiles_after a b l : tiles a b l -> ordered_after a l.
Proof.
  revert a. induction l as [|[s e] l IH]; cbn; auto.
  intros a (-> & H & T). repeat split; auto. apply Qcle_refl.
Qed.

(** The specification of find as a count, for the proofs. *)
Definition before_b (bias : bool) (x : Qc) (c : cell) : bool :=
  if bias then qleb (snd c) x else qltb (snd c) x.
Definition inside_b (bias : bool) (x : Qc) (c : cell) : bool :=
  if bias then qleb (fst c) x && qltb x (snd c) else qltb (fst c) x && qleb x (snd c).

Lemma before_b_spec bias x c : reflect (left_of bias x c) (before_b bias x c).
Proof. destruct bias; [apply qleb_spec|apply qltb_spec]. Qed.

Lemma inside_b_spec bias x c : reflect (inside bias x c) (inside_b bias x c).
Proof.
  destruct bias; unfold inside, inside_b.
  - destruct (qleb_spec (fst c) x), (qltb_spec x (snd c)); constructor; tauto.
  - destruct (qltb_spec (fst c) x), (qleb_spec x (snd c)); constructor; tauto.
Qed.

(** What find has to give. *)
Definition found (l : list cell) (x : Qc) (bias : bool) (r : nat * bool) : Prop :=
  (forall c, In c (firstn (fst r) l) -> left_of bias x c) /\
  (forall c, In c (skipn (fst r) l) -> ~ left_of bias x c) /\
  fst r <= length l /\
  (if snd r then exists c, nth_error l (fst r) = Some c /\ inside bias x c
   else forall c, In c l -> ~ inside bias x c).

Lemma right_of lo l x (bias : bool) : ordered_after lo l ->
  (if bias then (x < lo)%Qc else (x <= lo)%Qc) ->
  forall c, In c l -> ~ left_of bias x c /\ ~ inside bias x c.
Proof.
  intros O H c Hc. destruct (ordered_after_in _ _ _ O Hc) as [A B].
  destruct bias; unfold left_of, inside; (split; intro X; [|destruct X as [X _]]); qclra.
Qed.

Lemma found_cons s e l x bias k b :
  left_of bias x (s, e) -> (s < e)%Qc -> found l x bias (k, b) ->
  found ((s, e) :: l) x bias (S k, b).
Proof.
  intros L W (A & B & C & D). cbn [fst snd] in *. unfold found. cbn [fst snd firstn skipn length].
  repeat split; auto.
  - intros c [<-|H]; auto.
  - lia.
  - destruct b.
    + destruct D as (c & D1 & D2). exists c. auto.
    + intros c [<-|H]; auto. intro I. clear - L I W. destruct bias; unfold left_of, inside in *; cbn [fst snd] in *; destruct I as [I1 I2]; qclra.
Qed.

Lemma found_here s e l x (bias b : bool) :
  ordered_after s ((s, e) :: l) -> ~ left_of bias x (s, e) ->
  (if b then inside bias x (s, e) else ~ inside bias x (s, e)) ->
  found ((s, e) :: l) x bias (0, b).
Proof.
  intros (O1 & O2 & O3) L I.
  assert (R : forall c, In c l -> ~ left_of bias x c /\ ~ inside bias x c).
  { apply (right_of e); auto. clear - L. destruct bias; unfold left_of in L; cbn in L.
    - now apply Qcnot_le_lt. - now apply Qcnot_lt_le. }
  unfold found. cbn [fst snd firstn skipn]. repeat split.
  - intros c [].
  - intros c [<-|H]; auto. apply R; auto.
  - lia.
  - destruct b.
    + exists (s, e). auto.
    + intros c [<-|H]; auto. apply R; auto.
Qed.

Lemma find_from_shift l i x bias :
  find_from l i x bias = (i + fst (find_from l 0 x bias), snd (find_from l 0 x bias)).
Proof.
  revert i. induction l as [|c l IH]; intro i; cbn.
  - f_equal; lia.
  - destruct (near x (fst c)); cbn; [f_equal; lia|].
    destruct (near x (snd c)); cbn.
    + destruct bias; cbn; [|f_equal; lia]. rewrite (IH (S i)), (IH 1). cbn. f_equal; lia.
    + destruct (qltb x (fst c)); cbn; [f_equal; lia|].
      destruct (qltb x (snd c)); cbn; [f_equal; lia|].
      rewrite (IH (S i)), (IH 1). cbn. f_equal; lia.
Qed.

Lemma find_from_found l x bias : forall lo, ordered_after lo l -> found l x bias (find_from l 0 x bias).
Proof.
  induction l as [|[s e] l IH]; intros lo O.
  - cbn. unfold found. cbn [fst snd firstn skipn In length].
    split; [intros c []|split; [intros c []|split; [lia|intros c []]]].
  - pose proof O as O'. destruct O' as (O1 & O2 & O3).
    assert (Os : ordered_after s ((s, e) :: l)) by (cbn; repeat split; auto; apply Qcle_refl).
    specialize (IH _ O3).
    assert (Go : left_of bias x (s, e) -> found ((s, e) :: l) x bias (find_from l 1 x bias)).
    { intro L. rewrite find_from_shift. destruct (find_from l 0 x bias) as [k b]. apply found_cons; auto. }
    cbn [find_from fst snd].
    destruct (near_spec x s) as [->|N1].
    { apply found_here; auto; destruct bias; unfold left_of, inside; cbn [fst snd]; try nope.
      - split; [apply Qcle_refl|auto]. }
    destruct (near_spec x e) as [->|N2].
    { destruct bias.
      - apply Go. unfold left_of. cbn. apply Qcle_refl.
      - apply found_here; auto; unfold left_of, inside; cbn [fst snd].
        + nope. + split; [auto|apply Qcle_refl]. }
    destruct (qltb_spec x s) as [L1|L1].
    { apply found_here; auto; destruct bias; unfold left_of, inside; cbn [fst snd]; nope. }
    apply Qcnot_lt_le in L1.
    destruct (qltb_spec x e) as [L2|L2].
    { apply found_here; auto; destruct bias; unfold left_of, inside; cbn [fst snd]; try nope.
      - auto. - split; [|qclra]. destruct (Qcle_lt_or_eq _ _ L1); auto. congruence. }
    apply Go. apply Qcnot_lt_le in L2. destruct bias; unfold left_of; cbn; auto.
    destruct (Qcle_lt_or_eq _ _ L2); auto. congruence.
Qed.

Lemma found_app a b x bias k f :
  (forall c, In c a -> left_of bias x c /\ (fst c < snd c)%Qc) -> found b x bias (k, f) ->
  found (a ++ b) x bias (length a + k, f).
Proof.
  induction a as [|[s e] a IH]; cbn [app length Nat.add]; auto.
  intros H F. apply found_cons.
  - apply H; left; auto.
  - apply (H (s, e)); left; auto.
  - apply IH; auto. intros c Hc. apply H. right; auto.
Qed.

Lemma find_found l x bias start : ordered l -> found l x bias (find l x bias start).
Proof.
  intro O. destruct (ordered_is_after _ O) as [lo Oa].
  unfold find. destruct (nth_error l start) as [c|] eqn:N; [|eapply find_from_found; eauto].
  assert (HS : l = firstn start l ++ skipn start l) by (symmetry; apply firstn_skipn).
  assert (HL : length (firstn start l) = start).
  { rewrite firstn_length. assert (start < length l) by (apply nth_error_Some; congruence). lia. }
  assert (HK : skipn start l = c :: skipn (S start) l).
  { clear - N. revert start N. induction l as [|y l IH]; intros [|n] N; cbn in *; try discriminate.
    - now inversion N. - apply IH; auto. }
  pose proof Oa as Ob. rewrite HS in Ob. destruct (ordered_after_app _ _ _ Ob) as (O1 & O2 & O3).
  assert (Hc : In c (skipn start l)) by (rewrite HK; left; auto).
  assert (Pre : (if bias then (fst c <= x)%Qc else (fst c < x)%Qc) ->
                forall d, In d (firstn start l) -> left_of bias x d /\ (fst d < snd d)%Qc).
  { intros X d Hd. destruct (ordered_after_in _ _ _ O1 Hd). split; auto.
    pose proof (O2 d c Hd Hc). destruct bias; unfold left_of; qclra. }
  destruct (near_spec x (fst c)) as [E|N1].
  - destruct bias; [|eapply find_from_found; eauto].
    rewrite HS. replace (start, true) with (length (firstn start l) + 0, true) by (f_equal; lia).
    apply found_app.
    + apply Pre. rewrite E. apply Qcle_refl.
    + rewrite HK in *. destruct c as [s e]. cbn in E. subst x.
      destruct O3 as (X1 & X2 & X3). apply found_here.
      * cbn. repeat split; auto. apply Qcle_refl.
      * unfold left_of. cbn [fst snd]. nope.
      * unfold inside. cbn. split; [apply Qcle_refl|auto].
  - destruct (qltb_spec x (fst c)) as [L|L]; [eapply find_from_found; eauto|].
    apply Qcnot_lt_le in L. rewrite find_from_shift.
    assert (L' : (fst c < x)%Qc) by (destruct (Qcle_lt_or_eq _ _ L); auto; congruence).
    rewrite <- HL at 1. rewrite HS at 1.
    pose proof (find_from_found (skipn start l) x bias _ O3) as F.
    destruct (find_from (skipn start l) 0 x bias) as [k b]. apply found_app; auto.
    apply Pre. destruct bias; auto.
Qed.

Lemma tiles_app a b l m : tiles a b (l ++ m) <-> exists c, tiles a c l /\ tiles c b m.
Proof.
  revert a. induction l as [|[s e] l IH]; intro a; cbn [app tiles].
  - split; [intro; exists a; auto|intros (c & -> & H); auto].
  - rewrite IH. split.
    + intros (H1 & H2 & c & H3 & H4). exists c. auto.
    + intros (c & (H1 & H2 & H3) & H4). repeat split; auto. exists c. auto.
Qed.

Lemma tiles_start a b l : tiles a b l -> l <> [] -> start_of l = a.
Proof. destruct l as [|[s e] l]; cbn; [congruence|]. intros (-> & _) _. reflexivity. Qed.

Lemma tiles_end a b l : tiles a b l -> l <> [] -> end_of l = b.
Proof.
  intros T N. destruct (exists_last N) as (m & [s e] & ->). unfold end_of. rewrite last_last.
  apply tiles_app in T. destruct T as (c & _ & (_ & _ & T)). exact T.
Qed.

Lemma tiles_le a b l : tiles a b l -> (a <= b)%Qc.
Proof.
  revert a. induction l as [|[s e] l IH]; cbn; intros a H.
  - subst. apply Qcle_refl.
  - destruct H as (-> & H & T). apply IH in T. qclra.
Qed.

Lemma tiles_lt a b l : tiles a b l -> l <> [] -> (a < b)%Qc.
Proof.
  destruct l as [|[s e] l]; [congruence|]. intros (-> & H & T) _. apply tiles_le in T. qclra.
Qed.

Lemma tiles_in a b l c : tiles a b l -> In c l ->
  (a <= fst c)%Qc /\ (fst c < snd c)%Qc /\ (snd c <= b)%Qc.
Proof.
  intros T H. apply in_split in H. destruct H as (x & y & ->).
  apply tiles_app in T. destruct T as (m & T1 & T2). destruct c as [s e].
  destruct T2 as (-> & T2 & T3). apply tiles_le in T1. apply tiles_le in T3. cbn. auto.
Qed.

Lemma tiles_step a b l i c d : tiles a b l -> nth_error l i = Some c -> nth_error l (S i) = Some d ->
  snd c = fst d.
Proof.
  revert a i. induction l as [|[s e] l IH]; intros a i T; [destruct i; discriminate|].
  destruct T as (-> & T1 & T2). destruct i as [|i]; cbn [nth_error].
  - intros [= <-] H. destruct l as [|[s' e'] l]; [discriminate|]. cbn in H. inversion H; subst.
    destruct T2 as (-> & _). reflexivity.
  - intros H1 H2. eapply IH; eauto.
Qed.

Lemma tiles_ordered a b l : tiles a b l -> ordered l.
Proof. intro T. eapply ordered_after_ordered, tiles_after, T. Qed.

Lemma regular_cells_length s w n : length (regular_cells s w n) = n.
Proof. revert s. induction n; intro s; cbn; auto. Qed.

Lemma regular_cells_tiles s w n : (0 < w)%Qc -> tiles s (s + qn n * w) (regular_cells s w n).
Proof.
  intro W. revert s. induction n as [|n IH]; intro s; cbn [regular_cells tiles].
  - rewrite qn_0. ring.
  - split; [auto|]. split; [qclra|].
    replace (s + qn (S n) * w)%Qc with ((s + w) + qn n * w)%Qc by (rewrite qn_S; ring). apply IH.
Qed.

Lemma regular_cells_wide s w n : wide w (regular_cells s w n).
Proof.
  intros x y. revert s. induction n as [|n IH]; intro s; cbn; [tauto|].
  intros [H|H]; [|eauto]. inversion H; subst. ring.
Qed.

Lemma regular_cells_eq a b w l : tiles a b l -> wide w l -> l = regular_cells a w (length l).
Proof.
  revert a. induction l as [|[s e] l IH]; intros a T W; cbn; auto.
  destruct T as (-> & T1 & T2).
  assert (E : e = (a + w)%Qc) by (rewrite <- (W a e); [ring|left; auto]).
  rewrite <- E. f_equal. apply IH; auto. intros x y H. apply W. right; auto.
Qed.

Lemma regular_cells_skipn s w n k : skipn k (regular_cells s w n) = regular_cells (s + qn k * w) w (n - k).
Proof.
  revert s n. induction k as [|k IH]; intros s n.
  - cbn [skipn]. rewrite Nat.sub_0_r, qn_0. f_equal. ring.
  - destruct n as [|n]; cbn [regular_cells skipn Nat.sub]; auto.
    rewrite IH. f_equal. rewrite qn_S. ring.
Qed.

Lemma regular_cells_firstn s w n k : k <= n -> firstn k (regular_cells s w n) = regular_cells s w k.
Proof.
  revert s n. induction k as [|k IH]; intros s n H; cbn; auto.
  destruct n as [|n]; [lia|]. cbn. f_equal. apply IH. lia.
Qed.

Lemma wide_hd w l : wide w l -> l <> [] -> width (hd (0, 0)%Qc l) = w.
Proof. destruct l as [|[s e] l]; [congruence|]. intros W _. unfold width. cbn. apply W. left; auto. Qed.

Lemma around_map l : map (fun c => around (center c) (width c)) l = l.
Proof. rewrite <- (map_id l) at 2. apply map_ext. intro c. apply around_center. Qed.

(** The cells of a subset by index. *)
Lemma subset_index_cells ax i j : axis_cells (regular ax) (cells ax) -> i <= j -> j < length (cells ax) ->
  subset_index ax i j = Axis (regular ax) (slice i (S j) (cells ax)).
Proof.
  intros (N & O & R) L1 L2. unfold subset_index. rewrite Nat.min_l by lia.
  destruct (Nat.ltb_spec j i); [lia|]. destruct ax as [reg l]. cbn [regular cells] in *.
  unfold slice. replace (S j - i) with (j - i + 1) by lia.
  destruct reg; [|rewrite around_map; reflexivity].
  destruct (R eq_refl) as (a & b & w & T & W).
  rewrite (wide_hd w) by auto. rewrite (tiles_start a b) by auto.
  unfold regular_axis. f_equal.
  rewrite (regular_cells_eq a b w l T W) at 1. rewrite regular_cells_skipn, regular_cells_firstn; auto. lia.
Qed.

Lemma skipn_plus {A} i j (l : list A) : skipn i (skipn j l) = skipn (i + j) l.
Proof.
  revert l. induction j as [|j IH]; intro l; [rewrite Nat.add_0_r; reflexivity|].
  rewrite Nat.add_succ_r. destruct l; cbn; [now destruct i|apply IH].
Qed.

Lemma slice_split {A} i j (l : list A) : i <= j -> l = firstn i l ++ slice i j l ++ skipn j l.
Proof.
  intro H. unfold slice. rewrite <- (firstn_skipn i l) at 1. f_equal.
  rewrite <- (firstn_skipn (j - i) (skipn i l)) at 1. f_equal.
  rewrite skipn_plus. f_equal. lia.
Qed.

Lemma in_skipn_le {A} i j (l : list A) x : i <= j -> In x (skipn j l) -> In x (skipn i l).
Proof.
  intros H I. replace j with (j - i + i) in I by lia. rewrite <- skipn_plus in I.
  rewrite <- (firstn_skipn (j - i) (skipn i l)). apply in_or_app. auto.
Qed.

Lemma in_skipn_in {A} i (l : list A) x : In x (skipn i l) -> In x l.
Proof. intro I. apply (in_skipn_le 0 i) in I; [exact I|lia]. Qed.

Lemma in_firstn_in {A} i (l : list A) x : In x (firstn i l) -> In x l.
Proof. intro I. rewrite <- (firstn_skipn i l). apply in_or_app. auto. Qed.

Lemma nth_slice {A} i j (l : list A) x : In x (slice i j l) -> exists k, i <= k < j /\ nth_error l k = Some x.
Proof.
  unfold slice. intro I. apply In_nth_error in I. destruct I as [n I].
  assert (n < j - i).
  { apply Nat.lt_le_trans with (length (firstn (j - i) (skipn i l))); [apply nth_error_Some; congruence|].
    rewrite firstn_length. lia. }
  exists (i + n). split; [lia|].
  assert (E : forall m (u : list A), n < m -> nth_error (firstn m u) n = nth_error u n).
  { clear. induction n as [|n IH]; intros [|m] [|y u] H; cbn; auto; try lia. apply IH. lia. }
  rewrite E in I by auto. rewrite <- I.
  clear. revert l. induction i as [|i IH]; intro l; cbn; auto. destruct l; cbn; auto. now destruct n.
Qed.

Lemma nth_firstn_in {A} i k (l : list A) x : k < i -> nth_error l k = Some x -> In x (firstn i l).
Proof.
  revert k l. induction i as [|i IH]; intros k l H N; [lia|]. destruct l as [|y l]; [destruct k; discriminate|].
  destruct k; cbn in *; [left; congruence|right; eapply IH; [|eauto]; lia].
Qed.

Lemma nth_skipn_in {A} i k (l : list A) x : i <= k -> nth_error l k = Some x -> In x (skipn i l).
Proof.
  revert k l. induction i as [|i IH]; intros k l H N; [eapply nth_error_In; eauto|].
  destruct l as [|y l]; [destruct k; discriminate|]. destruct k; [lia|]. cbn in *. eapply IH; [|eauto]. lia.
Qed.

Lemma skipn_in_nth {A} i (l : list A) x : In x (skipn i l) -> exists k, i <= k /\ nth_error l k = Some x.
Proof.
  intro I. apply In_nth_error in I. destruct I as [n I]. exists (i + n). split; [lia|].
  rewrite <- I. clear. revert l. induction i as [|i IH]; intro l; cbn; auto. destruct l; cbn; auto. now destruct n.
Qed.

Lemma ordered_lt l i j c d : ordered l -> nth_error l i = Some c -> nth_error l j = Some d -> i < j ->
  (snd c <= fst d)%Qc.
Proof.
  intros O N1 N2 L. destruct (ordered_is_after _ O) as [lo Oa].
  rewrite <- (firstn_skipn j l) in Oa. apply ordered_after_app in Oa. destruct Oa as (_ & H & _).
  apply H; [eapply nth_firstn_in; eauto|eapply nth_skipn_in; [|eauto]; lia].
Qed.

Lemma nth_last {A} (l : list A) d : l <> [] -> nth_error l (length l - 1) = Some (last l d).
Proof.
  intro N. destruct (exists_last N) as (m & x & ->). rewrite last_last, app_length. cbn.
  rewrite nth_error_app2 by lia. replace (length m + 1 - 1 - length m) with 0 by lia. reflexivity.
Qed.

Theorem subset_those ax a b start stop :
  axis_cells (regular ax) (cells ax) -> tiles a b (cells ax) ->
  (exists m, m <> [] /\ those (meets start stop) (cells ax) m (fst (subset ax start stop)) /\
             snd (subset ax start stop) = Axis (regular ax) m) \/
  (Forall (fun c => ~ meets start stop c) (cells ax) /\ snd (subset ax start stop) = default_axis).
Proof.
  intros S T. pose proof S as (N & O & _). unfold subset.
  set (l := cells ax) in *.
  pose proof (tiles_start _ _ _ T N) as Es. pose proof (tiles_end _ _ _ T N) as Ee.
  rewrite Es, Ee.
  assert (Ln : 0 < length l) by (destruct l; [congruence|cbn; lia]).
  set (k1 := if qltb a start then fst (find l start true 0) else 0).
  assert (K1 : (forall c, In c (firstn k1 l) -> (snd c <= start)%Qc) /\
               (forall c, In c (skipn k1 l) -> (start < snd c)%Qc) /\ k1 <= length l).
  { unfold k1. destruct (qltb_spec a start) as [H|H].
    - destruct (find_found l start true 0 O) as (F1 & F2 & F3 & _). repeat split; auto.
      intros c Hc. apply Qcnot_le_lt. apply (F2 c Hc).
    - apply Qcnot_lt_le in H. cbn. repeat split; [tauto| |lia]. intros c Hc.
      destruct (tiles_in _ _ _ _ T Hc) as (H1 & H2 & _). qclra. }
  clearbody k1. destruct K1 as (A1 & A2 & A3).
  assert (Fin : forall k2, k2 < length l ->
     (forall k c, k <= k2 -> nth_error l k = Some c -> (fst c < stop)%Qc) ->
     (forall k c, k2 < k -> nth_error l k = Some c -> (stop <= fst c)%Qc) ->
     (exists m, m <> [] /\ those (meets start stop) l m k1 /\
             subset_index ax k1 k2 = Axis (regular ax) m) \/
     (Forall (fun c => ~ meets start stop c) l /\ subset_index ax k1 k2 = default_axis)).
  { intros k2 L2 B1 B2. destruct (le_lt_dec k1 k2) as [L|L].
    - left. exists (slice k1 (Datatypes.S k2) l). split; [|split].
      + intro E. apply (f_equal (@length _)) in E. unfold slice in E. rewrite firstn_length, skipn_length in E. cbn [length] in E. lia.
      + exists (firstn k1 l), (skipn (Datatypes.S k2) l). rewrite !Forall_forall. repeat split.
        * apply slice_split. lia.
        * rewrite firstn_length. lia.
        * apply nth_slice in H. destruct H as (k & Hk & H). apply A2. eapply nth_skipn_in; [|eauto]. lia.
        * apply nth_slice in H. destruct H as (k & Hk & H). eapply B1; [|eauto]. lia.
        * intros c Hc [M _]. specialize (A1 _ Hc). qclra.
        * intros c Hc [_ M]. apply skipn_in_nth in Hc. destruct Hc as (k & Hk & Hc).
          assert (stop <= fst c)%Qc by (eapply B2; [|eauto]; lia). qclra.
      + apply subset_index_cells; auto.
    - right. split.
      + rewrite Forall_forall. intros c Hc [M1 M2]. apply In_nth_error in Hc. destruct Hc as [k Hc].
        destruct (le_lt_dec k k2) as [X|X].
        * assert (snd c <= start)%Qc by (apply A1; eapply nth_firstn_in; [|eauto]; lia). qclra.
        * assert (stop <= fst c)%Qc by (eapply B2; [|eauto]; lia). qclra.
      + unfold subset_index. fold l. rewrite Nat.min_l by lia. destruct (Nat.ltb_spec k2 k1); [auto|lia]. }
  destruct (qltb_spec stop b) as [H|H].
  - destruct (find_found l stop false 0 O) as (F1 & F2 & F3 & F4).
    destruct (find l stop false 0) as [k2 f]. cbn [fst snd] in *.
    assert (L2 : k2 < length l).
    { destruct (le_lt_dec (length l) k2) as [X|X]; auto. exfalso.
      specialize (F1 (last l (0, 0)%Qc)). rewrite firstn_all2 in F1 by auto.
      assert (In (last l (0, 0)%Qc) l) by (eapply nth_error_In, nth_last; auto).
      specialize (F1 H0). unfold left_of in F1. change (snd (last l (0, 0)%Qc)) with (end_of l) in F1.
      rewrite Ee in F1. qclra. }
    destruct (nth_error l k2) as [c2|] eqn:E2; [|apply nth_error_None in E2; lia].
    assert (U2 : (stop <= snd c2)%Qc).
    { apply Qcnot_lt_le. apply (F2 c2). eapply nth_skipn_in; [|eauto]; lia. }
    destruct ((k2 =? 0) && negb f) eqn:Z.
    + apply andb_true_iff in Z. destruct Z as [Z1 Z2]. apply Nat.eqb_eq in Z1. subst k2.
      destruct f; [discriminate|]. right. split.
      * rewrite Forall_forall. intros c Hc [M1 M2].
        destruct l as [|[s e] l0]; [congruence|]. destruct T as (-> & T1 & T2). cbn in E2. inversion E2; subst c2. cbn in U2.
        assert (D : ~ inside false stop (a, e)) by (apply F4; left; auto).
        unfold inside in D. cbn [fst snd] in D.
        assert (stop <= a)%Qc by (apply Qcnot_lt_le; intro; apply D; auto).
        assert (ordered_after a ((a, e) :: l0)) by (cbn; repeat split; auto; [apply Qcle_refl|eapply tiles_after; eauto]).
        destruct (ordered_after_in _ _ _ H1 Hc). qclra.
      * unfold subset_index. reflexivity.
    + assert (F : f = true).
      { destruct f; auto. exfalso. cbn in Z. rewrite andb_true_r in Z. apply Nat.eqb_neq in Z.
        destruct (nth_error l (k2 - 1)) as [c1|] eqn:E1; [|apply nth_error_None in E1; lia].
        assert (snd c1 = fst c2) by (eapply tiles_step; eauto; replace (Datatypes.S (k2 - 1)) with k2 by lia; auto).
        apply (F4 c2); [eapply nth_error_In; eauto|]. unfold inside. split; auto.
        rewrite <- H0. apply (F1 c1). eapply nth_firstn_in; [|eauto]; lia. }
      subst f. destruct F4 as (c & E & I). injection E as <-.
      apply Fin; auto.
      * intros k c Hk Hc. destruct I as [I1 I2].
        destruct (Nat.eq_dec k k2) as [->|X]; [congruence|].
        assert (snd c <= fst c2)%Qc by (eapply ordered_lt; eauto; lia).
        assert (In c l) by (eapply nth_error_In; eauto). destruct (tiles_in _ _ _ _ T H1) as (_ & W & _). qclra.
      * intros k c Hk Hc. assert (snd c2 <= fst c)%Qc by (eapply ordered_lt; eauto). qclra.
  - apply Qcnot_lt_le in H. apply Fin.
    + lia.
    + intros k c _ Hc. assert (In c l) by (eapply nth_error_In; eauto).
      destruct (tiles_in _ _ _ _ T H0) as (_ & W1 & W2). qclra.
    + intros k c Hk Hc. assert (k < length l) by (apply nth_error_Some; congruence). lia.
Qed.

Lemma regular_cells_nth s w n i : i < n ->
  nth_error (regular_cells s w n) i = Some (s + qn i * w, s + qn (S i) * w)%Qc.
Proof.
  revert s n. induction i as [|i IH]; intros s n H; (destruct n as [|n]; [lia|]); cbn [regular_cells nth_error].
  - rewrite qn_S, qn_0. f_equal. f_equal; ring.
  - rewrite IH by lia. rewrite !qn_S. f_equal. f_equal; ring.
Qed.

Lemma ceil_bounds n f : 0 < f -> n <= (n + f - 1) / f * f < n + f.
Proof.
  intro F. pose proof (Nat.div_mod (n + f - 1) f ltac:(lia)). pose proof (Nat.mod_upper_bound (n + f - 1) f ltac:(lia)).
  set (q := (n + f - 1) / f) in *. rewrite (Nat.mul_comm q f). lia.
Qed.

Lemma compress_ordered_joined l f : 0 < f -> joined f l (cells (compress_ordered l f)).
Proof.
  intro F. unfold compress_ordered, joined. cbn [cells]. rewrite map_length, seq_length.
  pose proof (ceil_bounds (length l) f F) as B. split; [exact B|].
  intros i c H. set (cnt := (length l + f - 1) / f) in *.
  assert (L : i < cnt).
  { rewrite nth_error_map in H. destruct (nth_error (seq 0 cnt) i) eqn:X; [|discriminate].
    rewrite <- (seq_length cnt 0). apply nth_error_Some. congruence. }
  rewrite nth_error_map in H.
  assert (E : nth_error (seq 0 cnt) i = Some i).
  { rewrite (nth_error_nth' _ 0) by (rewrite seq_length; auto). rewrite seq_nth by auto. reflexivity. }
  rewrite E in H. cbn [option_map] in H. injection H as <-.
  assert (X : i * f < length l) by (assert ((i + 1) * f <= cnt * f) by (apply Nat.mul_le_mono_r; lia); lia).
  exists (nth (i * f) l (0, 0)%Qc), (nth (Nat.min (i * f + f) (length l) - 1) l (0, 0)%Qc).
  split; [apply nth_error_nth'; auto|]. split; [apply nth_error_nth'; lia|].
  set (p := nth (i * f) l (0, 0)%Qc). set (q := nth _ l (0, 0)%Qc).
  replace (half * (snd q + fst p))%Qc with (center (fst p, snd q)) by (unfold center; cbn [fst snd]; ring).
  change (snd q - fst p)%Qc with (width (fst p, snd q)). apply around_center.
Qed.

Lemma compress_regular_joined a b w l f : 0 < f -> l <> [] -> tiles a b l -> wide w l ->
  joined f l (cells (compress_regular l f)).
Proof.
  intros F N T W. unfold compress_regular. rewrite (wide_hd w), (tiles_start a b) by auto.
  pose proof (regular_cells_eq _ _ _ _ T W) as E. set (n := length l) in *.
  assert (NT : forall i, i < n -> nth_error l i = Some (a + qn i * w, a + qn (S i) * w)%Qc)
    by (intros i Hi; rewrite E; apply regular_cells_nth; auto).
  pose proof (Nat.div_mod n f ltac:(lia)) as DM. pose proof (Nat.mod_upper_bound n f ltac:(lia)) as MB.
  set (q := n / f) in *. set (r := n mod f) in *.
  destruct (Nat.eqb_spec r 0) as [R|R]; unfold joined; fold n.
  - unfold regular_axis. cbn [cells]. rewrite regular_cells_length. split; [rewrite (Nat.mul_comm q f); lia|].
    intros i c H.
    assert (L : i < q) by (rewrite <- (regular_cells_length a (w * qn f)%Qc q); apply nth_error_Some; congruence).
    rewrite regular_cells_nth in H by auto. injection H as <-.
    assert (X : (i + 1) * f <= q * f) by (apply Nat.mul_le_mono_r; lia).
    rewrite (Nat.mul_comm f q) in DM.
    rewrite (NT (i * f)), (NT (Nat.min (i * f + f) n - 1)) by lia.
    eexists; eexists. split; [reflexivity|]. split; [reflexivity|]. cbn [fst snd].
    replace (S (Nat.min (i * f + f) n - 1)) with (S i * f) by lia.
    rewrite !qn_mult. f_equal; ring.
  - cbn [cells]. rewrite app_length, map_length, seq_length. cbn [length].
    rewrite (Nat.mul_comm f q) in DM. split; [rewrite Nat.mul_add_distr_r; lia|].
    intros i c H. destruct (lt_dec i q) as [L|L].
    + rewrite nth_error_app1 in H by (rewrite map_length, seq_length; auto).
      rewrite nth_error_map in H.
      assert (Ei : nth_error (seq 0 q) i = Some i).
      { rewrite (nth_error_nth' _ 0) by (rewrite seq_length; auto). rewrite seq_nth by auto. reflexivity. }
      rewrite Ei in H. cbn [option_map] in H. injection H as <-.
      assert (X : (i + 1) * f <= q * f) by (apply Nat.mul_le_mono_r; lia).
      rewrite (NT (i * f)), (NT (Nat.min (i * f + f) n - 1)) by lia.
      eexists; eexists. split; [reflexivity|]. split; [reflexivity|]. cbn [fst snd].
      replace (S (Nat.min (i * f + f) n - 1)) with (S i * f) by lia.
      rewrite !qn_mult, qn_S. unfold around.
      assert (Z : (a + (qn i + half) * qn f * w - qn f * w * half = a + qn i * qn f * w)%Qc) by ring.
      rewrite Z. f_equal. ring.
    + rewrite nth_error_app2 in H by (rewrite map_length, seq_length; lia).
      rewrite map_length, seq_length in H.
      destruct (i - q) as [|z] eqn:Z; [|destruct z; discriminate]. assert (i = q) by lia. subst i.
      cbn [nth_error] in H. injection H as <-.
      replace (n - r) with (q * f) by lia.
      assert (X : q * f < n) by lia.
      rewrite (nth_error_nth l _ _ (NT _ X)).
      rewrite (NT (q * f)), (NT (Nat.min (q * f + f) n - 1)) by lia.
      eexists; eexists. split; [reflexivity|]. split; [reflexivity|]. cbn [fst snd].
      replace (S (Nat.min (q * f + f) n - 1)) with (q * f + r) by lia.
      rewrite qn_plus, !qn_mult. unfold around.
      assert (Y : (a + qn q * qn f * w + half * qn r * w - qn r * w * half = a + qn q * qn f * w)%Qc) by ring.
      rewrite Y. f_equal. ring.
Qed.

Lemma ordered_of_nth l :
  (forall i c, nth_error l i = Some c -> (fst c < snd c)%Qc) ->
  (forall i c d, nth_error l i = Some c -> nth_error l (S i) = Some d -> (snd c <= fst d)%Qc) ->
  ordered l.
Proof.
  intros A B. destruct l as [|[s e] l]; cbn; auto. split; [apply (A 0 (s, e)); auto|].
  assert (G : forall l0 lo,
    (forall i c, nth_error l0 i = Some c -> (fst c < snd c)%Qc) ->
    (forall i c d, nth_error l0 i = Some c -> nth_error l0 (S i) = Some d -> (snd c <= fst d)%Qc) ->
    (forall c, nth_error l0 0 = Some c -> (lo <= fst c)%Qc) -> ordered_after lo l0).
  { clear. induction l0 as [|[s e] l0 IH]; cbn; auto. intros lo A B C. repeat split.
    - apply (C (s, e)); auto. - apply (A 0 (s, e)); auto.
    - apply IH.
      + intros i c H. apply (A (S i)). auto.
      + intros i c d H1 H2. apply (B (S i)); auto.
      + intros c H. apply (B 0 (s, e) c); auto. }
  apply G.
  - intros i c H. apply (A (S i)). auto.
  - intros i c d H1 H2. apply (B (S i)); auto.
  - intros c H. apply (B 0 (s, e) c); auto.
Qed.

Lemma ordered_wide l i c : ordered l -> nth_error l i = Some c -> (fst c < snd c)%Qc.
Proof.
  intros O H. destruct (ordered_is_after _ O) as [lo Oa].
  apply nth_error_In in H. apply (ordered_after_in _ _ _ Oa H).
Qed.

Lemma joined_ordered l r f : 0 < f -> l <> [] -> ordered l -> joined f l r -> ordered r /\ r <> [].
Proof.
  intros F N O (J1 & J2). assert (Ln : 0 < length l) by (destruct l; [congruence|cbn; lia]). split.
  - apply ordered_of_nth.
    + intros i c H. destruct (J2 _ _ H) as (p & q & P & Q & ->). cbn [fst snd].
      assert (i * f < length l) by (apply nth_error_Some; congruence).
      pose proof (ordered_wide _ _ _ O P). pose proof (ordered_wide _ _ _ O Q).
      destruct (Nat.eq_dec (i * f) (Nat.min (i * f + f) (length l) - 1)) as [E|E].
      * rewrite E in P. rewrite P in Q. injection Q as <-. auto.
      * assert (snd p <= fst q)%Qc by (eapply ordered_lt; [exact O|exact P|exact Q|lia]). qclra.
    + intros i c d H1 H2. destruct (J2 _ _ H1) as (p & q & P & Q & ->).
      destruct (J2 _ _ H2) as (p' & q' & P' & Q' & ->). cbn [fst snd].
      assert (S i * f < length l) by (apply nth_error_Some; congruence).
      eapply ordered_lt; [exact O|exact Q|exact P'|]. cbn [Nat.mul] in *. lia.
  - intros ->. cbn in J1. lia.
Qed.

Lemma make_axis_cells lo hi l : tiles lo hi l -> l <> [] ->
  cells (make_axis l) = l /\ axis_cells (regular (make_axis l)) l.
Proof.
  intros T N. unfold make_axis.
  destruct (forallb _ (tl l)) eqn:F.
  - assert (W : wide (width (hd (0, 0)%Qc l)) l).
    { destruct l as [|c l]; [congruence|]. cbn [hd tl] in *. rewrite forallb_forall in F.
      intros s e [->|H]; [reflexivity|]. specialize (F _ H).
      destruct (near_spec (width c) (width (s, e))) as [->|]; [reflexivity|discriminate]. }
    unfold regular_axis. cbn [cells regular].
    change (fst (hd (0, 0)%Qc l)) with (start_of l). rewrite (tiles_start _ _ _ T N).
    rewrite <- (regular_cells_eq _ _ _ _ T W). split; auto.
    split; [|split]; [auto|eapply tiles_ordered; eauto|]. intros _. do 3 eexists. eauto.
  - cbn [cells regular]. split; auto. split; [auto|]. split; [eapply tiles_ordered; eauto|discriminate].
Qed.

Definition agree (p q : list cell) (k nr : nat) : Prop :=
  forall i, i < nr -> exists c, nth_error p (k + i) = Some c /\ nth_error q i = Some c.

Lemma same_cells_ok a b s2 s1 nr : same_cells a b s2 s1 nr = Ok tt <->
  (forall i, i < nr -> exists c, nth_error a (s2 + i) = Some c /\ nth_error b (s1 + i) = Some c).
Proof.
  revert s2 s1. induction nr as [|nr IH]; intros s2 s1; cbn [same_cells].
  - split; auto. intros _ i Hi. lia.
  - unfold get, bind. split.
    + destruct (nth_error a s2) as [c1|] eqn:E1; [|discriminate].
      destruct (nth_error b s1) as [c2|] eqn:E2; [|discriminate].
      destruct (near_spec (fst c1) (fst c2)) as [F1|]; [|discriminate].
      destruct (near_spec (snd c1) (snd c2)) as [F2|]; [|discriminate]. cbn [andb].
      rewrite IH. intros H i Hi. destruct i as [|i].
      * rewrite !Nat.add_0_r. exists c1. split; auto. rewrite E2. f_equal. destruct c1, c2; cbn in *; congruence.
      * rewrite !Nat.add_succ_r. apply (H i). lia.
    + intro H. destruct (H 0 ltac:(lia)) as (c & E1 & E2). rewrite Nat.add_0_r in E1, E2.
      rewrite E1, E2. destruct (near_spec (fst c) (fst c)); [|congruence].
      destruct (near_spec (snd c) (snd c)); [|congruence]. cbn [andb]. apply IH.
      intros i Hi. destruct (H (S i) ltac:(lia)) as (d & D1 & D2).
      rewrite Nat.add_succ_r in D1, D2. exists d. auto.
Qed.

Lemma agree_slice p q k nr : agree p q k nr -> slice k (k + nr) p = firstn nr q /\ nr <= length q /\ k + nr <= length p \/ nr = 0.
Proof.
  destruct nr as [|nr]; [auto|]. intro A. left.
  assert (L : S nr <= length q /\ k + S nr <= length p).
  { destruct (A nr ltac:(lia)) as (c & C1 & C2).
    assert (nr < length q) by (apply nth_error_Some; congruence).
    assert (k + nr < length p) by (apply nth_error_Some; congruence). lia. }
  split; [|exact L]. unfold slice. replace (k + S nr - k) with (S nr) by lia.
  revert k q A L. induction nr as [|nr IH]; intros k q A L.
  - destruct (A 0 ltac:(lia)) as (c & C1 & C2). rewrite Nat.add_0_r in C1.
    destruct q as [|d q]; [discriminate|]. cbn in C2. injection C2 as ->.
    assert (HK : skipn k p = c :: skipn (S k) p).
    { clear - C1. revert k C1. induction p as [|y l IH]; intros [|n] N; cbn in *; try discriminate.
      - now inversion N. - apply IH; auto. }
    rewrite HK. reflexivity.
  - destruct (A 0 ltac:(lia)) as (c & C1 & C2). rewrite Nat.add_0_r in C1.
    destruct q as [|d q]; [discriminate|]. cbn in C2. injection C2 as ->.
    assert (HK : skipn k p = c :: skipn (S k) p).
    { clear - C1. revert k C1. induction p as [|y l IH]; intros [|n] N; cbn in *; try discriminate.
      - now inversion N. - apply IH; auto. }
    rewrite HK. cbn [firstn length] in *. f_equal. apply (IH (S k)); [|lia].
    intros i Hi. destruct (A (S i) ltac:(lia)) as (d & D1 & D2). rewrite Nat.add_succ_r in D1. exists d. auto.
Qed.

Lemma find_index l x k c : ordered l -> nth_error l k = Some c -> inside true x c -> find l x true 0 = (k, true).
Proof.
  intros O N (I1 & I2). destruct (find_found l x true 0 O) as (F1 & F2 & F3 & F4).
  destruct (find l x true 0) as [k' f]. cbn [fst snd] in *.
  assert (k' = k).
  { destruct (lt_eq_lt_dec k' k) as [[L|L]|L]; auto; exfalso.
    - destruct (nth_error l k') as [d|] eqn:E.
      2: { apply nth_error_None in E. assert (k < length l) by (apply nth_error_Some; congruence). lia. }
      assert (snd d <= fst c)%Qc by (eapply ordered_lt; eauto).
      apply (F2 d); [eapply nth_skipn_in; [|eauto]; lia|]. unfold left_of. qclra.
    - assert (X : left_of true x c) by (apply F1; eapply nth_firstn_in; eauto). unfold left_of in X. qclra. }
  subst k'. f_equal. destruct f; auto. exfalso. apply (F4 c); [eapply nth_error_In; eauto|]. split; auto.
Qed.

Lemma tiles_cover a b l x : tiles a b l -> (a <= x)%Qc -> (x < b)%Qc ->
  exists k c, nth_error l k = Some c /\ inside true x c.
Proof.
  revert a. induction l as [|[s e] l IH]; cbn [tiles]; intros a T H1 H2.
  - subst. exfalso. qclra.
  - destruct T as (-> & T1 & T2). destruct (Qclt_le_dec x e) as [L|L].
    + exists 0, (a, e). split; auto. split; auto.
    + destruct (IH _ T2 L H2) as (k & c & N & I). exists (S k), c. auto.
Qed.

Lemma inside_unique l x i j c d : ordered l -> nth_error l i = Some c -> nth_error l j = Some d ->
  inside true x c -> inside true x d -> i = j.
Proof.
  intros O N1 N2 I1 I2. pose proof (find_index _ _ _ _ O N1 I1). pose proof (find_index _ _ _ _ O N2 I2). congruence.
Qed.

Lemma center_in c : (fst c < snd c)%Qc -> inside true (center c) c.
Proof. intro H. destruct (center_inside c H). split; auto. qclra. Qed.

Lemma last_range a b l : tiles a b l -> l <> [] ->
  (a < center (last l (0, 0)%Qc))%Qc /\ (center (last l (0, 0)%Qc) < b)%Qc /\
  inside true (center (last l (0, 0)%Qc)) (last l (0, 0)%Qc).
Proof.
  intros T N. assert (I : In (last l (0, 0)%Qc) l) by (eapply nth_error_In, nth_last; auto).
  destruct (tiles_in _ _ _ _ T I) as (H1 & H2 & H3). destruct (center_inside _ H2).
  split; [qclra|]. split; [qclra|]. apply center_in; auto.
Qed.

Lemma inner_full p0 p1 q0 q1 p q k :
  tiles p0 p1 p -> tiles q0 q1 q -> q <> [] -> (p0 <= q0)%Qc -> (q1 <= p1)%Qc ->
  agree p q k (S (fst (find p (center (last q (0, 0)%Qc)) true 0) - k)) ->
  S (fst (find p (center (last q (0, 0)%Qc)) true 0) - k) = length q.
Proof.
  intros TP TQ N L0 L1. destruct (last_range _ _ _ TQ N) as (R1 & R2 & R3).
  set (x := center (last q (0, 0)%Qc)) in *.
  destruct (tiles_cover _ _ _ x TP ltac:(qclra) ltac:(qclra)) as (j & d & Nd & Id).
  pose proof (tiles_ordered _ _ _ TP) as OP. pose proof (tiles_ordered _ _ _ TQ) as OQ.
  rewrite (find_index _ _ _ _ OP Nd Id). cbn [fst]. intro A.
  assert (J : k <= j).
  { destruct (le_lt_dec k j); auto. exfalso. destruct (A 0 ltac:(lia)) as (c & C1 & C2). rewrite Nat.add_0_r in C1.
    assert (snd d <= fst c)%Qc by (eapply ordered_lt; [exact OP|exact Nd|exact C1|lia]).
    destruct Id as [_ Id]. destruct q as [|[s e] q]; [congruence|]. cbn in C2. injection C2 as <-.
    destruct TQ as (-> & _). cbn in H. qclra. }
  destruct (A (j - k) ltac:(lia)) as (c & C1 & C2). replace (k + (j - k)) with j in C1 by lia.
  assert (c = d) by congruence. subst c.
  assert (j - k = length q - 1).
  { eapply inside_unique; [exact OQ|exact C2|apply nth_last; auto|exact Id|exact R3]. }
  assert (length q <> 0) by (destruct q; cbn; congruence). lia.
Qed.

Lemma inner_tail p0 p1 q0 q1 p q k :
  tiles p0 p1 p -> tiles q0 q1 q -> p <> [] -> (p1 <= q1)%Qc ->
  agree p q k (S (fst (find q (center (last p (0, 0)%Qc)) true 0))) ->
  k + S (fst (find q (center (last p (0, 0)%Qc)) true 0)) = length p.
Proof.
  intros TP TQ N L1. destruct (last_range _ _ _ TP N) as (R1 & R2 & R3).
  set (x := center (last p (0, 0)%Qc)) in *.
  pose proof (tiles_ordered _ _ _ TP) as OP. pose proof (tiles_ordered _ _ _ TQ) as OQ. intro A.
  assert (Lp : length p <> 0) by (destruct p; cbn; congruence).
  assert (X : (q0 <= x)%Qc).
  { destruct (A 0 ltac:(lia)) as (c & C1 & C2). rewrite Nat.add_0_r in C1.
    assert (fst c = q0).
    { destruct q as [|[s e] q]; [discriminate|]. cbn in C2. injection C2 as <-. destruct TQ as (-> & _). reflexivity. }
    assert (k < length p) by (apply nth_error_Some; congruence).
    destruct (Nat.eq_dec k (length p - 1)) as [E|E].
    - subst k. rewrite (nth_last p (0, 0)%Qc) in C1 by auto. injection C1 as E. rewrite E in R3. destruct R3 as [R3 _]. congruence.
    - assert (snd c <= fst (last p (0, 0)%Qc))%Qc by (eapply ordered_lt; [exact OP|exact C1|apply nth_last; auto|lia]).
      pose proof (ordered_wide _ _ _ OP C1). destruct R3 as [R3 _]. qclra. }
  destruct (tiles_cover _ _ _ x TQ ltac:(qclra) ltac:(qclra)) as (j & d & Nd & Id).
  rewrite (find_index _ _ _ _ OQ Nd Id) in *. cbn [fst] in *.
  destruct (A j ltac:(lia)) as (c & C1 & C2). assert (c = d) by congruence. subst c.
  assert (k + j = length p - 1).
  { eapply inside_unique; [exact OP|exact C1|apply nth_last; auto|exact Id|exact R3]. }
  lia.
Qed.

Lemma slice_all {A} (l : list A) : slice 0 (length l) l = l.
Proof. unfold slice. cbn. rewrite Nat.sub_0_r. apply firstn_all. Qed.

Lemma slice_app1 {A} (l m : list A) : slice 0 (length l) (l ++ m) = l.
Proof. unfold slice. cbn. rewrite Nat.sub_0_r, firstn_app, Nat.sub_diag, firstn_all. cbn. apply app_nil_r. Qed.

Lemma slice_app2 {A} (l m : list A) : slice (length l) (length l + length m) (l ++ m) = m.
Proof.
  unfold slice. rewrite skipn_app, skipn_all, Nat.sub_diag. cbn.
  replace (length l + length m - length l) with (length m) by lia. apply firstn_all.
Qed.

(** What combine has to give, for this axis a and that axis b. *)
Definition union (a b : list cell) (u : axis) (r1 r2 : nat * nat) : Prop :=
  (exists lo hi, tiles lo hi (cells u)) /\ axis_cells (regular u) (cells u) /\
  slice (fst r1) (snd r1) (cells u) = a /\ slice (fst r2) (snd r2) (cells u) = b /\
  snd r1 = fst r1 + length a /\ snd r2 = fst r2 + length b /\
  Nat.min (fst r1) (fst r2) = 0 /\ Nat.max (snd r1) (snd r2) = length (cells u) /\
  (forall c, In c (cells u) -> In c a \/ In c b \/ c = (end_of a, start_of b) \/ c = (end_of b, start_of a)).

Lemma union_sym a b u r1 r2 : union a b u r1 r2 -> union b a u r2 r1.
Proof.
  intros (H1 & H2 & H3 & H4 & H5 & H6 & H7 & H8 & H9).
  split; [exact H1|]. split; [exact H2|]. split; [exact H4|]. split; [exact H3|].
  split; [exact H6|]. split; [exact H5|]. split; [rewrite Nat.min_comm; exact H7|].
  split; [rewrite Nat.max_comm; exact H8|].
  intros c Hc. destruct (H9 c Hc) as [X|[X|[X|X]]]; tauto.
Qed.

Lemma add_union a0 a1 b0 b1 a b : tiles a0 a1 a -> tiles b0 b1 b -> a <> [] -> b <> [] -> (a1 <= b0)%Qc ->
  union a b (add a b) (0, length a) (length (cells (add a b)) - length b, length (cells (add a b))).
Proof.
  intros TA TB NA NB L. unfold add. rewrite (tiles_end _ _ _ TA NA), (tiles_start _ _ _ TB NB).
  set (h := if near a1 b0 then [] else [(a1, b0)]).
  assert (TH : tiles a1 b0 h).
  { unfold h. destruct (near_spec a1 b0) as [->|X]; cbn; auto. repeat split; auto.
    destruct (Qcle_lt_or_eq _ _ L); auto. congruence. }
  assert (T : tiles a0 b1 (a ++ h ++ b)).
  { apply tiles_app. exists a1. split; auto. apply tiles_app. exists b0. auto. }
  assert (N : a ++ h ++ b <> []) by (destruct a; cbn; congruence).
  destruct (make_axis_cells _ _ _ T N) as [E AX]. unfold union. rewrite E.
  rewrite !app_length. cbn [fst snd]. split; [eauto|]. split; auto.
  split; [apply slice_app1|].
  replace (length a + (length h + length b) - length b) with (length (a ++ h)) by (rewrite app_length; lia).
  split.
  { rewrite app_assoc. replace (length a + (length h + length b)) with (length (a ++ h) + length b) by (rewrite app_length; lia).
    apply slice_app2. }
  rewrite app_length. repeat split; try lia.
  intros c Hc. rewrite !in_app_iff in Hc. destruct Hc as [Hc|[Hc|Hc]]; auto.
  right. right. left. rewrite (tiles_end _ _ _ TA NA), (tiles_start _ _ _ TB NB).
  unfold h in Hc. destruct (near a1 b0); cbn in Hc; [tauto|]. destruct Hc as [<-|[]]. reflexivity.
Qed.

(** q lies in p from the cell k on. *)
Lemma cover_union a p0 p1 q k : tiles p0 p1 (cells a) -> axis_cells (regular a) (cells a) ->
  q <> [] -> agree (cells a) q k (length q) -> union (cells a) q a (0, length (cells a)) (k, k + length q).
Proof.
  intros TP AX N A. destruct (agree_slice _ _ _ _ A) as [(E & L1 & L2)|X].
  2: { destruct q; cbn in X; congruence. }
  unfold union. cbn [fst snd]. rewrite E, firstn_all, slice_all.
  split; [exists p0, p1; exact TP|]. split; [exact AX|]. split; [reflexivity|]. split; [reflexivity|].
  split; [reflexivity|]. split; [reflexivity|]. split; [reflexivity|]. split; [lia|].
  intros c Hc. left. exact Hc.
Qed.

Lemma tail_union p0 p1 q0 q1 p q k nr : tiles p0 p1 p -> tiles q0 q1 q -> p <> [] -> q <> [] -> 0 < nr ->
  agree p q k nr -> k + nr = length p ->
  union p q (make_axis (firstn k p ++ q)) (0, length p) (k, k + length q).
Proof.
  intros TP TQ NP NQ Nr A L. destruct (agree_slice _ _ _ _ A) as [(E & L1 & L2)|X]; [|lia].
  assert (Lk : length (firstn k p) = k) by (rewrite firstn_length; lia).
  assert (EP : p = firstn k p ++ firstn nr q).
  { rewrite <- E. rewrite (slice_split k (k + nr) p) at 1 by lia. rewrite (skipn_all2 p) by lia. now rewrite app_nil_r. }
  assert (T : tiles p0 q1 (firstn k p ++ q)).
  { apply tiles_app. pose proof TP as TP'. rewrite EP in TP'. apply tiles_app in TP'. destruct TP' as (m & T1 & T2).
    exists m. split; auto. destruct q as [|[s e] q]; [congruence|]. destruct nr as [|nr]; [lia|]. cbn [firstn tiles] in T2.
    destruct T2 as (<- & _). destruct TQ as (-> & Q1 & Q2). cbn. auto. }
  assert (N : firstn k p ++ q <> []) by (destruct (firstn k p); cbn; congruence).
  destruct (make_axis_cells _ _ _ T N) as [EM AX]. unfold union. rewrite EM. cbn [fst snd].
  split; [eauto|]. split; auto. rewrite app_length, Lk.
  split.
  { rewrite EP at 3. rewrite <- L. unfold slice. cbn [skipn]. rewrite Nat.sub_0_r, firstn_app, Lk.
    rewrite firstn_all2 by (rewrite Lk; lia). f_equal. f_equal. lia. }
  split. { pose proof (slice_app2 (firstn k p) q) as Z. rewrite Lk in Z. exact Z. }
  repeat split; try lia.
  intros c Hc. apply in_app_or in Hc. destruct Hc as [Hc|Hc]; auto. apply in_firstn_in in Hc. auto.
Qed.

Lemma agree_sym_ok a b k nr : same_cells a b 0 k nr = Ok tt <-> agree b a k nr.
Proof.
  rewrite same_cells_ok. unfold agree. split; intros H i Hi; destruct (H i Hi) as (c & C1 & C2); exists c; auto.
Qed.

Lemma same_cells_bind a b s2 s1 nr {U} (f : unit -> outcome U) r :
  bind (same_cells a b s2 s1 nr) f = Ok r -> same_cells a b s2 s1 nr = Ok tt /\ f tt = Ok r.
Proof. destruct (same_cells a b s2 s1 nr) as [[]| |]; cbn; intro; try discriminate; auto. Qed.

Lemma combine_union a b a0 a1 b0 b1 u r1 r2 :
  axis_cells (regular a) (cells a) -> axis_cells (regular b) (cells b) ->
  tiles a0 a1 (cells a) -> tiles b0 b1 (cells b) ->
  combine a b = Ok (u, r1, r2) -> union (cells a) (cells b) u r1 r2.
Proof.
  intros XA XB TA TB. pose proof XA as (NA & OA & _). pose proof XB as (NB & OB & _).
  unfold combine.
  rewrite (tiles_start _ _ _ TA NA), (tiles_start _ _ _ TB NB), (tiles_end _ _ _ TA NA), (tiles_end _ _ _ TB NB).
  destruct (qleb_spec a1 b0) as [L|L1].
  { intros [= <- <- <-]. eapply add_union; eauto. }
  destruct (qleb_spec b1 a0) as [L|L2].
  { intros [= <- <- <-]. apply union_sym. eapply add_union; eauto. }
  apply Qcnot_le_lt in L1, L2.
  assert (LA : length (cells a) <> 0) by (destruct (cells a); cbn; congruence).
  assert (LB : length (cells b) <> 0) by (destruct (cells b); cbn; congruence).
  destruct (qltb_spec a0 b0) as [L|L].
  - set (k := fst (find (cells a) _ true 0)).
    destruct (qltb_spec b1 a1) as [M|M].
    + intro H. apply same_cells_bind in H. destruct H as [A H].
      rewrite same_cells_ok in A. change (agree (cells a) (cells b) k (S (fst (find (cells a) (center (last (cells b) (0, 0)%Qc)) true 0) - k))) in A.
      pose proof (inner_full _ _ _ _ _ _ _ TA TB NB ltac:(qclra) ltac:(qclra) A) as E.
      rewrite E in H, A. cbn [Nat.eqb andb] in H. rewrite Nat.eqb_refl in H. injection H as <- <- <-.
      eapply cover_union; eauto.
    + apply Qcnot_lt_le in M. rewrite Nat.sub_0_r. intro H. apply same_cells_bind in H. destruct H as [A H].
      rewrite same_cells_ok in A. set (nr := S (fst (find (cells b) (center (last (cells a) (0, 0)%Qc)) true 0))) in *.
      change (agree (cells a) (cells b) k nr) in A.
      pose proof (inner_tail _ _ _ _ _ _ _ TA TB NA M A) as E. fold nr in E.
      cbn [Nat.eqb andb] in H. destruct (Nat.eqb_spec nr (length (cells b))) as [F|F].
      { injection H as <- <- <-. rewrite F in *. eapply cover_union; eauto. }
      destruct ((k =? 0) && (nr =? length (cells a))) eqn:Z.
      { apply andb_true_iff in Z. destruct Z as [Z1 Z2]. apply Nat.eqb_eq in Z1, Z2. injection H as <- <- <-.
        rewrite Z1, Z2 in *. apply union_sym. eapply cover_union; eauto.
        intros i Hi. destruct (A i Hi) as (c & C1 & C2). exists c. auto. }
      injection H as <- <- <-. eapply (tail_union _ _ _ _ _ _ k nr); eauto. unfold nr. apply Nat.lt_0_succ.
  - apply Qcnot_lt_le in L. set (k := fst (find (cells b) _ true 0)).
    destruct (qltb_spec b1 a1) as [M|M].
    + rewrite Nat.sub_0_r. intro H. apply same_cells_bind in H. destruct H as [A H].
      apply agree_sym_ok in A. set (nr := S (fst (find (cells a) (center (last (cells b) (0, 0)%Qc)) true 0))) in *.
      pose proof (inner_tail _ _ _ _ _ _ _ TB TA NB ltac:(qclra) A) as E. fold nr in E.
      destruct ((k =? 0) && (nr =? length (cells b))) eqn:Z.
      { apply andb_true_iff in Z. destruct Z as [Z1 Z2]. apply Nat.eqb_eq in Z1, Z2. injection H as <- <- <-.
        rewrite Z1, Z2 in *. eapply cover_union; eauto.
        intros i Hi. destruct (A i Hi) as (c & C1 & C2). exists c. auto. }
      cbn [Nat.eqb andb] in H. destruct (Nat.eqb_spec nr (length (cells a))) as [F|F].
      { injection H as <- <- <-. rewrite F in *. apply union_sym. eapply cover_union; eauto. }
      destruct (Nat.eqb_spec k 0) as [K|K].
      { exfalso. rewrite K in *. cbn [andb] in Z. apply Nat.eqb_neq in Z. lia. }
      injection H as <- <- <-. apply union_sym. eapply (tail_union _ _ _ _ _ _ k nr); eauto. unfold nr. apply Nat.lt_0_succ.
    + apply Qcnot_lt_le in M. intro H. apply same_cells_bind in H. destruct H as [A H].
      apply agree_sym_ok in A.
      pose proof (inner_full _ _ _ _ _ _ _ TB TA NA L M A) as E. rewrite E in H, A.
      destruct ((k =? 0) && (length (cells a) =? length (cells b))) eqn:Z.
      { apply andb_true_iff in Z. destruct Z as [Z1 Z2]. apply Nat.eqb_eq in Z1, Z2. injection H as <- <- <-.
        rewrite Z1 in *.
        assert (G : union (cells a) (cells b) a (0, length (cells a)) (0, 0 + length (cells b))).
        { eapply cover_union; eauto.
          intros i Hi. rewrite <- Z2 in Hi. destruct (A i Hi) as (c & C1 & C2). exists c. auto. }
        rewrite <- Z2 in G. exact G. }
      cbn [Nat.eqb andb] in H. rewrite Nat.eqb_refl in H. injection H as <- <- <-.
      apply union_sym. eapply cover_union; eauto.
Qed.

(** Both axes are rows of one axis. *)
Definition compatible (a b : list cell) : Prop :=
  exists lo hi u i j, tiles lo hi u /\ slice i (i + length a) u = a /\ slice j (j + length b) u = b.

Lemma slice_nth {A} (u a : list A) i n : slice i (i + length a) u = a -> n < length a ->
  nth_error a n = nth_error u (i + n).
Proof.
  intros E L. rewrite <- E at 1. unfold slice. replace (i + length a - i) with (length a) by lia.
  assert (X : forall m (v : list A), n < m -> nth_error (firstn m v) n = nth_error v n).
  { clear. induction n as [|n IH]; intros [|m] [|y u] H; cbn; auto; try lia. apply IH. lia. }
  rewrite X by auto. clear. revert u. induction i as [|i IH]; intro u; cbn; auto. destruct u; cbn; auto. now destruct n.
Qed.

(** For axes that are rows of one axis, with q starting later than p or at the same place. *)
Lemma inner_ok lo hi u i j p q p0 p1 q0 q1 :
  tiles lo hi u -> slice i (i + length p) u = p -> slice j (j + length q) u = q ->
  tiles p0 p1 p -> tiles q0 q1 q -> p <> [] -> q <> [] -> (p0 <= q0)%Qc -> (q0 < p1)%Qc ->
  exists k, fst (find p (center (hd (0, 0)%Qc q)) true 0) = k /\
    ((q1 <= p1)%Qc -> agree p q k (S (fst (find p (center (last q (0, 0)%Qc)) true 0) - k))) /\
    ((p1 <= q1)%Qc -> agree p q k (S (fst (find q (center (last p (0, 0)%Qc)) true 0)))).
Proof.
  intros TU EP EQ TP TQ NP NQ L0 L1.
  pose proof (tiles_ordered _ _ _ TU) as OU. pose proof (tiles_ordered _ _ _ TP) as OP. pose proof (tiles_ordered _ _ _ TQ) as OQ.
  assert (Lp : 0 < length p) by (destruct p; cbn; [congruence|lia]).
  assert (Lq : 0 < length q) by (destruct q; cbn; [congruence|lia]).
  pose proof (fun n => slice_nth u p i n EP) as Pn. pose proof (fun n => slice_nth u q j n EQ) as Qn.
  destruct (nth_error p 0) as [cp|] eqn:P0; [|apply nth_error_None in P0; lia].
  destruct (nth_error q 0) as [cq|] eqn:Q0; [|apply nth_error_None in Q0; lia].
  assert (Fp : fst cp = p0) by (destruct p as [|[s e] p']; cbn in P0; [discriminate|]; injection P0 as <-; apply TP).
  assert (Fq : fst cq = q0) by (destruct q as [|[s e] q']; cbn in Q0; [discriminate|]; injection Q0 as <-; apply TQ).
  pose proof (nth_last p (0, 0)%Qc NP) as PL. pose proof (nth_last q (0, 0)%Qc NQ) as QL.
  assert (Up : nth_error u i = Some cp) by (specialize (Pn 0 Lp); rewrite Nat.add_0_r in Pn; congruence).
  assert (Uq : nth_error u j = Some cq) by (specialize (Qn 0 Lq); rewrite Nat.add_0_r in Qn; congruence).
  assert (UpL : nth_error u (i + (length p - 1)) = Some (last p (0, 0)%Qc)) by (rewrite <- Pn by lia; exact PL).
  assert (UqL : nth_error u (j + (length q - 1)) = Some (last q (0, 0)%Qc)) by (rewrite <- Qn by lia; exact QL).
  pose proof (tiles_end _ _ _ TP NP) as EP1. pose proof (tiles_end _ _ _ TQ NQ) as EQ1. unfold end_of in EP1, EQ1.
  pose proof (ordered_wide _ _ _ OU Up) as Wp. pose proof (ordered_wide _ _ _ OU Uq) as Wq.
  pose proof (ordered_wide _ _ _ OU UpL) as WpL. pose proof (ordered_wide _ _ _ OU UqL) as WqL.
  assert (IJ : i <= j).
  { destruct (le_lt_dec i j); auto. exfalso. pose proof (ordered_lt _ _ _ _ _ OU Uq Up l). qclra. }
  assert (JI : j <= i + (length p - 1)).
  { destruct (le_lt_dec j (i + (length p - 1))); auto. exfalso. pose proof (ordered_lt _ _ _ _ _ OU UpL Uq l). qclra. }
  assert (HQ : hd (0, 0)%Qc q = cq) by (destruct q; cbn in Q0; [discriminate|]; injection Q0 as ->; reflexivity).
  rewrite HQ.
  assert (FK : nth_error p (j - i) = Some cq) by (rewrite Pn by lia; replace (i + (j - i)) with j by lia; exact Uq).
  rewrite (find_index _ _ _ _ OP FK (center_in _ Wq)). cbn [fst]. exists (j - i). split; [reflexivity|]. split.
  - intro L2.
    assert (JL : j + (length q - 1) <= i + (length p - 1)).
    { destruct (le_lt_dec (j + (length q - 1)) (i + (length p - 1))); auto. exfalso.
      pose proof (ordered_lt _ _ _ _ _ OU UpL UqL l). qclra. }
    assert (FL : nth_error p (j - i + (length q - 1)) = Some (last q (0, 0)%Qc))
      by (rewrite Pn by lia; replace (i + (j - i + (length q - 1))) with (j + (length q - 1)) by lia; exact UqL).
    rewrite (find_index _ _ _ _ OP FL (center_in _ WqL)). cbn [fst].
    intros n Hn. destruct (nth_error q n) as [c|] eqn:En; [|apply nth_error_None in En; lia].
    exists c. split; auto. rewrite Pn by lia. replace (i + (j - i + n)) with (j + n) by lia. rewrite <- Qn by lia. exact En.
  - intro L2.
    assert (JL : i + (length p - 1) <= j + (length q - 1)).
    { destruct (le_lt_dec (i + (length p - 1)) (j + (length q - 1))); auto. exfalso.
      pose proof (ordered_lt _ _ _ _ _ OU UqL UpL l). qclra. }
    assert (FL : nth_error q (i + (length p - 1) - j) = Some (last p (0, 0)%Qc))
      by (rewrite Qn by lia; replace (j + (i + (length p - 1) - j)) with (i + (length p - 1)) by lia; exact UpL).
    rewrite (find_index _ _ _ _ OQ FL (center_in _ WpL)). cbn [fst].
    intros n Hn. destruct (nth_error q n) as [c|] eqn:En; [|apply nth_error_None in En; lia].
    exists c. split; auto. rewrite Pn by lia. replace (i + (j - i + n)) with (j + n) by lia. rewrite <- Qn by lia. exact En.
Qed.

Lemma combine_done a b a0 a1 b0 b1 :
  cells a <> [] -> cells b <> [] -> tiles a0 a1 (cells a) -> tiles b0 b1 (cells b) ->
  (compatible (cells a) (cells b) \/ (a1 <= b0)%Qc \/ (b1 <= a0)%Qc) ->
  exists u r1 r2, combine a b = Ok (u, r1, r2).
Proof.
  intros NA NB TA TB C. unfold combine.
  rewrite (tiles_start _ _ _ TA NA), (tiles_start _ _ _ TB NB), (tiles_end _ _ _ TA NA), (tiles_end _ _ _ TB NB).
  destruct (qleb_spec a1 b0) as [L|L1]; [eauto|].
  destruct (qleb_spec b1 a0) as [L|L2]; [eauto|].
  destruct C as [(lo & hi & u & i & j & TU & EA & EB)|[C|C]]; [|tauto|tauto].
  apply Qcnot_le_lt in L1, L2.
  assert (Fin : forall s1 s2 nr, same_cells (cells a) (cells b) s2 s1 nr = Ok tt ->
    exists u r1 r2,
    (let! _ := same_cells (cells a) (cells b) s2 s1 nr in
    if (s1 =? 0) && (nr =? length (cells b)) then Ok (a, (s1, length (cells a)), (s2, s2 + nr))
    else if (s2 =? 0) && (nr =? length (cells a)) then Ok (b, (s1, s1 + nr), (s2, length (cells b)))
    else if s1 =? 0 then
      Ok (make_axis (firstn s2 (cells a) ++ cells b), (s1, length (cells a)), (s2, s2 + length (cells b)))
    else
      Ok (make_axis (firstn s1 (cells b) ++ cells a), (s1, s1 + length (cells a)), (s2, length (cells b)))) = Ok (u, r1, r2)).
  { intros s1 s2 nr ->. cbn [bind].
    destruct ((s1 =? 0) && (nr =? length (cells b))); [eauto|].
    destruct ((s2 =? 0) && (nr =? length (cells a))); [eauto|]. destruct (s1 =? 0); eauto. }
  destruct (qltb_spec a0 b0) as [L|L].
  - destruct (inner_ok lo hi u i j _ _ _ _ _ _ TU EA EB TA TB NA NB ltac:(qclra) L1) as (k & K & A1 & A2).
    rewrite K. destruct (qltb_spec b1 a1) as [M|M]; apply Fin; apply same_cells_ok.
    + apply A1. qclra.
    + rewrite Nat.sub_0_r. apply A2. now apply Qcnot_lt_le.
  - apply Qcnot_lt_le in L.
    destruct (inner_ok lo hi u j i _ _ _ _ _ _ TU EB EA TB TA NB NA L L2) as (k & K & A1 & A2).
    rewrite K. destruct (qltb_spec b1 a1) as [M|M]; apply Fin; apply agree_sym_ok.
    + rewrite Nat.sub_0_r. apply A2. qclra.
    + apply A1. now apply Qcnot_lt_le.
Qed.

Lemma find_hint l x bias s : ordered l -> find l x bias s = find l x bias 0.
Proof.
  intro O. pose proof (find_found l x bias s O) as F. pose proof (find_found l x bias 0 O) as G.
  destruct (find l x bias s) as [k f], (find l x bias 0) as [k' f'].
  destruct F as (F1 & F2 & F3 & F4), G as (G1 & G2 & G3 & G4). cbn [fst snd] in *.
  assert (k = k').
  { destruct (lt_eq_lt_dec k k') as [[L|L]|L]; auto; exfalso.
    - destruct (nth_error l k) as [c|] eqn:E; [|apply nth_error_None in E; lia].
      apply (F2 c); [eapply nth_skipn_in; [|eauto]; lia|]. apply G1. eapply nth_firstn_in; eauto.
    - destruct (nth_error l k') as [c|] eqn:E; [|apply nth_error_None in E; lia].
      apply (G2 c); [eapply nth_skipn_in; [|eauto]; lia|]. apply F1. eapply nth_firstn_in; eauto. }
  subst k'. f_equal. destruct f, f'; auto; exfalso.
  - destruct F4 as (c & E & I). apply (G4 c); auto. eapply nth_error_In; eauto.
  - destruct G4 as (c & E & I). apply (F4 c); auto. eapply nth_error_In; eauto.
Qed.

Definition map_of (b : list cell) (c : cell) : nat := Nat.min (fst (find b (center c) true 0)) (length b - 1).

Lemma map_of_mapped b c : ordered b -> b <> [] -> mapped b (center c) (map_of b c).
Proof.
  intros O N. destruct (find_found b (center c) true 0 O) as (F1 & F2 & F3 & F4). unfold map_of.
  destruct (find b (center c) true 0) as [k f]. cbn [fst snd] in *.
  assert (L : 0 < length b) by (destruct b; cbn; [congruence|lia]).
  split; [lia|]. split.
  - intros i d Hi Hd. apply (F1 d). eapply nth_firstn_in; [|eauto]. lia.
  - intros i d Hi Hd. assert (i < length b) by (apply nth_error_Some; congruence).
    destruct (le_lt_dec k i) as [X|X]; [|lia]. left. apply Qcnot_le_lt. apply (F2 d). eapply nth_skipn_in; eauto.
Qed.

Definition jump (m : list nat) (x : nat) : bool := negb (nth (x - 1) m 0 =? nth x m 0).

Lemma mapping_fold b a : ordered b ->
  fold_left (map_step b) (List.combine (seq 0 (length a)) a) (0, [], [], []) =
  (last (map (map_of b) a) 0,
   filter (jump (map (map_of b) a)) (seq 1 (length a - 1)),
   map (map_of b) a,
   map (fun c => ((center c - fst (nth (map_of b c) b (0, 0)%Qc)) / width (nth (map_of b c) b (0, 0)%Qc))%Qc) a).
Proof.
  intro O. induction a as [|c a IH] using rev_ind; [reflexivity|].
  rewrite app_length. cbn [length]. rewrite seq_app. cbn [Nat.add seq].
  assert (EC : List.combine (seq 0 (length a) ++ [length a]) (a ++ [c]) =
          List.combine (seq 0 (length a)) a ++ [(length a, c)]).
  { clear. pose proof (seq_length (length a) 0) as L. revert L. generalize (seq 0 (length a)) as s. generalize (length a) at 2 3 as z.
    induction a as [|y a IH]; intros z s L; destruct s; cbn in *; try discriminate; auto. f_equal. apply IH. auto. }
  rewrite EC, fold_left_app, IH. cbn [fold_left]. unfold map_step. cbn [fst snd].
  rewrite (find_hint b (center c)) by auto. fold (map_of b c).
  rewrite !map_app. cbn [map]. rewrite last_last. f_equal. f_equal. f_equal.
  destruct (length a) as [|n] eqn:Ln.
  - destruct a; [|discriminate]. cbn. destruct (negb _); reflexivity.
  - replace (S n + 1 - 1) with (n + 1) by lia. replace (S n - 1) with n by lia.
    rewrite seq_app, filter_app. cbn [seq filter Nat.add].
    assert (X : filter (jump (map (map_of b) a)) (seq 1 n) = filter (jump (map (map_of b) a ++ [map_of b c])) (seq 1 n)).
    { apply filter_ext_in. intros x Hx. apply in_seq in Hx. unfold jump.
      rewrite !app_nth1 by (rewrite map_length; lia). reflexivity. }
    rewrite <- X.
    assert (Y : jump (map (map_of b) a ++ [map_of b c]) (S n) = negb (nth (S n - 1) (map (map_of b) a) 0 =? map_of b c)).
    { unfold jump. rewrite app_nth1 by (rewrite map_length; lia).
      rewrite app_nth2 by (rewrite map_length; lia). rewrite map_length, Ln, Nat.sub_diag. reflexivity. }
    rewrite Y.
    assert (LA : last (map (map_of b) a) 0 = nth (S n - 1) (map (map_of b) a) 0).
    { clear - Ln. destruct a as [|y a] using rev_ind; [discriminate|]. rewrite map_app. cbn [map]. rewrite last_last.
      rewrite app_length in Ln. cbn in Ln. rewrite app_nth2 by (rewrite map_length; lia). rewrite map_length.
      replace (S n - 1 - length a) with 0 by lia. reflexivity. }
    rewrite LA. rewrite (Nat.eqb_sym (map_of b c)). cbn [Nat.ltb Nat.leb]. rewrite andb_true_r.
    destruct (negb _); [reflexivity|now rewrite app_nil_r].
Qed.

Lemma filter_seq_sorted (f : nat -> bool) s n i j x y : i < j ->
  nth_error (filter f (seq s n)) i = Some x -> nth_error (filter f (seq s n)) j = Some y -> x < y.
Proof.
  revert s i j x y. induction n as [|n IH]; intros s i j x y Hij Hx Hy; cbn in *; [destruct i; discriminate|].
  destruct (f s); [|eapply IH; eauto].
  destruct j as [|j]; [lia|]. destruct i as [|i]; cbn in Hx, Hy; [|apply (IH (S s) i j); auto; lia].
  injection Hx as <-. apply nth_error_In in Hy. apply filter_In in Hy. destruct Hy as [Hy _]. apply in_seq in Hy. lia.
Qed.

Lemma borders_ok b a : borders_of (map (map_of b) a) (filter (jump (map (map_of b) a)) (seq 1 (length a - 1)) ++ [length a]) \/ a = [].
Proof.
  destruct a as [|c0 a0]; [auto|]. left. set (a := c0 :: a0).
  set (m := map (map_of b) a). assert (Lm : length m = length a) by (unfold m; apply map_length).
  split.
  - assert (G : forall l z, (forall x, In x l -> x < z) ->
      (forall i j x y, i < j -> nth_error l i = Some x -> nth_error l j = Some y -> x < y) ->
      forall i j x y, i < j -> nth_error (l ++ [z]) i = Some x -> nth_error (l ++ [z]) j = Some y -> x < y).
    { intros l z Lz Hl i j x y Hij Hx Hy.
      assert (j < length (l ++ [z])) by (apply nth_error_Some; congruence). rewrite app_length in H. cbn in H.
      rewrite nth_error_app1 in Hx by lia. destruct (lt_dec j (length l)) as [X|X].
      - rewrite nth_error_app1 in Hy by lia. eauto.
      - rewrite nth_error_app2 in Hy by lia. replace (j - length l) with 0 in Hy by lia. cbn in Hy. injection Hy as <-.
        apply Lz. eapply nth_error_In; eauto. }
    apply G.
    + intros x Hx. apply filter_In in Hx. destruct Hx as [Hx _]. apply in_seq in Hx. lia.
    + apply filter_seq_sorted.
  - intro x. rewrite in_app_iff, filter_In, in_seq, Lm. cbn [In].
    assert (J : 0 < x < length a -> (jump m x = true <-> nth_error m (x - 1) <> nth_error m x)).
    { intro Hx. unfold jump. rewrite (nth_error_nth' m 0), (nth_error_nth' m 0 (n := x)) by lia.
      destruct (Nat.eqb_spec (nth (x - 1) m 0) (nth x m 0)) as [E|E]; cbn [negb].
      - rewrite E. split; [discriminate|]. intro X. exfalso. apply X. reflexivity.
      - split; auto. intros _ [= X]. exact (E X). }
    assert (Hl : length a - 1 + 1 = length a) by (unfold a; cbn; lia). split.
    + intros [[H1 H2]|[H|[]]]; [right|left; auto]. split; [lia|]. apply J; auto; lia.
    + intros [H|[H1 H2]]; [right; left; auto|]. left. split; [lia|]. apply J; auto.
Qed.
