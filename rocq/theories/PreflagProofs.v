(** Proofs about the preflagger. *)
From Coq Require Import QArith Qcanon Qround List Bool Arith ZArith Ascii Lia Lqa FinFun.
From Verif Require Import QcUtil BdaExpandSpec BdaExpandProofs FlagExprModel FlagExprSpec FlagExprProofs PreflagModel PreflagSpec.
Import ListNotations.
Open Scope nat_scope.

Definition pair_dec (x y : nat * nat) : {x = y} + {x <> y}.
Proof. decide equality; apply Nat.eq_dec. Defined.

(** * Modes *)
Section Fold.
Variable act : nat -> nat -> bool -> option bool.

Definition gstep (s : fstate) (bc : nat * nat) : fstate :=
  let '(b, c) := bc in match act b c (fs_flags s b c 0) with Some v => fill_sample s b c v | None => s end.

Lemma gstep_other s bc b c p : (b, c) <> bc -> fs_flags (gstep s bc) b c p = fs_flags s b c p.
Proof.
  destruct bc as [b' c']. intros H. unfold gstep. destruct (act b' c' _); auto. cbn [fill_sample fs_flags].
  destruct (b =? b') eqn:E1, (c =? c') eqn:E2; cbn [andb]; auto.
  apply Nat.eqb_eq in E1, E2. congruence.
Qed.

Lemma gfold_flags : forall L s b c p, NoDup L ->
  fs_flags (fold_left gstep L s) b c p =
  if in_dec pair_dec (b, c) L then
    match act b c (fs_flags s b c 0) with Some v => v | None => fs_flags s b c p end
  else fs_flags s b c p.
Proof.
  induction L as [|x L IH]; intros s b c p ND; cbn [fold_left]; [reflexivity|].
  apply NoDup_cons_iff in ND as [Hx ND]. rewrite IH by exact ND.
  destruct (in_dec _ (b, c) L) as [Hi|Hi], (in_dec _ (b, c) (x :: L)) as [Hj|Hj]; cbn [In] in Hj.
  - rewrite !gstep_other by (intros <-; contradiction). reflexivity.
  - tauto.
  - destruct Hj as [->|]; [|tauto]. unfold gstep. destruct (act b c (fs_flags s b c 0)); auto.
    cbn [fill_sample fs_flags]. now rewrite !Nat.eqb_refl.
  - apply gstep_other. intros E. apply Hj. left. now symmetry.
Qed.

(** The counters. *)
Definition changes (s : fstate) (bc : nat * nat) : bool :=
  match act (fst bc) (snd bc) (fs_flags s (fst bc) (snd bc) 0) with Some _ => true | None => false end.

Lemma gfold_count : forall L s, NoDup L ->
  (forall b, fs_bl (fold_left gstep L s) b = fs_bl s b + length (filter (fun bc => (fst bc =? b) && changes s bc) L)) /\
  (forall c, fs_ch (fold_left gstep L s) c = fs_ch s c + length (filter (fun bc => (snd bc =? c) && changes s bc) L)).
Proof.
  induction L as [|x L IH]; intros s ND; cbn [fold_left filter length].
  - split; intros; now rewrite Nat.add_0_r.
  - apply NoDup_cons_iff in ND as [Hx ND]. destruct (IH (gstep s x) ND) as [H1 H2].
    assert (Hc : forall y, In y L -> changes (gstep s x) y = changes s y).
    { intros [b c] Hy. unfold changes. cbn [fst snd]. rewrite gstep_other; auto. intros E. rewrite E in Hy. contradiction. }
    assert (Hf : forall (g : nat * nat -> bool), filter (fun bc => g bc && changes (gstep s x) bc) L = filter (fun bc => g bc && changes s bc) L).
    { intros g. apply filter_ext_in. intros y Hy. now rewrite Hc. }
    split; intros i; [rewrite H1, Hf|rewrite H2, Hf]; destruct x as [b c]; unfold gstep; unfold changes at 2; cbn [fst snd];
      destruct (act b c (fs_flags s b c 0)) as [v|]; cbn [fill_sample fs_bl fs_ch]; unfold incr; rewrite ?andb_false_r, ?andb_true_r; auto.
    + rewrite (Nat.eqb_sym i b). destruct (b =? i) eqn:E; cbn [length]; lia.
    + rewrite (Nat.eqb_sym i c). destruct (c =? i) eqn:E; cbn [length]; lia.
Qed.
End Fold.

Definition set_act (inp : nat -> nat -> bool) (mode : bool) (b c : nat) (f0 : bool) : option bool :=
  if Bool.eqb (inp b c) mode && negb f0 then Some true else None.
Definition clear_act (ncorr : nat) (inp : nat -> nat -> bool) (mode : bool) (bad : nat -> nat -> nat -> bool) (b c : nat) (f0 : bool) : option bool :=
  if Bool.eqb (inp b c) mode then
    let flag := existsb (bad b c) (seq 0 ncorr) in if negb (Bool.eqb f0 flag) then Some flag else None
  else None.

Lemma set_sample_gstep inp mode s bc : set_sample inp mode s bc = gstep (set_act inp mode) s bc.
Proof. destruct bc as [b c]. unfold set_sample, gstep, set_act. destruct (Bool.eqb _ _ && _); reflexivity. Qed.
Lemma clear_sample_gstep ncorr inp mode bad s bc : clear_sample ncorr inp mode bad s bc = gstep (clear_act ncorr inp mode bad) s bc.
Proof. destruct bc as [b c]. unfold clear_sample, gstep, clear_act. destruct (Bool.eqb _ _); auto. cbn zeta. destruct (negb _); reflexivity. Qed.

Lemma fold_left_ext' {A B} (f g : A -> B -> A) l : (forall a b, f a b = g a b) -> forall a, fold_left f l a = fold_left g l a.
Proof. intros H. induction l; intros a'; cbn; auto. rewrite H. auto. Qed.

Lemma samples_In nbl nchan b c : In (b, c) (samples nbl nchan) <-> b < nbl /\ c < nchan.
Proof. unfold samples. rewrite in_prod_iff, !in_seq. lia. Qed.

Lemma NoDup_app' {A} (l m : list A) : NoDup l -> NoDup m -> (forall x, In x l -> In x m -> False) -> NoDup (l ++ m).
Proof.
  induction l as [|x l IH]; cbn [app]; auto. intros Hl Hm Hd. apply NoDup_cons_iff in Hl as [Hx Hl]. constructor.
  - rewrite in_app_iff. intros [|H]; [contradiction|]. apply (Hd x); cbn; auto.
  - apply IH; auto. intros y H1 H2. apply (Hd y); cbn; auto.
Qed.

Lemma NoDup_list_prod {A B} (l : list A) (m : list B) : NoDup l -> NoDup m -> NoDup (list_prod l m).
Proof.
  intros Hl Hm. induction l as [|x l IH]; cbn [list_prod]; [constructor|]. apply NoDup_cons_iff in Hl as [Hx Hl].
  apply NoDup_app'; auto.
  - apply Injective_map_NoDup; auto. intros a b H. congruence.
  - intros [a b] H1 H2. apply in_map_iff in H1 as (y & E & _). apply in_prod_iff in H2 as [H2 _]. congruence.
Qed.

Lemma samples_NoDup nbl nchan : NoDup (samples nbl nchan).
Proof. apply NoDup_list_prod; apply seq_NoDup. Qed.

(** Number of samples of one baseline or channel among all samples. *)
Lemma filter_prod_row (g : nat * nat -> bool) nbl nchan b : b < nbl ->
  length (filter (fun bc => (fst bc =? b) && g bc) (samples nbl nchan)) = length (filter (fun c => g (b, c)) (seq 0 nchan)).
Proof.
  unfold samples. intros Hb.
  assert (G : forall l, NoDup l -> length (filter (fun bc => (fst bc =? b) && g bc) (list_prod l (seq 0 nchan)))
            = if in_dec Nat.eq_dec b l then length (filter (fun c => g (b, c)) (seq 0 nchan)) else 0).
  { induction l as [|x l IH]; intros ND; cbn [list_prod]; [reflexivity|]. apply NoDup_cons_iff in ND as [Hx ND].
    rewrite filter_app, app_length, (IH ND).
    assert (E : length (filter (fun bc => (fst bc =? b) && g bc) (map (fun y => (x, y)) (seq 0 nchan))) = if x =? b then length (filter (fun c => g (b, c)) (seq 0 nchan)) else 0).
    { clear IH. destruct (x =? b) eqn:E.
      - apply Nat.eqb_eq in E as ->. induction (seq 0 nchan) as [|y r IHr]; cbn [map filter]; auto.
        cbn [fst]. rewrite Nat.eqb_refl. cbn [andb]. destruct (g (b, y)); cbn [length]; auto.
      - induction (seq 0 nchan) as [|y r IHr]; cbn [map filter]; auto. cbn [fst]. now rewrite E. }
    rewrite E. destruct (in_dec Nat.eq_dec b l) as [Hi|Hi], (in_dec Nat.eq_dec b (x :: l)) as [Hj|Hj]; cbn [In] in Hj.
    - destruct (x =? b) eqn:Ex; [apply Nat.eqb_eq in Ex as ->; contradiction|lia].
    - tauto.
    - destruct Hj as [->|]; [|tauto]. rewrite Nat.eqb_refl. lia.
    - destruct (x =? b) eqn:Ex; [apply Nat.eqb_eq in Ex as ->; tauto|lia]. }
  rewrite G by apply seq_NoDup. destruct (in_dec Nat.eq_dec b (seq 0 nbl)) as [|Hn]; auto. exfalso. apply Hn, in_seq. lia.
Qed.

Lemma filter_prod_col (g : nat * nat -> bool) nbl nchan c : c < nchan ->
  length (filter (fun bc => (snd bc =? c) && g bc) (samples nbl nchan)) = length (filter (fun b => g (b, c)) (seq 0 nbl)).
Proof.
  unfold samples. intros Hc. induction (seq 0 nbl) as [|x l IH]; cbn [list_prod]; [reflexivity|].
  rewrite filter_app, app_length, IH.
  assert (E : length (filter (fun bc => (snd bc =? c) && g bc) (map (fun y => (x, y)) (seq 0 nchan))) = if g (x, c) then 1 else 0).
  { assert (G : forall r, NoDup r -> length (filter (fun bc => (snd bc =? c) && g bc) (map (fun y => (x, y)) r)) = if in_dec Nat.eq_dec c r then (if g (x, c) then 1 else 0) else 0).
    { induction r as [|y r IHr]; intros ND; cbn [map filter]; [reflexivity|]. apply NoDup_cons_iff in ND as [Hy ND]. cbn [snd].
      destruct (y =? c) eqn:Ey; cbn [andb].
      - apply Nat.eqb_eq in Ey as ->. destruct (in_dec Nat.eq_dec c (c :: r)) as [_|Hn]; [|exfalso; apply Hn; now left].
        specialize (IHr ND). destruct (in_dec Nat.eq_dec c r); [contradiction|]. destruct (g (x, c)); cbn [length]; auto.
      - rewrite (IHr ND). apply Nat.eqb_neq in Ey. destruct (in_dec Nat.eq_dec c r) as [|Hn], (in_dec Nat.eq_dec c (y :: r)) as [|Hm]; auto; cbn [In] in *; tauto. }
    rewrite G by apply seq_NoDup. destruct (in_dec Nat.eq_dec c (seq 0 nchan)) as [|Hn]; auto. exfalso. apply Hn, in_seq. lia. }
  rewrite E. cbn [filter]. destruct (g (x, c)); reflexivity.
Qed.

Definition hit_of (m : pmode) (inp : bool) : bool := match m with SetFlag | ClearFlag => inp | SetComp | ClearComp => negb inp end.

Lemma eqb_true_r x : Bool.eqb x true = x. Proof. now destruct x. Qed.
Lemma eqb_false_r x : Bool.eqb x false = negb x. Proof. now destruct x. Qed.

Definition mode_act (ncorr : nat) (m : pmode) (inp : nat -> nat -> bool) (bad : nat -> nat -> nat -> bool) (b c : nat) (f0 : bool) : option bool :=
  match m with
  | SetFlag | SetComp => if hit_of m (inp b c) && negb f0 then Some true else None
  | ClearFlag | ClearComp => if hit_of m (inp b c) then
      let flag := existsb (bad b c) (seq 0 ncorr) in if negb (Bool.eqb f0 flag) then Some flag else None else None
  end.

Lemma apply_mode_fold nbl nchan ncorr m inp bad s :
  apply_mode nbl nchan ncorr m inp bad s = fold_left (gstep (mode_act ncorr m inp bad)) (samples nbl nchan) s.
Proof.
  destruct m; cbn [apply_mode]; apply fold_left_ext'; intros a [b c]; rewrite ?set_sample_gstep, ?clear_sample_gstep; unfold gstep, set_act, clear_act, mode_act, hit_of;
    rewrite ?eqb_true_r, ?eqb_false_r; reflexivity.
Qed.

Lemma apply_mode_flags nbl nchan ncorr m inp bad s b c p : b < nbl -> c < nchan ->
  fs_flags (apply_mode nbl nchan ncorr m inp bad s) b c p =
  match mode_act ncorr m inp bad b c (fs_flags s b c 0) with Some v => v | None => fs_flags s b c p end.
Proof.
  intros Hb Hc. rewrite apply_mode_fold, gfold_flags by apply samples_NoDup.
  destruct (in_dec pair_dec (b, c) (samples nbl nchan)) as [|Hn]; auto. exfalso. apply Hn, samples_In. auto.
Qed.

Lemma apply_mode_counts nbl nchan ncorr m inp bad s :
  let s' := apply_mode nbl nchan ncorr m inp bad s in
  let changed := fun b c => negb (Bool.eqb (fs_flags s b c 0) (fs_flags s' b c 0)) in
  (forall b, b < nbl -> fs_bl s' b = fs_bl s b + length (filter (changed b) (seq 0 nchan))) /\ (forall c, c < nchan -> fs_ch s' c = fs_ch s c + length (filter (fun b => changed b c) (seq 0 nbl))).
Proof.
  intros s' changed.
  assert (Hch : forall b c, b < nbl -> c < nchan -> changes (mode_act ncorr m inp bad) s (b, c) = changed b c).
  { intros b c Hb Hc. unfold changed, s'. rewrite apply_mode_flags by assumption. unfold changes. cbn [fst snd].
    destruct (mode_act ncorr m inp bad b c (fs_flags s b c 0)) as [v|] eqn:E.
    - destruct m; unfold mode_act in E; cbn zeta in E.
      + destruct (hit_of SetFlag (inp b c)), (fs_flags s b c 0); try discriminate; injection E as <-; reflexivity.
      + destruct (hit_of ClearFlag (inp b c)), (fs_flags s b c 0), (existsb (bad b c) (seq 0 ncorr)); try discriminate; injection E as <-; reflexivity.
      + destruct (hit_of SetComp (inp b c)), (fs_flags s b c 0); try discriminate; injection E as <-; reflexivity.
      + destruct (hit_of ClearComp (inp b c)), (fs_flags s b c 0), (existsb (bad b c) (seq 0 ncorr)); try discriminate; injection E as <-; reflexivity.
    - now rewrite eqb_reflx. }
  unfold s'. rewrite apply_mode_fold.
  destruct (gfold_count (mode_act ncorr m inp bad) (samples nbl nchan) s (samples_NoDup _ _)) as [H1 H2].
  split; [intros b Hb; rewrite H1, filter_prod_row by exact Hb|intros c Hc; rewrite H2, filter_prod_col by exact Hc]; do 2 f_equal;
    apply filter_ext_in; intros x Hx; apply in_seq in Hx; (etransitivity; [apply Hch; lia|]); unfold changed, s'; now rewrite apply_mode_fold.
Qed.

(** * Times *)
Lemma match_range_in v : forall n r, length r <= n -> (match_range v r = true <-> in_range v r).
Proof.
  unfold in_range. induction n; intros r Hr.
  - destruct r; [|cbn in Hr; lia]. cbn. split; [discriminate|]. intros (i & H & _). lia.
  - destruct r as [|a [|b r]].
    + cbn. split; [discriminate|]. intros (i & H & _). lia.
    + cbn. split; [discriminate|]. intros (i & H & _). lia.
    + cbn [match_range length] in *. specialize (IHn r ltac:(lia)).
      destruct (qltb a v && qltb v b) eqn:E.
      * split; auto. intros _. exists 0. cbn. apply andb_true_iff in E as [E1 E2]. apply qltb_true in E1, E2. split; [lia|auto].
      * rewrite IHn. clear IHn. split.
        -- intros (i & H1 & H2 & H3). exists (S i). replace (2 * S i) with (S (S (2 * i))) by lia. cbn [nth]. split; [lia|auto].
        -- intros ([|i] & H1 & H2 & H3).
           ++ cbn in H2, H3. apply qltb_true in H2, H3. rewrite H2, H3 in E. discriminate.
           ++ exists i. replace (2 * S i) with (S (S (2 * i))) in * by lia. cbn [nth] in *. split; [lia|auto].
Qed.

Lemma match_range_iff v r : match_range v r = true <-> in_range v r.
Proof. apply (match_range_in v (length r)). lia. Qed.

Lemma match_range_app v : forall n a b, length a = 2 * n -> match_range v (a ++ b) = match_range v a || match_range v b.
Proof.
  induction n; intros a b Ha.
  - destruct a; [reflexivity|cbn in Ha; lia].
  - destruct a as [|x [|y a]]; cbn [length] in Ha; try lia. cbn [app match_range]. rewrite IHn by lia.
    destruct (qltb x v && qltb v y); reflexivity.
Qed.

Lemma fill_time_even e r l : fill_time e r = Some l -> exists n, length l = 2 * n.
Proof.
  unfold fill_time. destruct (r_pm r && qleb (r_v2 r) 0); [discriminate|]. destruct (qltb (r_v1 r) 0 || qltb (r_v2 r) 0); [discriminate|].
  destruct (if r_pm r then _ else _) as [v1 v2]. destruct e.
  - destruct (qltb _ _) in |- *; destruct (qltb _ _) in |- *; destruct (qltb _ _) in |- *; intros E; assert (length l = 2 \/ length l = 4) as [-> | ->] by (injection E as <-; auto); [exists 1|exists 2|exists 1|exists 2|exists 1|exists 2|exists 1|exists 2|..]; auto; [exists 1|exists 2|exists 1|exists 2|exists 1|exists 2|exists 1|exists 2]; auto.
  - destruct (qleb v2 v1); [discriminate|]. intros [= <-]. now exists 1.
Qed.

Lemma match_fill_times e v : forall rs l, fill_times e rs = Some l ->
  (match_range v l = true <-> exists r lr, In r rs /\ fill_time e r = Some lr /\ match_range v lr = true).
Proof.
  induction rs as [|r rs IH]; intros l H; cbn [fill_times] in H.
  - injection H as <-. cbn. split; [discriminate|]. intros (r & lr & [] & _).
  - destruct (fill_time e r) as [a|] eqn:E; [|discriminate]. destruct (fill_times e rs) as [b|] eqn:F; [|discriminate].
    assert (l = a ++ b) as -> by congruence. destruct (fill_time_even e r a E) as (n & Hn). rewrite (match_range_app v n a b Hn), orb_true_iff, (IH b eq_refl).
    split.
    + intros [Ha|(r' & lr & Hi & H1 & H2)].
      * exists r, a. split; [now left|auto].
      * exists r', lr. split; [now right|auto].
    + intros (r' & lr & [<-|Hi] & H1 & H2); [left|right; eauto]. congruence.
Qed.

Lemma tod_spec (t : Qc) : let k := Qfloor (t / day)%Qc in
  (t = time_of_day t + qz k * day)%Qc /\ (0 <= time_of_day t)%Qc /\ (time_of_day t < day)%Qc.
Proof.
  intros k. unfold time_of_day. fold k. change (Q2Qc (inject_Z k)) with (qz k).
  assert (Hd : (0 < day)%Qc) by reflexivity.
  assert (E : (t = t / day * day)%Qc) by (rewrite Qcmult_comm, Qcmult_div_r; [reflexivity|discriminate]).
  pose proof (Qfloor_le (t / day)%Qc) as H1. pose proof (Qlt_floor (t / day)%Qc) as H2. fold k in H1, H2.
  set (u := (t / day)%Qc) in *.
  assert (Hu : (qz k <= u)%Qc) by (unfold Qcle; rewrite this_qz; exact H1).
  assert (Hu2 : (u < qz k + 1)%Qc) by (unfold Qclt; rewrite this_plus, this_qz, this_1; rewrite inject_Z_plus in H2; exact H2).
  assert (E2 : (t = u * day)%Qc) by exact E. clearbody u. clear H1 H2 E. rewrite E2. clear E2 t.
  assert (D : this day = 86400%Q) by reflexivity.
  split; [ring|]. split; unfold Qcle, Qclt in *; rewrite ?this_minus, ?this_plus, ?this_mult, ?this_0, ?this_1, ?D in *; lra.
Qed.

Lemma day_shift (c : Qc) k j : at_day (k + j)%Z c = (at_day j c + qz k * day)%Qc.
Proof. unfold at_day. change (Q2Qc (inject_Z (k + j)%Z)) with (qz (k + j)%Z). change (Q2Qc (inject_Z j)) with (qz j). rewrite qz_plus. ring. Qed.

Lemma qz_m2 : qz (-2)%Z = (- (1 + 1))%Qc. Proof. apply qc_eq. reflexivity. Qed.
Lemma qz_m1 : qz (-1)%Z = Qcopp 1%Qc. Proof. apply qc_eq. reflexivity. Qed.
Lemma qz_0 : qz 0%Z = 0%Qc. Proof. apply qc_eq. reflexivity. Qed.
Lemma qz_1 : qz 1%Z = 1%Qc. Proof. apply qc_eq. reflexivity. Qed.
Lemma qz_2 : qz 2%Z = (1 + 1)%Qc. Proof. apply qc_eq. reflexivity. Qed.

Lemma day_this : this day = 86400%Q. Proof. reflexivity. Qed.

(** Linear arithmetic with the length of the day. *)
Ltac daylra := unfold Qcle, Qclt in *; repeat rewrite ?this_plus, ?this_minus, ?this_opp, ?this_mult, ?this_0, ?this_1, ?day_this in *; lra.

Lemma int_cases (j : Z) : (qz j <= - (1 + 1))%Qc \/ j = (-1)%Z \/ j = 0%Z \/ j = 1%Z \/ ((1 + 1) <= qz j)%Qc.
Proof.
  destruct (Z_le_gt_dec j (-2)) as [H|H]; [left; rewrite <- qz_m2; now apply qz_le|].
  destruct (Z_le_gt_dec 2 j) as [H'|H']; [do 4 right; rewrite <- qz_2; now apply qz_le|]. right. assert (j = -1 \/ j = 0 \/ j = 1)%Z by lia. tauto.
Qed.

(** The range in terms of the time of day [T]. *)
Definition in_tod (r : trange) (T : Qc) : Prop :=
  if r_pm r then ((r_v1 r - r_v2 r < T)%Qc /\ (T < r_v1 r + r_v2 r)%Qc) \/ (r_v1 r + day - r_v2 r < T)%Qc \/ (T < r_v1 r - day + r_v2 r)%Qc
  else if qltb (r_v1 r) (r_v2 r) then (r_v1 r < T)%Qc /\ (T < r_v2 r)%Qc else (r_v1 r < T)%Qc \/ (T < r_v2 r)%Qc.

Lemma in_day_tod r t : sane_range r -> (in_day_range r t <-> in_tod r (time_of_day t)).
Proof.
  intros (H1 & H2 & H3). destruct (tod_spec t) as (Et & T0 & T1). set (k := Qfloor (t / day)%Qc) in *.
  set (T := time_of_day t) in *. unfold in_day_range, in_tod. clearbody T.
  destruct (r_pm r).
  - destruct H3 as [H3 H4]. split.
    + intros (k' & A & B). assert (E : k' = (k + (k' - k))%Z) by lia. rewrite E, day_shift in A, B. set (j := (k' - k)%Z) in *. clearbody j. clear E.
      rewrite Et in A, B. unfold at_day in A, B. change (Q2Qc (inject_Z j)) with (qz j) in *.
      set (v := (qz k * day)%Qc) in *. clearbody v. clear Et.
      destruct (int_cases j) as [J|[->|[->|[->|J]]]].
      * exfalso. daylra.
      * right; right. rewrite qz_m1 in *. daylra.
      * left. rewrite qz_0 in *. split; daylra.
      * right; left. rewrite qz_1 in *. daylra.
      * exfalso. daylra.
    + assert (G : forall j, (at_day j (r_v1 r) - r_v2 r < T)%Qc -> (T < at_day j (r_v1 r) + r_v2 r)%Qc ->
        exists k0, (at_day k0 (r_v1 r) - r_v2 r < t)%Qc /\ (t < at_day k0 (r_v1 r) + r_v2 r)%Qc).
      { intros j A B. exists (k + j)%Z. rewrite day_shift, Et. set (v := (qz k * day)%Qc) in *. clearbody v. split; daylra. }
      intros [[A B]|[A|A]]; [apply (G 0%Z)|apply (G 1%Z)|apply (G (-1)%Z)]; unfold at_day;
        [change (Q2Qc (inject_Z 0%Z)) with (qz 0%Z)|change (Q2Qc (inject_Z 0%Z)) with (qz 0%Z)|change (Q2Qc (inject_Z 1%Z)) with (qz 1%Z)|change (Q2Qc (inject_Z 1%Z)) with (qz 1%Z)|change (Q2Qc (inject_Z (-1)%Z)) with (qz (-1)%Z)|change (Q2Qc (inject_Z (-1)%Z)) with (qz (-1)%Z)];
        rewrite ?qz_0, ?qz_1, ?qz_m1; daylra.
  - destruct H3 as [H3 H4]. destruct (qltb_spec (r_v1 r) (r_v2 r)) as [L|L].
    + split.
      * intros (k' & A & B). assert (E : k' = (k + (k' - k))%Z) by lia. rewrite E, day_shift in A, B. set (j := (k' - k)%Z) in *. clearbody j. clear E.
        rewrite Et in A, B. unfold at_day in A, B. change (Q2Qc (inject_Z j)) with (qz j) in *.
        set (v := (qz k * day)%Qc) in *. clearbody v. clear Et.
        destruct (int_cases j) as [J|[->|[->|[->|J]]]]; rewrite ?qz_0, ?qz_1, ?qz_m1 in *; try (exfalso; daylra). split; daylra.
      * intros [A B]. exists k. replace k with (k + 0)%Z by lia. rewrite !day_shift, Et. unfold at_day. change (Q2Qc (inject_Z 0%Z)) with (qz 0%Z). rewrite qz_0.
        set (v := (qz k * day)%Qc) in *. clearbody v. split; daylra.
    + split.
      * intros (k' & A & B). assert (E : k' = (k + (k' - k))%Z) by lia. rewrite E, day_shift in A. replace (k' + 1)%Z with (k + ((k' - k) + 1))%Z in B by lia. rewrite day_shift in B.
        set (j := (k' - k)%Z) in *. clearbody j. clear E.
        rewrite Et in A, B. unfold at_day in A, B. change (Q2Qc (inject_Z j)) with (qz j) in *. change (Q2Qc (inject_Z (j + 1)%Z)) with (qz (j + 1)%Z) in *. rewrite qz_plus, qz_1 in B.
        set (v := (qz k * day)%Qc) in *. clearbody v. clear Et.
        destruct (int_cases j) as [J|[->|[->|[->|J]]]]; rewrite ?qz_0, ?qz_1, ?qz_m1 in *; try (exfalso; daylra).
        -- right. daylra.
        -- left. daylra.
      * set (v := (qz k * day)%Qc) in *. intros [A|A]; [exists k; set (j := 0%Z)|exists (k - 1)%Z; set (j := (-1)%Z)].
        -- replace (at_day k (r_v1 r)) with (r_v1 r + v)%Qc by reflexivity. rewrite (day_shift (r_v2 r) k 1%Z). fold v. unfold at_day. change (Q2Qc (inject_Z 1%Z)) with (qz 1%Z).
           rewrite qz_1, Et. clearbody v. split; daylra.
        -- replace (k - 1 + 1)%Z with k by lia. replace (at_day k (r_v2 r)) with (r_v2 r + v)%Qc by reflexivity.
           replace (k - 1)%Z with (k + -1)%Z by lia. rewrite (day_shift (r_v1 r) k (-1)%Z). fold v. unfold at_day. change (Q2Qc (inject_Z (-1)%Z)) with (qz (-1)%Z).
           rewrite qz_m1, Et. clearbody v. split; daylra.
Qed.

Lemma match2 v a b : match_range v [a; b] = true <-> (a < v)%Qc /\ (v < b)%Qc.
Proof. cbn [match_range]. destruct (qltb_spec a v), (qltb_spec v b); cbn [andb]; split; intros H; try discriminate; try tauto. Qed.

Lemma match4 v a b c d : match_range v [a; b; c; d] = true <-> ((a < v)%Qc /\ (v < b)%Qc) \/ ((c < v)%Qc /\ (v < d)%Qc).
Proof.
  change [a; b; c; d] with ([a; b] ++ [c; d]). rewrite (match_range_app v 1) by reflexivity. rewrite orb_true_iff, !match2. tauto.
Qed.

Lemma fill_time_tod r T : sane_range r -> (0 <= T)%Qc -> (T < day)%Qc ->
  exists l, fill_time true r = Some l /\ (match_range T l = true <-> in_tod r T).
Proof.
  intros (H1 & H2 & H3) T0 T1. unfold fill_time, in_tod.
  destruct (r_pm r); destruct H3 as [H3 H4].
  - destruct (qleb_spec (r_v2 r) 0) as [L|L]; [exfalso; daylra|]. cbn [andb].
    destruct (qltb_spec (r_v1 r) 0) as [L1|L1]; [exfalso; daylra|]. destruct (qltb_spec (r_v2 r) 0) as [L2|L2]; [exfalso; daylra|]. cbn [orb].
    destruct (qltb_spec (r_v1 r - r_v2 r) 0) as [A|A], (qltb_spec day (r_v1 r + r_v2 r)) as [B|B]; try (exfalso; daylra).
    + destruct (qltb_spec (r_v1 r - r_v2 r + day) (r_v1 r + r_v2 r)) as [C|C]; [exfalso; daylra|]. eexists. split; [reflexivity|]. rewrite match4.
      split.
      * intros [[P Q]|[P Q]]; [left; split; daylra|right; left; daylra].
      * intros [[P Q]|[P|P]]; [left|right|left]; split; daylra.
    + destruct (qltb_spec (r_v1 r - r_v2 r) (r_v1 r + r_v2 r - day)) as [C|C]; [exfalso; daylra|]. eexists. split; [reflexivity|]. rewrite match4.
      split.
      * intros [[P Q]|[P Q]]; [right; right; daylra|left; split; daylra].
      * intros [[P Q]|[P|P]]; [right|right|left]; split; daylra.
    + destruct (qltb_spec (r_v1 r - r_v2 r) (r_v1 r + r_v2 r)) as [C|C]; [|exfalso; daylra]. eexists. split; [reflexivity|]. rewrite match2.
      split; [intros [P Q]; left; split; daylra|]. intros [[P Q]|[P|P]]; split; daylra.
  - cbn [andb]. destruct (qltb_spec (r_v1 r) 0) as [L1|L1]; [exfalso; daylra|]. destruct (qltb_spec (r_v2 r) 0) as [L2|L2]; [exfalso; daylra|]. cbn [orb].
    destruct (qltb_spec day (r_v2 r)) as [B|B]; [exfalso; daylra|].
    destruct (qltb_spec (r_v1 r) (r_v2 r)) as [C|C]; eexists; (split; [reflexivity|]).
    + apply match2.
    + rewrite match4. split; [intros [[P Q]|[P Q]]; auto|]. intros [P|P]; [right|left]; split; daylra.
Qed.

Theorem day_ranges rs : Forall sane_range rs -> exists l, fill_times true rs = Some l /\
  forall t, match_range (time_of_day t) l = true <-> Exists (fun r => in_day_range r t) rs.
Proof.
  intros H.
  assert (E : exists l, fill_times true rs = Some l).
  { induction H as [|r rs Hr _ [l IH]]; [eexists; reflexivity|]. cbn [fill_times].
    destruct (fill_time_tod r 0%Qc Hr) as (a & -> & _); [apply Qcle_refl|reflexivity|]. rewrite IH. eexists. reflexivity. }
  destruct E as [l E]. exists l. split; [exact E|]. intros t. rewrite (match_fill_times _ _ _ _ E), Exists_exists.
  rewrite Forall_forall in H. destruct (tod_spec t) as (_ & T0 & T1). split.
  - intros (r & lr & Hi & Hf & Hm). exists r. split; [exact Hi|]. apply in_day_tod; [auto|].
    destruct (fill_time_tod r (time_of_day t) (H r Hi) T0 T1) as (l' & E' & G). apply G. congruence.
  - intros (r & Hi & Hr). apply in_day_tod in Hr; [|auto].
    destruct (fill_time_tod r (time_of_day t) (H r Hi) T0 T1) as (l' & E' & G). exists r, l'. split; [exact Hi|]. split; [exact E'|]. now apply G.
Qed.

(** Absolute and relative times. *)
Theorem abs_ranges rs l : fill_times false rs = Some l ->
  forall t, match_range t l = true <-> Exists (fun r => in_abs_range r t) rs.
Proof.
  intros E t. rewrite (match_fill_times _ _ _ _ E), Exists_exists.
  assert (G : forall r lr, fill_time false r = Some lr -> (match_range t lr = true <-> in_abs_range r t)).
  { intros r lr. unfold fill_time, in_abs_range. destruct (r_pm r && qleb (r_v2 r) 0); [discriminate|]. destruct (qltb (r_v1 r) 0 || qltb (r_v2 r) 0); [discriminate|].
    destruct (r_pm r).
    - destruct (qleb _ _); [discriminate|]. intros E'. assert (lr = [(r_v1 r - r_v2 r)%Qc; (r_v1 r + r_v2 r)%Qc]) as -> by congruence. apply match2.
    - destruct (qleb _ _); [discriminate|]. intros E'. assert (lr = [r_v1 r; r_v2 r]) as -> by congruence. apply match2. }
  assert (D : forall r, In r rs -> exists lr, fill_time false r = Some lr).
  { clear G. revert l E. induction rs as [|x rs IH]; intros l E r Hr; [destruct Hr|]. cbn [fill_times] in E.
    destruct (fill_time false x) as [a|] eqn:Ex; [|discriminate]. destruct (fill_times false rs) as [b|] eqn:Eb; [|discriminate].
    destruct Hr as [<-|Hr]; [eauto|]. now apply (IH b). }
  split.
  - intros (r & lr & Hi & Hf & Hm). exists r. split; [exact Hi|]. now apply (G r lr).
  - intros (r & Hi & Hr). destruct (D r Hi) as [lr Hf]. exists r, lr. split; [exact Hi|]. split; [exact Hf|]. now apply (G r lr).
Qed.

(** * C19 *)
Lemma set_modes nbl nchan ncorr m inp bad s b c : m = SetFlag \/ m = SetComp -> b < nbl -> c < nchan ->
  set_allowed (acts_on m (inp b c)) (fs_flags s b c) (fs_flags (apply_mode nbl nchan ncorr m inp bad s) b c).
Proof.
  intros Hm Hb Hc. split.
  - intros p Hp. rewrite apply_mode_flags by assumption. destruct Hm as [-> | ->]; cbn [mode_act]; destruct (hit_of _ _ && _); auto.
  - intros Hh p. rewrite apply_mode_flags by assumption. destruct Hm as [-> | ->]; cbn [mode_act]; unfold acts_on, hit_of in *; now rewrite Hh.
Qed.
Lemma set_modes_exact nbl nchan ncorr m inp bad s b c p : m = SetFlag \/ m = SetComp -> b < nbl -> c < nchan ->
  uniform (fs_flags s b c) ->
  fs_flags (apply_mode nbl nchan ncorr m inp bad s) b c p = fs_flags s b c p || acts_on m (inp b c).
Proof.
  intros Hm Hb Hc Hu. rewrite apply_mode_flags by assumption. rewrite (Hu p).
  destruct Hm as [-> | ->]; cbn [mode_act]; unfold acts_on, hit_of; destruct (inp b c), (fs_flags s b c 0); reflexivity.
Qed.
Lemma forallb_negb {A} (f : A -> bool) l : forallb (fun x => negb (f x)) l = negb (existsb f l).
Proof. induction l; cbn; auto. rewrite IHl. now destruct (f a). Qed.
Lemma clear_modes nbl nchan ncorr m inp bad s b c : m = ClearFlag \/ m = ClearComp -> b < nbl -> c < nchan ->
  clear_allowed (acts_on m (inp b c)) (forallb (fun p => negb (bad b c p)) (seq 0 ncorr))
    (fs_flags s b c) (fs_flags (apply_mode nbl nchan ncorr m inp bad s) b c).
Proof.
  intros Hm Hb Hc p Hp. rewrite apply_mode_flags by assumption. rewrite forallb_negb.
  destruct Hm as [-> | ->]; cbn [mode_act]; unfold acts_on, hit_of; destruct (inp b c); cbn zeta; cbn [negb]; try congruence;
    destruct (existsb (bad b c) (seq 0 ncorr)), (fs_flags s b c 0); cbn; intros; try congruence; auto.
Qed.
Lemma clear_modes_exact nbl nchan ncorr m inp bad s b c p : m = ClearFlag \/ m = ClearComp -> b < nbl -> c < nchan ->
  uniform (fs_flags s b c) ->
  fs_flags (apply_mode nbl nchan ncorr m inp bad s) b c p =
  if acts_on m (inp b c) then existsb (bad b c) (seq 0 ncorr) else fs_flags s b c p.
Proof.
  intros Hm Hb Hc Hu. rewrite apply_mode_flags by assumption. rewrite (Hu p).
  destruct Hm as [-> | ->]; cbn [mode_act]; unfold acts_on, hit_of; destruct (inp b c); cbn zeta; cbn [negb]; auto;
    destruct (existsb (bad b c) (seq 0 ncorr)), (fs_flags s b c 0); reflexivity.
Qed.

(** * Channels *)
Lemma nth_map_seq {A} (g : nat -> A) d n i : i < n -> nth i (map g (seq 0 n)) d = g i.
Proof. intros H. rewrite nth_indep with (d' := g 0) by now rewrite map_length, seq_length. now rewrite map_nth, seq_nth. Qed.

Lemma fill_channels_spec freqs ranges fr : (forall r, In r ranges -> fst r <= snd r) ->
  exists mask, fill_channels freqs ranges fr = Some mask /\ length mask = length freqs /\
    forall c, c < length freqs -> (nth c mask false = true <-> channel_selected freqs ranges fr c).
Proof.
  intros H. unfold fill_channels.
  assert (existsb (fun r => snd r <? fst r) ranges = false) as ->.
  { apply not_true_is_false. rewrite existsb_exists. intros (r & Hr & E). apply Nat.ltb_lt in E. specialize (H r Hr). lia. }
  eexists. split; [reflexivity|]. split; [now rewrite map_length, seq_length|].
  intros c Hc. rewrite nth_map_seq by exact Hc. rewrite andb_true_iff. unfold channel_selected.
  assert (E1 : (match ranges with [] => true | _ => chan_selected ranges c end) = true <-> (ranges = [] \/ exists r, In r ranges /\ fst r <= c <= snd r)).
  { destruct ranges as [|r0 rs]; [tauto|]. unfold chan_selected. rewrite existsb_exists. split.
    - intros (r & Hr & E). apply andb_true_iff in E as [E1 E2]. apply Nat.leb_le in E1, E2. right. exists r. auto.
    - intros [E|(r & Hr & E)]; [discriminate|]. exists r. split; auto. apply andb_true_iff. split; apply Nat.leb_le; lia. }
  assert (E2 : (match fr with [] => true | _ => freq_selected fr (nth c freqs 0%Qc) end) = true <-> (fr = [] \/ exists r f, In r fr /\ nth_error freqs c = Some f /\ (fst r < f)%Qc /\ (f < snd r)%Qc)).
  { destruct fr as [|r0 rs]; [tauto|]. unfold freq_selected. rewrite existsb_exists. split.
    - intros (r & Hr & E). apply andb_true_iff in E as [E1' E2]. apply qltb_true in E1', E2. right. exists r, (nth c freqs 0%Qc).
      split; [exact Hr|]. split; [now apply nth_error_nth'|]. auto.
    - intros [E|(r & f & Hr & Hf & E1' & E2)]; [discriminate|]. exists r. split; auto. apply nth_error_nth with (d := 0%Qc) in Hf. rewrite Hf.
      apply andb_true_iff. split; now apply qltb_true. }
  rewrite E1, E2. reflexivity.
Qed.

(** * uv limits *)
Lemma sq_lt (a b : Qc) : (0 <= a)%Qc -> (0 <= b)%Qc -> ((a * a < b * b)%Qc <-> (a < b)%Qc).
Proof.
  unfold Qclt, Qcle. rewrite !this_mult, !this_0. intros Ha Hb. split; intros H; nra.
Qed.
Lemma uv_limits_spec mn mx lim dist : uv_limits mn mx = Some lim -> (0 <= dist)%Qc -> (dist * dist <= Q2Qc (10 ^ 30))%Qc ->
  ((exists lo hi, lim = Some (lo, hi) /\ ((dist * dist < lo)%Qc \/ (hi < dist * dist)%Qc)) <-> uv_flagged mn mx dist).
Proof.
  unfold uv_limits, uv_flagged. intros H Hd Hm. destruct (qleb _ _) in H; [discriminate|].
  set (lo := (if qleb 0 mn then (mn * mn)%Qc else mn)) in *. set (hi := if qltb 0 mx then (mx * mx)%Qc else Q2Qc (10 ^ 30)) in *.
  assert (E1 : (dist * dist < lo)%Qc <-> (dist < mn)%Qc).
  { unfold lo. destruct (qleb_spec 0 mn) as [Hn|Hn].
    - now apply sq_lt.
    - assert (0 <= dist * dist)%Qc by (unfold Qcle in *; rewrite this_mult, this_0 in *; nra).
      split; intros Hf; exfalso; qclra. }
  assert (E2 : (hi < dist * dist)%Qc <-> (0 < mx)%Qc /\ (mx < dist)%Qc).
  { unfold hi. destruct (qltb_spec 0 mx) as [Hn|Hn].
    - rewrite sq_lt by (auto; qclra). tauto.
    - split; [intros Hf; exfalso; qclra|intros [Hf _]; exfalso; qclra]. }
  injection H as <-. destruct (qleb_spec 0 mn) as [Hn|Hn], (qltb_spec 0 mx) as [Hx|Hx]; cbn [orb].
  1-3: split; [intros (l & h & [= <- <-] & H); tauto|intros H; exists lo, hi; tauto].
  split; [intros (l & h & H & _); discriminate|]. intros [H|[H _]]; exfalso; qclra.
Qed.

Lemma uv_limits_accepted mn mx : ((mx <= 0)%Qc \/ (mn < mx)%Qc) -> (mn < Q2Qc (10 ^ 15))%Qc -> uv_limits mn mx <> None.
Proof.
  intros H Hn. unfold uv_limits. destruct (qleb_spec (if qltb 0 mx then (mx * mx)%Qc else Q2Qc (10 ^ 30)) (if qleb 0 mn then (mn * mn)%Qc else mn)) as [E|E]; [|congruence].
  exfalso. revert E. destruct (qltb_spec 0 mx) as [Hx|Hx], (qleb_spec 0 mn) as [Hm|Hm].
  - destruct H as [H|H]; [qclra|]. intros E. assert (mn * mn < mx * mx)%Qc by (apply sq_lt; auto; qclra). qclra.
  - intros E. assert (0 < mx * mx)%Qc by now apply qc_mult_pos. qclra.
  - intros E. assert (mn * mn < Q2Qc (10 ^ 15) * Q2Qc (10 ^ 15))%Qc by (apply sq_lt; auto; vm_compute; congruence).
    assert (Q2Qc (10 ^ 15) * Q2Qc (10 ^ 15) = Q2Qc (10 ^ 30))%Qc by (apply qc_eq; reflexivity). qclra.
  - intros E. assert (0 < Q2Qc (10 ^ 30))%Qc by reflexivity. qclra.
Qed.

Lemma abs_accepted rs : fill_times false rs <> None <-> Forall proper_range rs.
Proof.
  assert (S : forall r, fill_time false r <> None <-> proper_range r).
  { intros [pm a b]. unfold fill_time, proper_range. cbn [r_pm r_v1 r_v2].
    destruct (qleb_spec b 0) as [H1|H1]; destruct pm; cbn [andb].
    - split; [intros X; now elim X|]. intros [_ H]. now apply Qcle_not_lt in H1.
    - destruct (qltb_spec a 0) as [H2|H2]; cbn [orb].
      + split; [intros X; now elim X|]. intros [H _]. now apply Qcle_not_lt in H.
      + destruct (qltb_spec b 0) as [H3|H3].
        * split; [intros X; now elim X|]. intros [Ha Hab]. elim H2. now apply Qclt_trans with b.
        * destruct (qleb_spec b a) as [H4|H4].
          -- split; [intros X; now elim X|]. intros [_ H]. now apply Qcle_not_lt in H4.
          -- split; [intros _|discriminate]. apply Qcnot_lt_le in H2. apply Qcnot_le_lt in H4. now split.
    - apply Qcnot_le_lt in H1. destruct (qltb_spec a 0) as [H2|H2]; cbn [orb].
      + split; [intros X; now elim X|]. intros [H _]. now apply Qcle_not_lt in H.
      + apply Qcnot_lt_le in H2. destruct (qltb_spec b 0) as [H3|H3]; [elim (Qclt_not_le _ _ H1); now apply Qclt_le_weak|].
        destruct (qleb_spec (a + b) (a - b)) as [H4|H4].
        * exfalso. apply Qcle_not_lt in H4. apply H4. revert H1. clear. intros H. qclra.
        * split; [intros _; now split|discriminate].
    - apply Qcnot_le_lt in H1. destruct (qltb_spec a 0) as [H2|H2]; cbn [orb].
      + split; [intros X; now elim X|]. intros [H _]. now apply Qcle_not_lt in H.
      + apply Qcnot_lt_le in H2. destruct (qltb_spec b 0) as [H3|H3]; [elim (Qclt_not_le _ _ H1); now apply Qclt_le_weak|].
        destruct (qleb_spec b a) as [H4|H4].
        * split; [intros X; now elim X|]. intros [_ H]. now apply Qcle_not_lt in H4.
        * apply Qcnot_le_lt in H4. split; [intros _; now split|discriminate]. }
  induction rs as [|r rs IH]; cbn [fill_times]; [split; [constructor|discriminate]|].
  specialize (S r). rewrite Forall_cons_iff, <- S, <- IH. destruct (fill_time false r); [|split; [congruence|intros [H _]; now elim H]].
  destruct (fill_times false rs); split.
  - intros _. split; discriminate.
  - discriminate.
  - intros H. now elim H.
  - intros [_ H]. now elim H.
Qed.

Lemma channels_refused freqs ranges fr : fill_channels freqs ranges fr = None <-> exists r, In r ranges /\ snd r < fst r.
Proof.
  unfold fill_channels. destruct (existsb (fun r => snd r <? fst r) ranges) eqn:E; split; try discriminate.
  - intros _. apply existsb_exists in E. destruct E as (r & H & L). exists r. split; [exact H|]. now apply Nat.ltb_lt.
  - reflexivity.
  - intros (r & H & L). enough (existsb (fun r => snd r <? fst r) ranges = true) by congruence. apply existsb_exists. exists r. split; [exact H|now apply Nat.ltb_lt].
Qed.
