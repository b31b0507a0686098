From Coq Require Import List Bool Arith Sorted Lia.
From Verif Require Import ClipModel ClipSpec.
Import ListNotations.
Open Scope nat_scope.

Lemma asc_nth l i j : ascending l -> i < j -> j < length l -> nth i l 0 < nth j l 0.
Proof.
  intros H. revert i j. induction H as [|x l H IH F]; intros i j Hi Hj; [cbn in Hj; lia|].
  destruct j as [|j]; [lia|]. cbn in Hj. destruct i as [|i].
  - cbn. rewrite Forall_forall in F. apply F, nth_In. lia.
  - cbn. apply IH; lia.
Qed.

Lemma advance_spec l : forall i r j, ascending l -> j < length l -> nth j l 0 = r -> advance l i r = Some (i + j).
Proof.
  induction l as [|x l IH]; intros i r j H Hj E; [cbn in Hj; lia|].
  cbn [advance]. destruct j as [|j].
  - cbn in E. subst. rewrite Nat.ltb_irrefl. f_equal. lia.
  - assert (x < r). { rewrite <- E. apply (asc_nth (x :: l) 0 (S j) H); cbn in *; lia. }
    apply Nat.ltb_lt in H0. rewrite H0. inversion H; subst. cbn in Hj. rewrite (IH (i + 1) _ j); auto; [f_equal; lia|lia].
Qed.

Lemma asc_skipn l n : ascending l -> ascending (skipn n l).
Proof. intros H. revert n. induction H as [|x l H IH F]; intros n; destruct n; cbn; try constructor; auto. Qed.
Lemma nth_skipn' {X} n (l : list X) j d : nth j (skipn n l) d = nth (n + j) l d.
Proof. revert l. induction n as [|n IH]; intros l; [reflexivity|]. destruct l; cbn; [destruct j; reflexivity|]. apply IH. Qed.

Lemma pick_spec l idx : Forall (fun i => i < length l) idx -> pick l idx = Some (map (fun i => nth i l 0) idx).
Proof.
  induction 1 as [|i idx Hi H IH]; [reflexivity|]. cbn. rewrite (nth_error_nth' l 0 Hi), IH. reflexivity.
Qed.

Lemma row_indices_spec all : ascending all -> forall idx i, ascending idx -> Forall (fun k => i <= k < length all) idx ->
  row_indices all i (map (fun k => nth k all 0) idx) = Some idx.
Proof.
  intros HA. induction idx as [|k idx IH]; intros i HI HF; [reflexivity|].
  inversion HI as [|? ? HI' HF']; subst. inversion HF as [|? ? Hk HF2]; subst. cbn [map row_indices].
  rewrite (advance_spec (skipn i all) i _ (k - i)).
  - replace (i + (k - i)) with k by lia. rewrite IH; [reflexivity|exact HI'|].
    rewrite Forall_forall in *. intros m Hm. specialize (HF' m Hm). specialize (HF2 m Hm). lia.
  - now apply asc_skipn.
  - rewrite skipn_length. lia.
  - rewrite nth_skipn'. f_equal. lia.
Qed.

Section Proofs.
Context {V : Type} (S : setup) (exceeds : V -> bool) (predict : slot -> nat -> nat -> nat -> V).

Lemma assign_spec idx res last i : ascending idx -> forall b c p,
  (forall f, nth_error idx f = Some b -> c = i -> assign idx res last i b c p = res f p) /\
  ((c <> i \/ ~ In b idx) -> assign idx res last i b c p = last b c p).
Proof.
  intros HA b c p. unfold assign.
  assert (K : forall n, n <= length idx ->
    (forall f, f < n -> nth_error idx f = Some b -> c = i -> fold_left (fun l f b c p => if (b =? nth f idx 0) && (c =? i) then res f p else l b c p) (seq 0 n) last b c p = res f p) /\
    ((c <> i \/ forall f, f < n -> nth_error idx f <> Some b) -> fold_left (fun l f b c p => if (b =? nth f idx 0) && (c =? i) then res f p else l b c p) (seq 0 n) last b c p = last b c p)).
  { induction n as [|n IH]; intros Hn; [split; [intros; lia|reflexivity]|].
    rewrite seq_S, fold_left_app. cbn [fold_left Nat.add]. destruct (IH ltac:(lia)) as [I1 I2].
    assert (NE : nth_error idx n = Some (nth n idx 0)) by (apply nth_error_nth'; lia).
    split.
    - intros f Hf E ->. rewrite Nat.eqb_refl, andb_true_r. destruct (Nat.eqb_spec b (nth n idx 0)) as [Eb|Nb].
      + destruct (Nat.eq_dec f n) as [->|Nf]; [reflexivity|]. exfalso.
        assert (nth f idx 0 < nth n idx 0) by (apply asc_nth; auto; lia).
        apply (nth_error_nth _ _ 0) in E. lia.
      + destruct (Nat.eq_dec f n) as [->|Nf]; [congruence|]. apply I1; auto; lia.
    - intros H. destruct ((b =? nth n idx 0) && (c =? i)) eqn:E.
      + apply andb_true_iff in E as [E1 E2]. apply Nat.eqb_eq in E1, E2. destruct H as [H|H]; [lia|].
        exfalso. apply (H n ltac:(lia)). congruence.
      + apply I2. destruct H as [H|H]; [now left|right; intros; apply H; lia]. }
  destruct (K (length idx) ltac:(lia)) as [K1 K2]. split.
  - intros f E. apply K1; [|exact E]. apply nth_error_Some. congruence.
  - intros [H|H]; apply K2; [now left|right]. intros f _ E. apply H. eapply nth_error_In; eauto.
Qed.

Lemma channels_spec idx (res : nat -> nat -> nat -> bool) : forall steps start last channel, ascending idx -> forall b c p,
  (forall f, nth_error idx f = Some b -> start <= c < start + steps -> fold_left (assign idx (res channel)) (seq start steps) last b c p = res channel f p) /\
  ((c < start \/ start + steps <= c \/ ~ In b idx) -> fold_left (assign idx (res channel)) (seq start steps) last b c p = last b c p).
Proof.
  induction steps as [|n IH]; intros start last channel HA b c p; [split; [intros; lia|reflexivity]|].
  cbn [seq fold_left]. destruct (IH (Datatypes.S start) (assign idx (res channel) last start) channel HA b c p) as [I1 I2].
  destruct (assign_spec idx (res channel) last start HA b c p) as [A1 A2]. split.
  - intros f E Hc. destruct (Nat.eq_dec c start) as [->|N].
    + rewrite I2 by lia. now apply A1.
    + apply I1; [exact E|lia].
  - intros H. rewrite I2 by (destruct H as [H|[H|H]]; [left; lia|right; left; lia|auto]). apply A2. destruct H as [H|[H|H]]; [left; lia|left; lia|now right].
Qed.

Lemma blocks_spec idx (res : nat -> nat -> nat -> bool) fs nch : 0 < fs -> ascending idx -> forall n last b c p,
  let r := fold_left (fun last channel => fold_left (assign idx (res channel)) (seq (channel * fs) (Nat.min fs (nch - channel * fs))) last) (seq 0 n) last b c p in
  (forall f, nth_error idx f = Some b -> c < nch -> c / fs < n -> r = res (c / fs) f p) /\
  ((nch <= c \/ n <= c / fs \/ ~ In b idx) -> r = last b c p).
Proof.
  intros Hf HA. induction n as [|n IH]; intros last b c p r; [split; [intros; lia|reflexivity]|].
  subst r. rewrite seq_S, fold_left_app. cbn [fold_left Nat.add].
  set (l1 := fold_left _ (seq 0 n) last). cbv zeta in IH. destruct (IH last b c p) as [I1 I2]. fold l1 in I1, I2.
  destruct (channels_spec idx res (Nat.min fs (nch - n * fs)) (n * fs) l1 n HA b c p) as [C1 C2].
  pose proof (Nat.div_mod c fs ltac:(lia)) as DM. pose proof (Nat.mod_upper_bound c fs ltac:(lia)) as MB.
  split.
  - intros f E Hc Hn. destruct (Nat.eq_dec (c / fs) n) as [En|Nn].
    + rewrite En in *. apply C1; [exact E|nia].
    + rewrite C2; [apply I1; auto; lia|]. left. nia.
  - intros H. rewrite C2.
    + apply I2. destruct H as [H|[H|H]]; auto. right. left. lia.
    + destruct H as [H|[H|H]]; auto.
      * destruct (le_lt_dec (n * fs) c); [right; left; lia|left; lia].
      * right. left. assert ((n + 1) * fs <= fs * (c / fs)) by nia. lia.
Qed.

Lemma clip_flags_spec x : 0 < frequency_step S -> ascending (sel S) ->
  exists l, clip_flags S exceeds predict x (sel S) = Some l /\
    forall b c p, c < nchan S -> p < ncorr S -> (l b c p = true <-> clipped S exceeds (predict x) b c p).
Proof.
  intros Hf HA. unfold clip_flags. cbv zeta. rewrite Nat.eqb_refl. cbn [negb andb]. eexists. split; [reflexivity|].
  intros b c p Hc Hp.
  destruct (blocks_spec (sel S) (fun ch => result_flags S exceeds predict x ch) (frequency_step S) (nchan S) Hf HA
              ((nchan S + frequency_step S - 1) / frequency_step S) (fun _ _ _ => false) b c p) as [B1 B2].
  assert (Hn : c / frequency_step S < (nchan S + frequency_step S - 1) / frequency_step S).
  { apply Nat.lt_le_trans with (m := c / frequency_step S + 1); [lia|].
    replace (c / frequency_step S + 1) with ((c + 1 * frequency_step S) / frequency_step S) by (rewrite Nat.div_add by lia; lia).
    apply Nat.div_le_mono; lia. }
  destruct (in_dec Nat.eq_dec b (sel S)) as [Hin|Hin].
  - apply In_nth_error in Hin as (f & Ef). specialize (B1 f Ef Hc Hn).
    match goal with |- ?a = true <-> _ => replace a with (result_flags S exceeds predict x (c / frequency_step S) f p) end.
    assert (Uf : forall f', nth_error (sel S) f' = Some b -> f' = f).
    { intros f' E'. assert (L1 : f < length (sel S)) by (apply nth_error_Some; congruence).
      assert (L2 : f' < length (sel S)) by (apply nth_error_Some; congruence).
      apply (nth_error_nth _ _ 0) in E', Ef. destruct (lt_eq_lt_dec f f') as [[L|L]|L]; auto.
      - pose proof (asc_nth _ f f' HA L L2). lia.
      - pose proof (asc_nth _ f' f HA L L1). lia. }
    unfold clipped, result_flags. split.
    + intros H. exists f. split; [exact Ef|]. destruct (all_corr S).
      * apply existsb_exists in H as (q & Hq & H). apply in_seq in Hq. exists q. repeat split; auto; lia.
      * exists p. auto.
    + intros (f' & E' & q & Hq & H & Hor). rewrite (Uf f' E') in H. destruct (all_corr S).
      * apply existsb_exists. exists q. split; [apply in_seq; lia|exact H].
      * destruct Hor as [Hor|Hor]; [discriminate|]. now subst.
  - match goal with |- ?a = true <-> _ => replace a with false by (symmetry; apply B2; auto) end.
    split; [discriminate|]. intros (f & E & _). exfalso. apply Hin. eapply nth_error_In; eauto.
Qed.

Definition good (x : slot) : Prop := ascending (rows x) /\ rows x <> [] /\ Forall (fun b => b < length (rows x)) (sel S).

Lemma fresh_slot x s : 0 < time_step S -> 0 < frequency_step S -> ascending (sel S) -> good x -> counter s mod time_step S = 0 ->
  exists l y, process S exceeds predict s x = Some ({| counter := 1; last_flags := l |}, y) /\ rows y = rows x /\
    (forall b c p, flags y b c p = flags x b c p || l b c p) /\
    forall b c p, c < nchan S -> p < ncorr S -> (l b c p = true <-> clipped S exceeds (predict x) b c p).
Proof.
  intros Ht Hf HA (G1 & G2 & G3) E. unfold process.
  destruct (Nat.eqb_spec (time_step S) 0) as [Z|_]; [lia|]. destruct (Nat.eqb_spec (frequency_step S) 0) as [Z|_]; [lia|]. cbn [orb].
  rewrite E, Nat.eqb_refl. unfold filtered_rows. destruct (rows x) as [|r0 rs] eqn:R; [congruence|]. rewrite <- R in *.
  rewrite pick_spec by exact G3. rewrite row_indices_spec; auto.
  - destruct (clip_flags_spec x Hf HA) as (l & -> & Hl). eexists l, _. split; [reflexivity|]. cbn. auto.
  - rewrite Forall_forall in *. intros k Hk. specialize (G3 k Hk). lia.
Qed.

Lemma old_slot x s : 0 < time_step S -> 0 < frequency_step S -> counter s mod time_step S <> 0 ->
  exists y, process S exceeds predict s x = Some ({| counter := counter s + 1; last_flags := last_flags s |}, y) /\ rows y = rows x /\
    forall b c p, flags y b c p = flags x b c p || last_flags s b c p.
Proof.
  intros Ht Hf E. unfold process.
  destruct (Nat.eqb_spec (time_step S) 0) as [Z|_]; [lia|]. destruct (Nat.eqb_spec (frequency_step S) 0) as [Z|_]; [lia|]. cbn [orb].
  apply Nat.eqb_neq in E. rewrite E. eexists. split; [reflexivity|]. cbn. auto.
Qed.

Lemma run_spec d : 0 < time_step S -> 0 < frequency_step S -> ascending (sel S) -> forall xs done s,
  (forall i, i < length (done ++ xs) -> i mod time_step S = 0 -> good (nth i (done ++ xs) d)) ->
  (let n := length done in
   (n mod time_step S = 0 /\ counter s mod time_step S = 0) \/
   (0 < n mod time_step S /\ counter s = n mod time_step S /\
    forall b c p, c < nchan S -> p < ncorr S -> (last_flags s b c p = true <-> clipped S exceeds (predict (nth (n / time_step S * time_step S) (done ++ xs) d)) b c p))) ->
  exists ys, run S exceeds predict s xs = Some ys /\ length ys = length xs /\
    forall i, i < length xs -> rows (nth i ys d) = rows (nth i xs d) /\
      let t := length done + i in
      forall b c p, c < nchan S -> p < ncorr S ->
        (flags (nth i ys d) b c p = true <->
         flags (nth i xs d) b c p = true \/ clipped S exceeds (predict (nth (t / time_step S * time_step S) (done ++ xs) d)) b c p).
Proof.
  intros Ht Hf HA. set (ts := time_step S) in *. induction xs as [|x xs IH]; intros done s HG HI.
  - exists []. split; [reflexivity|]. split; [reflexivity|]. intros i Hi. cbn in Hi. lia.
  - cbv zeta in HI. set (n := length done) in *.
    assert (Hn : nth n (done ++ x :: xs) d = x) by (rewrite app_nth2 by lia; unfold n; rewrite Nat.sub_diag; reflexivity).
    assert (EQ : done ++ x :: xs = (done ++ [x]) ++ xs) by (rewrite <- app_assoc; reflexivity).
    assert (LD : length (done ++ [x]) = n + 1) by (rewrite app_length; reflexivity).
    pose proof (Nat.div_mod n ts ltac:(lia)) as DM. pose proof (Nat.mod_upper_bound n ts ltac:(lia)) as MB.
    assert (Step : exists s' y, process S exceeds predict s x = Some (s', y) /\ rows y = rows x /\
       (forall b c p, flags y b c p = flags x b c p || last_flags s' b c p) /\
       (forall b c p, c < nchan S -> p < ncorr S -> (last_flags s' b c p = true <-> clipped S exceeds (predict (nth (n / ts * ts) (done ++ x :: xs) d)) b c p)) /\
       counter s' = n mod ts + 1).
    { destruct HI as [[E1 E2]|(E1 & E2 & E3)].
      - destruct (fresh_slot x s Ht Hf HA) as (l & y & P & R & F & L); [rewrite <- Hn; apply HG; [rewrite app_length; cbn; lia|exact E1]|exact E2|].
        exists {| counter := 1; last_flags := l |}, y. split; [exact P|]. split; [exact R|]. split; [exact F|]. split; [|cbn; lia].
        intros b c p Hc Hp. cbn [last_flags]. rewrite L by assumption. replace (n / ts * ts) with n by lia. rewrite Hn. reflexivity.
      - destruct (old_slot x s Ht Hf) as (y & P & R & F); [fold ts; rewrite E2, Nat.mod_mod by lia; lia|].
        eexists _, y. split; [exact P|]. split; [exact R|]. split; [exact F|]. split; [exact E3|]. cbn. lia. }
    destruct Step as (s' & y & P & R & F & L & C). cbn [run]. rewrite P.
    destruct (IH (done ++ [x]) s') as (ys & Hr & Hl & Hy).
    + rewrite <- EQ. exact HG.
    + cbv zeta. rewrite LD, C, <- EQ. destruct (Nat.eq_dec (n mod ts + 1) ts) as [E|E].
      * left. rewrite E, Nat.mod_same by lia. split; [|reflexivity]. replace (n + 1) with (0 + (n / ts + 1) * ts) by lia.
        rewrite Nat.mod_add by lia. apply Nat.mod_small. lia.
      * right. assert (M1 : (n + 1) mod ts = n mod ts + 1). { symmetry. apply (Nat.mod_unique _ _ (n / ts)); lia. }
        assert (D1 : (n + 1) / ts = n / ts). { symmetry. apply (Nat.div_unique _ _ _ (n mod ts + 1)); lia. }
        rewrite M1, D1. split; [lia|]. split; [reflexivity|exact L].
    + rewrite Hr. cbn [option_map]. exists (y :: ys). split; [reflexivity|]. split; [cbn; lia|].
      intros i Hi. destruct i as [|i].
      * cbn [nth]. split; [exact R|]. cbv zeta. rewrite Nat.add_0_r. fold n. intros b c p Hc Hp. rewrite F, orb_true_iff, L by assumption. reflexivity.
      * cbn [nth]. cbn [length] in Hi. destruct (Hy i ltac:(lia)) as [Y1 Y2]. split; [exact Y1|]. cbv zeta in *. rewrite LD in Y2. fold n.
        replace (n + Datatypes.S i) with (n + 1 + i) by lia. rewrite EQ. exact Y2.
Qed.
End Proofs.
