(** Proofs about the transfer step. *)
From Coq Require Import QArith Qround Qcanon List Bool Arith ZArith Lia Sorted.
From Verif Require Import QcUtil AverageModel InfoModel InfoProofs InterpProofs TransferModel TransferSpec.
Import ListNotations.
Open Scope nat_scope.

Lemma nth_error_set_nth {X} (l : list X) i j x : i < length l -> nth_error (set_nth l i x) j = if j =? i then Some x else nth_error l j.
Proof. revert i j. induction l as [|y l IH]; intros [|i] [|j] H; cbn in *; try lia; auto. rewrite IH by lia. reflexivity. Qed.

Lemma at_cell_set {A} (g : list (list A)) r l r' c :
  r < length g -> at_cell (set_nth g r l) r' c = if r' =? r then nth_error l c else at_cell g r' c.
Proof. intros H. unfold at_cell. rewrite nth_error_set_nth by auto. now destruct (r' =? r). Qed.

Lemma rectangle_set {A} (g : list (list A)) k n r l : rectangle k n g -> length l = n -> rectangle k n (set_nth g r l).
Proof.
  intros [H1 H2] Hl. split; [now rewrite set_nth_length|].
  clear H1. revert r. induction g as [|x g IH]; intros r; [constructor|].
  inversion H2; subst. destruct r; cbn [set_nth]; constructor; auto.
Qed.

Lemma rectangle_row {A} (g : list (list A)) k n r : rectangle k n g -> r < k -> length (nth r g []) = n.
Proof. intros [<- H] Hr. rewrite Forall_forall in H. apply H, nth_In, Hr. Qed.

Lemma rectangle_cell {A} (g : list (list A)) k n r c (d : A) :
  rectangle k n g -> r < k -> c < n -> at_cell g r c = Some (nth c (nth r g []) d).
Proof.
  intros H Hr Hc. unfold at_cell. destruct H as [H1 H2].
  rewrite (nth_error_nth' g [] ) by lia. apply nth_error_nth'.
  rewrite Forall_forall in H2. rewrite (H2 (nth r g [])); auto. apply nth_In. lia.
Qed.

Lemma ascending_identity (l : list nat) n : StronglySorted lt l -> Forall (fun x => x < n) l -> length l = n -> l = seq 0 n.
Proof.
  intros Hs Hf Hl.
  assert (G : forall l a n, StronglySorted lt l -> Forall (fun x => a <= x < a + n) l -> length l = n -> l = seq a n).
  { clear. induction l as [|x l IH]; intros a n Hs Hf Hl; cbn in Hl; subst; [reflexivity|].
    inversion Hs as [|? ? Hs' Hx]; subst. inversion Hf as [|? ? Hfx Hf']; subst.
    assert (L : forall l x k, StronglySorted lt l -> Forall (lt x) l -> Forall (fun y => y < k) l -> l = [] \/ length l + x < k).
    { clear. induction l as [|y l IH]; intros x k Hs Hx Hk; [left; reflexivity|right].
      inversion Hs as [|? ? Hs' Hy]; subst. inversion Hx; subst. inversion Hk; subst.
      destruct (IH y k Hs' Hy) as [->|G]; auto; cbn; lia. }
    assert (E : x = a).
    { destruct (L l x (a + S (length l)) Hs' Hx) as [->|G].
      - eapply Forall_impl; [|exact Hf']. cbn. intros; lia.
      - cbn in *. lia.
      - cbn in *. lia. }
    subst. cbn [length seq]. f_equal. apply IH; auto.
    rewrite Forall_forall in *. intros y Hy. specialize (Hx y Hy). specialize (Hf' y Hy). cbn in *. lia. }
  apply (G l 0 n); auto. eapply Forall_impl; [|exact Hf]. cbn. intros; lia.
Qed.

Lemma StronglySorted_NoDup (l : list nat) : StronglySorted lt l -> NoDup l.
Proof.
  induction 1 as [|x l Hs IH Hx]; constructor; auto. intros Hin. rewrite Forall_forall in Hx. specialize (Hx x Hin). lia.
Qed.

(** * One array *)
Section Slot.
Variables (A : Type) (none : A) (freqs edges : list Qc) (beyond : Qc) (n nsource nt : nat) (rows : list nat) (source : grid A).
Hypothesis rows_range : Forall (fun r => r < nt) rows.
Hypothesis rows_nodup : NoDup rows.
Hypothesis rows_len : length rows = length source.
Hypothesis source_rect : rectangle (length source) nsource source.
Let zrows := map Z.of_nat rows.

Lemma zrow s : s < length source -> nth s zrows 0%Z = Z.of_nat (nth s rows 0).
Proof. intros. unfold zrows. change 0%Z with (Z.of_nat 0) at 1. apply map_nth. Qed.
Lemma row_range s : s < length source -> nth s rows 0 < nt.
Proof. intros. rewrite Forall_forall in rows_range. apply rows_range, nth_In. lia. Qed.

(** Copying one channel *)
Lemma copy_channel_ok b c x :
  rectangle nt n (cells x) -> c < n -> b < nsource ->
  let y := copy_channel none source zrows b c x in
  rectangle nt n (cells y) /\ next y = next x /\ bad_read y = bad_read x /\ bad_write y = bad_write x /\
  (forall s r, nth_error rows s = Some r -> at_cell (cells y) r c = at_cell source s b) /\
  (forall r c', ~ (In r rows /\ c' = c) -> at_cell (cells y) r c' = at_cell (cells x) r c').
Proof.
  intros Hx Hc Hb.
  assert (G : forall k, k <= length source ->
    let y := fold_left (fun x s => put (nth s zrows 0%Z) c (nth b (nth s source []) none) x) (seq 0 k) x in
    rectangle nt n (cells y) /\ next y = next x /\ bad_read y = bad_read x /\ bad_write y = bad_write x /\
    (forall s r, s < k -> nth_error rows s = Some r -> at_cell (cells y) r c = at_cell source s b) /\
    (forall r c', (forall s, s < k -> nth_error rows s = Some r -> c' <> c) -> at_cell (cells y) r c' = at_cell (cells x) r c')).
  { induction k as [|k IH]; intros Hk.
    - cbn [seq fold_left]. repeat (split; auto). intros; lia.
    - destruct (IH ltac:(lia)) as (I1 & I2 & I3 & I4 & I5 & I6). clear IH.
      rewrite seq_S, fold_left_app. cbn [fold_left Nat.add].
      set (y0 := fold_left _ (seq 0 k) x) in *. unfold put.
      rewrite zrow by lia. pose proof (row_range k ltac:(lia)) as Hr.
      assert (L : length (cells y0) = nt) by apply I1.
      replace (Z.of_nat (nth k rows 0%nat) <? Z.of_nat (length (cells y0)))%Z with true by (symmetry; apply Z.ltb_lt; lia).
      rewrite Nat2Z.id. cbn [cells next bad_read bad_write].
      set (r0 := nth k rows 0) in *.
      assert (Hk0 : nth_error rows k = Some r0) by (apply nth_error_nth'; lia).
      assert (Len : length (nth r0 (cells y0) []) = n) by (eapply rectangle_row; eauto).
      assert (E : forall r c', at_cell (set_nth (cells y0) r0 (set_nth (nth r0 (cells y0) []) c (nth b (nth k source []) none))) r c' =
                  if (r =? r0) && (c' =? c) then at_cell source k b else at_cell (cells y0) r c').
      { intros r c'. rewrite at_cell_set by lia. destruct (Nat.eqb_spec r r0) as [->|N]; auto.
        rewrite nth_error_set_nth by lia. cbn [andb]. destruct (Nat.eqb_spec c' c) as [->|N'].
        - symmetry. eapply rectangle_cell; eauto.
        - unfold at_cell. now rewrite (nth_error_nth' (cells y0) []) by lia. }
      split; [|split; [|split; [|split; [|split]]]]; auto.
      + apply rectangle_set; auto. now rewrite set_nth_length.
      + intros s r Hs Hn. rewrite E. destruct (Nat.eq_dec s k) as [->|N].
        * rewrite Hk0 in Hn. injection Hn as <-. now rewrite !Nat.eqb_refl.
        * assert (r <> r0).
          { intros ->. apply N. rewrite NoDup_nth_error in rows_nodup. apply rows_nodup; [apply nth_error_Some; congruence|congruence]. }
          destruct (Nat.eqb_spec r r0); [contradiction|]. cbn [andb]. apply I5; auto. lia.
      + intros r c' Hno. rewrite E. destruct (Nat.eqb_spec r r0) as [->|N]; cbn [andb].
        * destruct (Nat.eqb_spec c' c) as [->|N']; [exfalso; apply (Hno k); auto|]. apply I6. intros; apply (Hno s); auto.
        * apply I6. intros s Hs Hn. apply (Hno s); auto. }
  destruct (G (length source) ltac:(lia)) as (I1 & I2 & I3 & I4 & I5 & I6).
  cbv zeta. unfold copy_channel. repeat (split; auto).
  - intros s r Hn. apply I5; auto. rewrite <- rows_len. apply nth_error_Some. congruence.
  - intros r c' Hno. apply I6. intros s Hs Hn ->. apply Hno. split; auto. eapply nth_error_In; eauto.
Qed.

(** The channels of the target that have been handled: channel [c] got channel [nth c bs] of the source. *)
Definition filled (bs : list nat) (target : grid A) (x : slot A) : Prop :=
  rectangle nt n (cells x) /\ next x = length bs /\ bad_write x = false /\
  (forall s r c b, nth_error rows s = Some r -> nth_error bs c = Some b -> at_cell (cells x) r c = at_cell source s b) /\
  (forall r c, ~ In r rows -> at_cell (cells x) r c = at_cell target r c) /\
  (forall r c, length bs <= c -> at_cell (cells x) r c = at_cell target r c).

Lemma filled_step bs target x b :
  filled bs target x -> length bs < n -> b < nsource ->
  let y := copy_channel none source zrows b (next x) x in
  filled (bs ++ [b]) target (MkSlot (cells y) (next y + 1) (bad_read y) (bad_write y)) /\ bad_read y = bad_read x.
Proof.
  intros (F1 & F2 & F3 & F4 & F5 & F6) Hn Hb. cbv zeta.
  destruct (copy_channel_ok b (next x) x F1) as (C1 & C2 & C3 & C4 & C5 & C6); [lia|auto|].
  split; auto. unfold filled. cbn [cells next bad_write]. rewrite app_length. cbn [length].
  repeat split; auto; try apply C1; try congruence; try lia.
  - intros s r c b' Hs Hc. destruct (Nat.lt_ge_cases c (length bs)).
    + rewrite nth_error_app1 in Hc by auto. rewrite C6 by (intros [_ E]; lia). now apply F4.
    + rewrite nth_error_app2 in Hc by auto. destruct (c - length bs) as [|k] eqn:E.
      * cbn in Hc. injection Hc as <-. replace c with (next x) by lia. now apply C5.
      * destruct k; discriminate.
  - intros r c Hr. rewrite C6 by tauto. now apply F5.
  - intros r c Hc. rewrite C6 by (intros [_ E]; lia). apply F6. lia.
Qed.

(** [bs] extended while the frequency is below the edge *)
Fixpoint extend (m : nat) (b : nat) (edge : Qc) (bs : list nat) : list nat :=
  match m with
  | O => bs
  | S m => if qltb (nth (length bs) freqs beyond) edge && (length bs <? n) then extend m b edge (bs ++ [b]) else bs
  end.

Lemma block_loop_ok m b edge : b < nsource -> forall bs target x,
  filled bs target x -> length bs <= n -> n < m + length bs ->
  let bs' := extend m b edge bs in
  filled bs' target (block_loop none freqs beyond source zrows n b edge m x) /\
  length bs <= length bs' <= n /\
  (exists k, bs' = bs ++ repeat b k) /\
  (forall c, length bs <= c < length bs' -> (nth c freqs beyond < edge)%Qc) /\
  (length bs' < n -> (edge <= nth (length bs') freqs beyond)%Qc) /\
  bad_read (block_loop none freqs beyond source zrows n b edge m x) = bad_read x || (length freqs <=? length bs').
Proof.
  intros Hb. induction m as [|m IH]; intros bs target x Hf Hn Hm; [lia|].
  cbn [extend block_loop]. pose proof Hf as (F1 & F2 & F3 & F4 & F5 & F6). rewrite F2.
  set (x1 := MkSlot (cells x) (length bs) (bad_read x || (length freqs <=? length bs)) (bad_write x)).
  assert (Hf1 : filled bs target x1) by (unfold filled; cbn; repeat split; auto; apply F1).
  destruct (qltb_spec (nth (length bs) freqs beyond) edge) as [Hlt|Hge]; cbn [andb].
  2:{ split; [exact Hf1|]. repeat split; auto.
      - exists 0. cbn [repeat]. now rewrite app_nil_r.
      - intros; lia.
      - intros _. now apply Qcnot_lt_le. }
  destruct (Nat.ltb_spec (length bs) n) as [Hlen|Hlen].
  2:{ split; [exact Hf1|]. repeat split; auto.
      - exists 0. cbn [repeat]. now rewrite app_nil_r.
      - intros; lia.
      - intros; lia. }
  change (length bs) with (next x1) at 1 2.
  destruct (filled_step bs target x1 b Hf1 Hlen Hb) as [S1 S2].
  change (next x1) with (length bs) in S1, S2 |- * at 1. cbn [next x1] in S1, S2.
  specialize (IH (bs ++ [b]) target _ S1). rewrite app_length in IH. cbn [length] in IH.
  destruct IH as (I1 & I2 & (k & I3) & I4 & I5 & I6); [lia|lia|].
  split; [exact I1|]. repeat split; try lia.
  - exists (S k). rewrite I3, <- app_assoc. reflexivity.
  - intros c Hc. destruct (Nat.eq_dec c (length bs)) as [->|]; auto. apply I4. lia.
  - exact I5.
  - etransitivity; [exact I6|]. cbn [bad_read]. rewrite S2. cbn [x1 bad_read].
    assert (E : (length freqs <=? length bs) = true -> (length freqs <=? length (extend m b edge (bs ++ [b]))) = true).
    { intros E. apply Nat.leb_le in E. apply Nat.leb_le. lia. }
    destruct (length freqs <=? length bs); [rewrite E by auto; now rewrite !orb_true_r|now rewrite orb_false_r].
Qed.

Hypothesis freqs_len : length freqs = n.
Hypothesis edges_len : length edges = nsource.
Hypothesis freqs_asc : ascending freqs.

Definition chosen (B : nat) (bs : list nat) : Prop :=
  (forall c b, nth_error bs c = Some b -> b < B /\ (nth c freqs 0 < nth b edges 0)%Qc /\ forall b', b' < b -> (nth b' edges 0 <= nth c freqs 0)%Qc) /\
  (length bs < n -> forall b, b < B -> (nth b edges 0 <= nth (length bs) freqs 0)%Qc).

Lemma blocks_ok target : rectangle nt n target -> forall B, B <= nsource -> exists bs,
  let x := fold_left (fun x b => block_loop none freqs beyond source zrows n b (nth b edges 0%Qc) (S n) x) (seq 0 B) (MkSlot target 0 false false) in
  filled bs target x /\ length bs <= n /\ chosen B bs /\ bad_read x = (0 <? B) && (n <=? length bs).
Proof.
  intros Ht. induction B as [|B IH]; intros HB.
  - exists []. cbn [seq fold_left]. split; [|split; [cbn; lia|split]].
    + unfold filled. cbn. repeat split; auto; try apply Ht. intros s r c b _ H. now destruct c.
    + split; [intros c b H; now destruct c|intros; lia].
    + reflexivity.
  - destruct (IH ltac:(lia)) as (bs & I1 & I2 & I3 & I4). clear IH.
    rewrite seq_S, fold_left_app. cbn [fold_left Nat.add].
    set (x0 := fold_left _ (seq 0 B) _) in *.
    destruct (block_loop_ok (S n) B (nth B edges 0%Qc) ltac:(lia) bs target x0 I1 I2 ltac:(lia)) as (L1 & L2 & (k & L3) & L4 & L5 & L6).
    set (bs' := extend (S n) B (nth B edges 0%Qc) bs) in *.
    exists bs'. cbv zeta. split; [exact L1|]. split; [lia|].
    assert (Lb : length bs' = length bs + k) by (rewrite L3, app_length, repeat_length; reflexivity).
    destruct I3 as [J1 J2]. split; [split|].
    + intros c b Hc. destruct (Nat.lt_ge_cases c (length bs)) as [Hlt|Hge].
      * rewrite L3, nth_error_app1 in Hc by auto. destruct (J1 c b Hc) as (K1 & K2 & K3). split; [lia|]. auto.
      * assert (Hcl : c < length bs') by (apply nth_error_Some; congruence).
        assert (b = B).
        { rewrite L3, nth_error_app2 in Hc by auto. apply nth_error_In in Hc. now apply repeat_spec in Hc. }
        subst b. split; [lia|]. split.
        { specialize (L4 c ltac:(lia)). rewrite (nth_indep freqs beyond 0%Qc) in L4 by lia. exact L4. }
        intros b' Hb'. eapply Qcle_trans; [apply J2; [lia|exact Hb']|].
        destruct (Nat.eq_dec (length bs) c) as [->|]; [apply Qcle_refl|]. apply freqs_asc. lia.
    + intros Hn b Hb. destruct (Nat.eq_dec b B) as [->|].
      * specialize (L5 Hn). rewrite (nth_indep freqs beyond 0%Qc) in L5 by lia. exact L5.
      * eapply Qcle_trans; [apply (J2 ltac:(lia) b ltac:(lia))|].
        destruct (Nat.eq_dec (length bs) (length bs')) as [->|]; [apply Qcle_refl|]. apply freqs_asc. lia.
    + rewrite L6, I4, freqs_len. cbn [Nat.ltb Nat.leb andb].
      assert (E : (n <=? length bs) = true -> (n <=? length bs') = true).
      { intros E. apply Nat.leb_le in E. apply Nat.leb_le. lia. }
      destruct (n <=? length bs); [rewrite E by auto; now rewrite orb_true_r|now rewrite andb_false_r].
Qed.

Lemma ends_above_unique c b b' : ends_above freqs edges c b -> ends_above freqs edges c b' -> b = b'.
Proof.
  intros (H1 & H2 & H3) (G1 & G2 & G3). destruct (Nat.lt_trichotomy b b') as [H|[H|H]]; auto; exfalso.
  - specialize (G3 b H). now apply Qcle_not_lt in G3.
  - specialize (H3 b' H). now apply Qcle_not_lt in H3.
Qed.

Lemma chosen_all bs c b : chosen nsource bs -> length bs <= n -> c < n -> ends_above freqs edges c b -> nth_error bs c = Some b.
Proof.
  intros [J1 J2] Hl Hc Hb. destruct (Nat.lt_ge_cases c (length bs)) as [Hlt|Hge].
  - destruct (nth_error bs c) as [b'|] eqn:E; [|apply nth_error_None in E; lia]. f_equal.
    apply (ends_above_unique c); auto. destruct (J1 c b' E) as (K1 & K2 & K3). split; [lia|]. auto.
  - exfalso. destruct Hb as (H1 & H2 & H3).
    specialize (J2 ltac:(lia) b ltac:(lia)).
    assert (L : (nth (length bs) freqs 0 <= nth c freqs 0)%Qc).
    { destruct (Nat.eq_dec (length bs) c) as [->|]; [apply Qcle_refl|]. apply freqs_asc. lia. }
    apply (Qcle_not_lt _ _ (Qcle_trans _ _ _ J2 L)). exact H2.
Qed.

Hypothesis rows_sorted : StronglySorted lt rows.

Lemma transfer_ok target : rectangle nt n target ->
  let x := transfer_slot none freqs edges beyond n nsource zrows source target in
  bad_write x = false /\ transferred n nsource freqs edges rows source target (cells x).
Proof.
  intros Ht. cbv zeta. unfold transfer_slot.
  assert (Lt : length target = nt) by apply Ht.
  destruct (Nat.eqb_spec nsource n) as [En|En]; cbn [andb].
  - destruct (Nat.eqb_spec (length source) (length target)) as [El|El].
    + cbn [bad_write cells]. split; auto.
      assert (Er : rows = seq 0 nt) by (apply ascending_identity; auto; lia).
      unfold transferred, source_channel. rewrite <- En, Nat.eqb_refl. split; [|split; [|split]].
      * rewrite <- El. exact source_rect.
      * intros s r c b Hs Hc ->. rewrite Er in Hs.
        assert (s < nt) by (rewrite <- (seq_length nt 0); apply nth_error_Some; congruence).
        rewrite (nth_error_nth' _ 0) in Hs by (rewrite seq_length; lia). rewrite seq_nth in Hs by lia.
        injection Hs as <-. reflexivity.
      * intros r c Hr. rewrite Er, in_seq in Hr. unfold at_cell.
        rewrite !(proj2 (nth_error_None _ _)) by lia. reflexivity.
      * intros r c Hb. exfalso. now apply (Hb c).
    + clear El.
      assert (G : forall k, k <= length source ->
        let y := fold_left (fun x s => put_row (nth s zrows 0%Z) (nth s source []) x) (seq 0 k) (MkSlot target 0 false false) in
        rectangle nt n (cells y) /\ bad_write y = false /\
        (forall s r c, s < k -> nth_error rows s = Some r -> at_cell (cells y) r c = at_cell source s c) /\
        (forall r c, (forall s, s < k -> nth_error rows s <> Some r) -> at_cell (cells y) r c = at_cell target r c)).
      { induction k as [|k IH]; intros Hk.
        - cbn [seq fold_left]. cbn [cells bad_write]. repeat (split; auto); try apply Ht. intros; lia.
        - destruct (IH ltac:(lia)) as (I1 & I2 & I3 & I4). clear IH.
          rewrite seq_S, fold_left_app. cbn [fold_left Nat.add].
          set (y0 := fold_left _ (seq 0 k) _) in *. unfold put_row.
          rewrite zrow by lia. pose proof (row_range k ltac:(lia)) as Hr.
          assert (L : length (cells y0) = nt) by apply I1.
          replace (Z.of_nat (nth k rows 0%nat) <? Z.of_nat (length (cells y0)))%Z with true by (symmetry; apply Z.ltb_lt; lia).
          rewrite Nat2Z.id. cbn [cells bad_write]. set (r0 := nth k rows 0) in *.
          assert (Hk0 : nth_error rows k = Some r0) by (apply nth_error_nth'; lia).
          assert (E : forall r c, at_cell (set_nth (cells y0) r0 (nth k source [])) r c = if r =? r0 then at_cell source k c else at_cell (cells y0) r c).
          { intros r c. rewrite at_cell_set by lia. destruct (r =? r0); auto.
            unfold at_cell. now rewrite (nth_error_nth' source []) by lia. }
          split; [|split; [|split]]; auto.
          + apply rectangle_set; auto. rewrite <- En. eapply rectangle_row; eauto.
          + intros s r c Hs Hn. rewrite E. destruct (Nat.eqb_spec r r0) as [->|N].
            * assert (s = k).
              { rewrite NoDup_nth_error in rows_nodup. apply rows_nodup; [apply nth_error_Some; congruence|congruence]. }
              now subst.
            * apply I3; auto. assert (s <> k) by congruence. lia.
          + intros r c Hno. rewrite E. destruct (Nat.eqb_spec r r0) as [->|N]; [exfalso; apply (Hno k); auto|].
            apply I4. intros; apply Hno; lia. }
      destruct (G (length source) ltac:(lia)) as (I1 & I2 & I3 & I4).
      split; auto. unfold transferred, source_channel. rewrite <- En, Nat.eqb_refl, Lt. split; [|split; [|split]].
      * rewrite En. exact I1.
      * intros s r c b Hs Hc ->. apply I3; auto. rewrite <- rows_len. apply nth_error_Some. congruence.
      * intros r c Hr. apply I4. intros s Hs Hn. apply Hr. eapply nth_error_In; eauto.
      * intros r c Hb. exfalso. now apply (Hb c).
  - unfold copy_blocks.
    destruct (blocks_ok target Ht nsource ltac:(lia)) as (bs & (F1 & F2 & F3 & F4 & F5 & F6) & Hl & Hc & _).
    split; auto. unfold transferred, source_channel. replace (n =? nsource) with false by (symmetry; apply Nat.eqb_neq; lia).
    rewrite Lt. split; [exact F1|]. split; [|split].
    + intros s r c b Hs Hcn Hb. eapply F4; eauto. now apply chosen_all.
    + exact F5.
    + intros r c Hb. apply F6. destruct (Nat.le_gt_cases (length bs) c) as [|Hlt]; auto. exfalso.
      destruct (nth_error bs c) as [b|] eqn:E; [|apply nth_error_None in E; lia].
      apply (Hb b). destruct Hc as [J1 _]. destruct (J1 c b E) as (K1 & K2 & K3). split; [lia|]. auto.
Qed.

(** Reading behind the frequencies *)
Lemma bad_read_iff target : rectangle nt n target -> n <> nsource -> 0 < n -> 0 < nsource ->
  bad_read (transfer_slot none freqs edges beyond n nsource zrows source target) = true <->
  exists b, b < nsource /\ (nth (n - 1) freqs 0 < nth b edges 0)%Qc.
Proof.
  intros Ht En Hn Hs. unfold transfer_slot. replace (nsource =? n) with false by (symmetry; apply Nat.eqb_neq; lia).
  cbn [andb]. unfold copy_blocks.
  destruct (blocks_ok target Ht nsource ltac:(lia)) as (bs & _ & Hl & [J1 J2] & E).
  rewrite E. replace (0 <? nsource) with true by (symmetry; apply Nat.ltb_lt; lia). cbn [andb].
  rewrite Nat.leb_le. split.
  - intros Hb. destruct (nth_error bs (n - 1)) as [b|] eqn:Eb; [|apply nth_error_None in Eb; lia].
    exists b. destruct (J1 _ _ Eb) as (K1 & K2 & _). auto.
  - intros (b & Hb & Hlt). destruct (Nat.le_gt_cases n (length bs)) as [|Hg]; auto. exfalso.
    specialize (J2 Hg b Hb).
    assert (L : (nth (length bs) freqs 0 <= nth (n - 1) freqs 0)%Qc).
    { destruct (Nat.eq_dec (length bs) (n - 1)) as [->|]; [apply Qcle_refl|]. apply freqs_asc. lia. }
    apply (Qcle_not_lt _ _ (Qcle_trans _ _ _ J2 L)). exact Hlt.
Qed.
End Slot.

(** * The step *)
Section Step.
Variables (D F : Type) (no_data : D) (no_flag : F) (beyond : Qc) (c : config) (nt : nat).
Let sel := baselines (selected c) nt.

Lemma sel_sorted : StronglySorted lt (selected c) -> StronglySorted lt sel.
Proof.
  intros H. unfold sel, baselines. destruct (selected c); auto.
  clear. generalize 0. induction nt as [|m IH]; intros a; cbn [seq]; constructor; auto.
  apply Forall_forall. intros x Hx. apply in_seq in Hx. lia.
Qed.
Lemma sel_range : Forall (fun r => r < nt) (selected c) -> Forall (fun r => r < nt) sel.
Proof.
  intros H. unfold sel, baselines. destruct (selected c); auto.
  apply Forall_forall. intros x Hx. apply in_seq in Hx. lia.
Qed.

Lemma target_rows_ok rows : Forall (fun r => r < nt) (selected c) -> consecutive nt rows -> 0 < nt -> target_rows c rows = map Z.of_nat sel.
Proof.
  intros Hr (r0 & Hz & ->) Hn. unfold target_rows.
  assert (E : forall i, i < nt -> nth i (map (fun i => r0 + Z.of_nat i)%Z (seq 0 nt)) 0%Z = (r0 + Z.of_nat i)%Z).
  { intros i Hi. rewrite (nth_indep _ 0%Z (r0 + Z.of_nat 0)%Z) by (rewrite map_length, seq_length; lia).
    rewrite (map_nth (fun i => r0 + Z.of_nat i)%Z). rewrite seq_nth by lia. reflexivity. }
  rewrite (E 0 Hn).
  assert (S0 : match selected c with [] => map (fun i => r0 + Z.of_nat i)%Z (seq 0 nt) | _ => map (fun i => nth i (map (fun i => r0 + Z.of_nat i)%Z (seq 0 nt)) 0%Z) (selected c) end
               = map (fun i => r0 + Z.of_nat i)%Z sel).
  { unfold sel, baselines. destruct (selected c) as [|s0 l]; auto.
    apply map_ext_in. intros i Hi. apply E. rewrite Forall_forall in Hr. now apply Hr. }
  assert (S1 : forall A (l : list A) (x y : list Z) (f : nat -> Z), (l = [] -> x = y) ->
           match l with [] => x | _ :: _ => y end = y) by (intros ? [|] ? ? ? H0; auto).
  replace (match selected c with [] => map (fun i => r0 + Z.of_nat i)%Z (seq 0 nt) | (_ :: _) as sel0 => map (fun i => nth i (map (fun i => r0 + Z.of_nat i)%Z (seq 0 nt)) 0%Z) sel0 end)
     with (map (fun i => r0 + Z.of_nat i)%Z sel).
  2:{ rewrite <- S0. destruct (selected c); reflexivity. }
  rewrite map_map. apply map_ext_in. intros i Hi.
  pose proof (sel_range Hr) as Hs. rewrite Forall_forall in Hs. specialize (Hs i Hi).
  rewrite Z.mod_small; lia.
Qed.

Variable slots : list (grid D * grid F).
Let n := length slots.
Let fac := Z.to_nat (factor c).

Definition agree (cur slot : grid D * grid F) : Prop :=
  (with_data c = true -> fst cur = fst slot) /\ (with_flags c = true -> snd cur = snd slot).
(** Before time slot q * factor + j of the target *)
Definition before (q j : nat) (st : state D F) : Prop :=
  (j = 0 /\ counter st = 0%Z /\ pending st = skipn q slots /\ (q = 0 \/ agree (current st) (nth (Nat.min (q - 1) (n - 1)) slots ([], [])))) \/
  (0 < j /\ counter st = Z.of_nat (fac - j) /\ pending st = skipn (S q) slots /\ agree (current st) (nth (Nat.min q (n - 1)) slots ([], []))).
Definition ready (q j : nat) (st : state D F) : Prop :=
  counter st = Z.of_nat (fac - j) /\ pending st = skipn (S q) slots /\ agree (current st) (nth (Nat.min q (n - 1)) slots ([], [])).

Lemma skipn_cons {X} k (l : list X) x r : skipn k l = x :: r -> k < length l /\ skipn (S k) l = r /\ forall d, nth k l d = x.
Proof.
  revert l. induction k as [|k IH]; intros [|y l] H; cbn in H; try discriminate.
  - injection H as -> ->. cbn. repeat split; auto. lia.
  - destruct (IH l H) as (I1 & I2 & I3). cbn [length]. split; [lia|]. split; auto.
Qed.

Lemma advance_ready q j st : (0 < factor c)%Z -> 0 < n -> j < fac -> before q j st -> ready q j (advance c st).
Proof.
  intros Hf Hn Hj [(-> & B1 & B2 & B3)|(B0 & B1 & B2 & B3)]; unfold advance; rewrite B1.
  - cbn [Z.leb Z.compare]. rewrite B2. destruct (skipn q slots) as [|[d f] more] eqn:E.
    + assert (n <= q). { unfold n. rewrite <- (firstn_skipn q slots), E, app_nil_r, firstn_length. lia. }
      unfold ready. cbn [counter pending current]. split; [unfold fac; lia|]. split.
      * symmetry. apply skipn_all2. unfold n in *. lia.
      * destruct B3 as [->|B3]; [lia|]. replace (Nat.min q (n - 1)) with (Nat.min (q - 1) (n - 1)) by lia. exact B3.
    + apply skipn_cons in E as (E1 & E2 & E3). unfold ready. cbn [counter pending current]. split; [unfold fac; lia|]. split; auto.
      replace (Nat.min q (n - 1)) with q by (unfold n; lia). rewrite E3. unfold agree. cbn [fst snd]. split; intros ->; reflexivity.
  - replace (Z.of_nat (fac - j) <=? 0)%Z with false by (symmetry; apply Z.leb_gt; lia).
    unfold ready. auto.
Qed.

(** What a buffer should become with a time slot of the source *)
Definition copied (slot : grid D * grid F) (b b' : buf D F) : Prop :=
  b_rows b' = b_rows b /\
  (if with_data c then transferred (chans c) (source_chans c) (target_freqs c) (source_edges c) sel (fst slot) (b_data b) (b_data b')
   else b_data b' = b_data b) /\
  (if with_flags c then transferred (chans c) (source_chans c) (target_freqs c) (source_edges c) sel (snd slot) (b_flags b) (b_flags b')
   else b_flags b' = b_flags b).

Definition good_buf (b : buf D F) : Prop :=
  rectangle nt (chans c) (b_data b) /\ rectangle nt (chans c) (b_flags b) /\ consecutive nt (b_rows b).
Definition good_slot (s : grid D * grid F) : Prop :=
  rectangle (source_rows c) (source_chans c) (fst s) /\ rectangle (source_rows c) (source_chans c) (snd s).

Hypothesis Hfac : (0 < factor c < 2 ^ 64)%Z.
Hypothesis Hnt : 0 < nt.
Hypothesis Hsorted : StronglySorted lt (selected c).
Hypothesis Hrange : Forall (fun r => r < nt) (selected c).
Hypothesis Hcount : length sel = source_rows c.
Hypothesis Hfreqs : length (target_freqs c) = chans c.
Hypothesis Hedges : length (source_edges c) = source_chans c.
Hypothesis Hasc : ascending (target_freqs c).
Hypothesis Hslots : Forall good_slot slots.
Hypothesis Hn : 0 < n.

Lemma process_ok q j st b : j < fac -> before q j st -> good_buf b ->
  exists st' b', process no_data no_flag beyond c st b = Ok (st', b') /\
    copied (nth (Nat.min q (n - 1)) slots ([], [])) b b' /\
    (if S j <? fac then before q (S j) st' else before (S q) 0 st').
Proof.
  intros Hj Hb (G1 & G2 & G3).
  destruct (advance_ready q j st ltac:(lia) Hn Hj Hb) as (R1 & R2 & R3).
  set (slot := nth (Nat.min q (n - 1)) slots ([], [])) in *.
  assert (Gs : good_slot slot). { rewrite Forall_forall in Hslots. apply Hslots, nth_In. unfold n in *. lia. }
  destruct Gs as [S1 S2]. destruct R3 as [A1 A2].
  unfold process. destruct (current (advance c st)) as [sd sf] eqn:Ec. cbn [fst snd] in A1, A2.
  pose proof (target_rows_ok (b_rows b) Hrange G3 Hnt) as Et.
  assert (Hrows : b_rows b <> []). { destruct G3 as (r0 & _ & ->). destruct nt; [lia|discriminate]. }
  destruct (b_rows b) as [|z0 zs] eqn:Erows; [contradiction|]. clear Hrows. rewrite Et.
  assert (Ed : with_data c = true -> length sd = source_rows c) by (intros W; rewrite (A1 W); apply S1).
  assert (Ef : with_flags c = true -> length sf = source_rows c) by (intros W; rewrite (A2 W); apply S2).
  assert (E0 : (with_data c && negb (length sd =? source_rows c)) || (with_flags c && negb (length sf =? source_rows c)) = false).
  { destruct (with_data c), (with_flags c); cbn [andb orb]; rewrite ?Ed, ?Ef by auto; rewrite ?Nat.eqb_refl; reflexivity. }
  rewrite E0. rewrite map_length, Hcount, Nat.eqb_refl. cbn [negb].
  set (xd := if with_data c then _ else _). set (xf := if with_flags c then transfer_slot no_flag _ _ _ _ _ _ _ _ else _).
  assert (Xd : bad_write xd = false /\ (if with_data c then transferred (chans c) (source_chans c) (target_freqs c) (source_edges c) sel (fst slot) (b_data b) (cells xd) else cells xd = b_data b)).
  { unfold xd. destruct (with_data c); [|split; reflexivity]. rewrite (A1 eq_refl).
    apply transfer_ok with (nt := nt); auto using sel_range, sel_sorted.
    - apply StronglySorted_NoDup, sel_sorted, Hsorted.
    - rewrite Hcount. symmetry. apply S1.
    - destruct S1 as [S1a S1b]. split; auto. }
  assert (Xf : bad_write xf = false /\ (if with_flags c then transferred (chans c) (source_chans c) (target_freqs c) (source_edges c) sel (snd slot) (b_flags b) (cells xf) else cells xf = b_flags b)).
  { unfold xf. destruct (with_flags c); [|split; reflexivity]. rewrite (A2 eq_refl).
    apply transfer_ok with (nt := nt); auto using sel_range, sel_sorted.
    - apply StronglySorted_NoDup, sel_sorted, Hsorted.
    - rewrite Hcount. symmetry. apply S2.
    - destruct S2 as [S2a S2b]. split; auto. }
  destruct Xd as [-> Xd], Xf as [-> Xf]. cbn [orb].
  eexists _, _. split; [reflexivity|]. split.
  - unfold copied. cbn [b_rows b_data b_flags]. auto.
  - rewrite R1, R2. assert (Hz : ((Z.of_nat (fac - j) - 1) mod 2 ^ 64 = Z.of_nat (fac - S j))%Z).
    { rewrite Z.mod_small; unfold fac in *; lia. }
    rewrite Hz. destruct (Nat.ltb_spec (S j) fac) as [H|H].
    + right. cbn [counter pending current]. repeat split; auto; lia.
    + left. cbn [counter pending current]. replace (fac - S j) with 0 by lia. repeat split; auto.
      right. replace (S q - 1) with q by lia. split; auto.
Qed.

Lemma run_ok bufs : Forall good_buf bufs -> forall q j st, j < fac -> before q j st ->
  exists outs, run no_data no_flag beyond c st bufs = Ok outs /\ length outs = length bufs /\
    forall i b, nth_error bufs i = Some b -> exists b', nth_error outs i = Some b' /\
      copied (nth (slot_of (q * fac + j + i) fac n) slots ([], [])) b b'.
Proof.
  induction bufs as [|b bufs IH]; intros Hg q j st Hj Hb.
  - exists []. repeat split; auto. intros [|i] b H; discriminate.
  - inversion Hg as [|? ? Hg1 Hg2]; subst.
    destruct (process_ok q j st b Hj Hb Hg1) as (st' & b' & P1 & P2 & P3).
    assert (Hq : (q * fac + j) / fac = q). { rewrite Nat.div_add_l by lia. rewrite Nat.div_small by lia. lia. }
    assert (K : exists q' j', j' < fac /\ before q' j' st' /\ q' * fac + j' = q * fac + j + 1).
    { destruct (Nat.ltb_spec (S j) fac) as [H|H].
      - exists q, (S j). repeat split; auto. lia.
      - exists (S q), 0. repeat split; auto; lia. }
    destruct K as (q' & j' & K1 & K2 & K3).
    destruct (IH Hg2 q' j' st' K1 K2) as (outs & O1 & O2 & O3).
    exists (b' :: outs). cbn [run]. rewrite P1, O1. split; auto. split; [cbn; lia|].
    intros [|i] b0 Hi; cbn [nth_error] in Hi.
    + injection Hi as <-. exists b'. split; auto. unfold slot_of. rewrite Nat.add_0_r, Hq. exact P2.
    + destruct (O3 i b0 Hi) as (b1 & E1 & E2). exists b1. split; auto.
      replace (q * fac + j + S i) with (q' * fac + j' + i) by lia. exact E2.
Qed.
End Step.
