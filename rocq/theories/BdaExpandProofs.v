From Coq Require Import QArith Qround Qcanon List Bool Arith ZArith Lia Lqa.
From Verif Require Import QcUtil BdaExpandModel BdaExpandSpec.
Import ListNotations.
Open Scope Qc_scope.

(** * Arithmetic *)

Lemma Qfloor_unique (q : Q) (n : Z) : (inject_Z n <= q)%Q -> (q < inject_Z n + 1)%Q -> Qfloor q = n.
Proof.
  intros H1 H2.
  pose proof (Qfloor_resp_le _ _ H1) as A. rewrite Qfloor_Z in A.
  assert (B : (inject_Z (Qfloor q) < inject_Z (n + 1))%Q).
  { eapply Qle_lt_trans; [apply Qfloor_le|]. rewrite inject_Z_plus. exact H2. }
  rewrite <- Zlt_Qlt in B. lia.
Qed.

Lemma this_qz z : (this (qz z) == inject_Z z)%Q.
Proof. apply this_Q2Qc. Qed.

Lemma qz_qn n : qn n = qz (Z.of_nat n).
Proof. reflexivity. Qed.

Lemma qz_plus a b : qz (a + b) = qz a + qz b.
Proof. apply qc_eq. rewrite this_plus, !this_qz, inject_Z_plus. reflexivity. Qed.

Lemma qz_mult a b : qz (a * b) = qz a * qz b.
Proof. apply qc_eq. rewrite this_mult, !this_qz, inject_Z_mult. reflexivity. Qed.

Lemma qz_pos z : (0 < z)%Z -> 0 < qz z.
Proof. intros H. unfold Qclt. rewrite this_qz, this_0. change 0%Q with (inject_Z 0). now rewrite <- Zlt_Qlt. Qed.

Lemma qz_le a b : (a <= b)%Z -> qz a <= qz b.
Proof. intros H. unfold Qcle. rewrite !this_qz. now rewrite <- Zle_Qle. Qed.

Lemma qz_lt_inv a b : qz a < qz b -> (a < b)%Z.
Proof. unfold Qclt. rewrite !this_qz. now rewrite <- Zlt_Qlt. Qed.

Lemma div_bounds (a b d : Qc) : 0 < d -> a * d <= b -> a <= b / d.
Proof.
  intros Hd H. destruct (Qclt_le_dec (b / d) a) as [C|C]; auto. exfalso.
  assert (E : b = (b / d) * d) by (field; intros ->; inversion Hd).
  assert (b < a * d).
  { rewrite E at 1. apply Qcmult_lt_compat_r; auto. }
  eapply Qcle_not_lt; eauto.
Qed.

Lemma div_bounds_lt (a b d : Qc) : 0 < d -> b < a * d -> b / d < a.
Proof.
  intros Hd H. destruct (Qclt_le_dec (b / d) a) as [C|C]; auto. exfalso.
  assert (E : b = (b / d) * d) by (field; intros ->; inversion Hd).
  assert (a * d <= b).
  { rewrite E. apply Qcmult_le_compat_r; auto. now apply Qclt_le_weak. }
  eapply Qcle_not_lt; eauto.
Qed.

Section Arith.
Variables (dt t0 : Qc).
Hypothesis dt_pos : 0 < dt.

Lemma half_dt : dt / (1 + 1) = Q2Qc (1 # 2) * dt.
Proof. apply qc_eq. qc_unfold. change (this 1) with 1%Q. field. Qed.

Lemma n_out_about d n : about dt d n -> (0 <= n)%Z -> n_out dt d = n.
Proof.
  intros [H1 H2] Hn. unfold n_out.
  assert (A : qz n <= (d + dt / (1 + 1)) / dt).
  { apply div_bounds; auto. rewrite half_dt.
    assert (E : (qz n - Q2Qc (1 # 2)) * dt = qz n * dt - Q2Qc (1 # 2) * dt) by ring.
    rewrite E in H1. set (x := qz n * dt) in *. set (y := Q2Qc (1 # 2) * dt) in *.
    clearbody x y. clear E. qclra. }
  assert (B : (d + dt / (1 + 1)) / dt < qz n + 1).
  { apply div_bounds_lt; auto. rewrite half_dt.
    assert (E : (qz n + Q2Qc (1 # 2)) * dt = qz n * dt + Q2Qc (1 # 2) * dt) by ring.
    assert (E2 : (qz n + 1) * dt = qz n * dt + Q2Qc (1 # 2) * dt + Q2Qc (1 # 2) * dt).
    { replace (1 : Qc) with (Q2Qc (1 # 2) + Q2Qc (1 # 2)) by (apply qc_eq; vm_compute; reflexivity). ring. }
    rewrite E in H2. rewrite E2. set (x := qz n * dt) in *. set (y := Q2Qc (1 # 2) * dt) in *.
    clearbody x y. clear E E2. qclra. }
  set (q := (d + dt / (1 + 1)) / dt) in *. clearbody q. clear H1 H2.
  assert (F : Qfloor (this q) = n).
  { apply Qfloor_unique.
    - unfold Qcle in A. now rewrite this_qz in A.
    - unfold Qclt in B. rewrite this_plus, this_qz in B. exact B. }
  assert (N : (0 <= Qnum (this q))%Z).
  { unfold Qcle in A. rewrite this_qz in A. unfold Qle, inject_Z in A. simpl in A. nia. }
  unfold Qfloor in F. destruct (this q) as [num den]. cbn [Qnum Qden] in *.
  rewrite Z.quot_div_nonneg; auto; lia.
Qed.

Lemma about_unique d a b : about dt d a -> about dt d b -> a = b.
Proof.
  assert (G : forall a b, about dt d a -> about dt d b -> (a <= b)%Z).
  { clear a b. intros a b [H1 H2] [H3 H4].
    assert (L : (qz a - Q2Qc (1 # 2)) * dt < (qz b + Q2Qc (1 # 2)) * dt) by (eapply Qcle_lt_trans; eauto).
    assert (K : qz a - Q2Qc (1 # 2) < qz b + Q2Qc (1 # 2)).
    { destruct (Qclt_le_dec (qz a - Q2Qc (1 # 2)) (qz b + Q2Qc (1 # 2))) as [C|C]; auto. exfalso.
      assert ((qz b + Q2Qc (1 # 2)) * dt <= (qz a - Q2Qc (1 # 2)) * dt).
      { apply Qcmult_le_compat_r; auto. now apply Qclt_le_weak. }
      eapply Qcle_not_lt; eauto. }
    assert (qz a < qz (b + 1)).
    { rewrite qz_plus. change (qz 1) with 1. clear -K.
      set (x := qz a) in *. set (y := qz b) in *. clearbody x y. qclra. }
    apply qz_lt_inv in H. lia. }
  intros. apply Z.le_antisymm; auto.
Qed.

Lemma about_shift d n i : about dt d n -> about dt (d + qn i * dt) (n + Z.of_nat i).
Proof.
  intros [H1 H2]. unfold about. rewrite qz_plus, qz_qn.
  assert (E1 : (qz n + qz (Z.of_nat i) - Q2Qc (1 # 2)) * dt = (qz n - Q2Qc (1 # 2)) * dt + qz (Z.of_nat i) * dt) by ring.
  assert (E2 : (qz n + qz (Z.of_nat i) + Q2Qc (1 # 2)) * dt = (qz n + Q2Qc (1 # 2)) * dt + qz (Z.of_nat i) * dt) by ring.
  rewrite E1, E2. clear E1 E2.
  set (x := (qz n - Q2Qc (1 # 2)) * dt) in *. set (y := (qz n + Q2Qc (1 # 2)) * dt) in *.
  set (z := qz (Z.of_nat i) * dt). clearbody x y z.
  split; qclra.
Qed.

(** A row that is [near] the interval spans one slot. *)
Lemma near_about x : near x dt = true -> about dt x 1.
Proof.
  unfold near. intros H. apply qleb_true in H.
  assert (Ad : qltb dt 0 = false) by (apply qltb_false; now apply Qclt_le_weak).
  rewrite Ad in H. unfold about. change (qz 1) with 1.
  assert (E1 : (1 - Q2Qc (1 # 2)) * dt = Q2Qc (1#2) * dt) by (replace (1 - Q2Qc (1 # 2)) with (Q2Qc (1#2)) by (apply qc_eq; vm_compute; reflexivity); reflexivity).
  assert (E2 : (1 + Q2Qc (1 # 2)) * dt = Q2Qc (3#2) * dt) by (replace (1 + Q2Qc (1 # 2)) with (Q2Qc (3#2)) by (apply qc_eq; vm_compute; reflexivity); reflexivity).
  rewrite E1, E2. clear E1 E2 Ad.
  destruct (qltb_spec x 0), (qltb_spec (x - dt) 0);
    match type of H with context[qltb ?a ?b] => destruct (qltb_spec a b) end;
    repeat match goal with Hn : ~ (_ < _) |- _ => apply Qcnot_lt_le in Hn end;
    unfold Qcle, Qclt in *; change (this 0) with 0%Q in *;
    rewrite ?this_minus, ?this_mult, ?this_opp, ?this_minus, ?this_Q2Qc in *; split; lra.
Qed.
End Arith.

(** * The map *)

Section Proofs.
Context {V U : Type}.
Variables (nbl nchan : nat) (dt t0 : Qc) (mapping : nat -> list nat).
Hypothesis dt_pos : 0 < dt.

Notation put := (@put V U).
Notation emap := (@emap V U).

Lemma lookup_erase (m : emap) k k' : lookup (erase m k) k' = if (k' =? k)%Z then None else lookup m k'.
Proof.
  induction m as [|[a e] m IH]; simpl.
  - now destruct (k' =? k)%Z.
  - destruct (Z.eqb_spec a k); simpl.
    + rewrite IH. subst. destruct (Z.eqb_spec k' k); auto.
      destruct (Z.eqb_spec k k'); auto. congruence.
    + destruct (Z.eqb_spec a k').
      * subst. destruct (Z.eqb_spec k' k); congruence.
      * apply IH.
Qed.

Lemma lookup_put (m : emap) (p : put) k :
  lookup (do_put m p) k =
  if (p_key p =? k)%Z then
    Some (set_bl (match lookup m k with Some e => e | None => MkElem (p_time p) (p_exposure p) (fun _ => None) end)
                 (p_bl p) (p_cells p))
  else lookup m k.
Proof.
  unfold do_put. cbn [lookup]. destruct (Z.eqb_spec (p_key p) k).
  - now subst.
  - rewrite lookup_erase. destruct (Z.eqb_spec k (p_key p)); auto. congruence.
Qed.

Lemma erase_length (m : emap) k e : lookup m k = Some e -> (length (erase m k) < length m)%nat.
Proof.
  assert (G : forall m : emap, (length (erase m k) <= length m)%nat).
  { intros l. induction l as [|[a x] l IHl]; simpl; [lia|]. destruct (Z.eqb_spec a k); simpl; lia. }
  induction m as [|[a x] m IH]; simpl; [discriminate|].
  destruct (Z.eqb_spec a k); simpl.
  - intros _. pose proof (G m). lia.
  - intros H. apply IH in H. lia.
Qed.

(** Contents of the map at key [k] after the insertions [ps]. *)
Definition holds (ps : list put) (m : emap) (k : Z) : Prop :=
  match lookup m k with
  | None => forall p, In p ps -> p_key p <> k
  | Some e =>
      (exists p, In p ps /\ p_key p = k /\ e_time e = p_time p) /\
      forall b, match e_bl e b with
                | None => forall p, In p ps -> p_key p = k -> p_bl p <> b
                | Some c => exists p, In p ps /\ p_key p = k /\ p_bl p = b /\ p_cells p = c
                end
  end.

Lemma holds_put ps m p k : holds ps m k -> holds (ps ++ [p]) (do_put m p) k.
Proof.
  unfold holds. rewrite lookup_put. destruct (Z.eqb_spec (p_key p) k) as [Ek|Ek].
  - destruct (lookup m k) as [e|] eqn:El.
    + intros [[q (Q1 & Q2 & Q3)] H]. split.
      * exists q. rewrite in_app_iff. auto.
      * intros b. cbn [set_bl e_bl]. destruct (Nat.eqb_spec b (p_bl p)) as [Eb|Eb].
        -- exists p. rewrite in_app_iff. simpl. auto.
        -- specialize (H b). destruct (e_bl e b) as [c|].
           ++ destruct H as (q' & A & B). exists q'. rewrite in_app_iff. auto.
           ++ intros q'. rewrite in_app_iff. intros [A|[A|[]]] B; subst; auto.
    + intros H. split.
      * exists p. rewrite in_app_iff. simpl. auto.
      * intros b. cbn [set_bl e_bl]. destruct (Nat.eqb_spec b (p_bl p)) as [Eb|Eb].
        -- exists p. rewrite in_app_iff. simpl. auto.
        -- intros q'. rewrite in_app_iff. intros [A|[A|[]]] B; subst; auto.
           exfalso. eapply H; eauto.
  - destruct (lookup m k) as [e|] eqn:El.
    + intros [[q (Q1 & Q2 & Q3)] H]. split.
      * exists q. rewrite in_app_iff. auto.
      * intros b. specialize (H b). destruct (e_bl e b) as [c|].
        -- destruct H as (q' & A & B). exists q'. rewrite in_app_iff. auto.
        -- intros q'. rewrite in_app_iff. intros [A|[A|[]]] B; subst; auto; congruence.
    + intros H q'. rewrite in_app_iff. intros [A|[A|[]]]; subst; auto.
Qed.

Lemma holds_puts qs : forall ps m k, holds ps m k -> holds (ps ++ qs) (fold_left do_put qs m) k.
Proof.
  induction qs as [|q qs IH]; intros ps m k H; simpl.
  - now rewrite app_nil_r.
  - replace (ps ++ q :: qs) with ((ps ++ [q]) ++ qs) by (rewrite <- app_assoc; reflexivity).
    apply IH. now apply holds_put.
Qed.

(** * The emission loop *)

(** [ok ps k e]: element [e] was filled by insertions at key [k]. *)
Definition full (ps : list put) (k : Z) (e : elem V U) : Prop :=
  (exists p, In p ps /\ p_key p = k /\ e_time e = p_time p) /\
  forall b, (b < nbl)%nat -> exists p, In p ps /\ p_key p = k /\ p_bl p = b /\ e_bl e b = Some (p_cells p).

Definition Inv (ps : list put) (s : state V U) : Prop :=
  st_next s = Z.of_nat (length (st_out s)) /\
  (forall k, (st_next s <= k)%Z -> holds ps (st_map s) k) /\
  (forall k e, nth_error (st_out s) k = Some e -> full ps (Z.of_nat k) e).

Definition stuck (ps : list put) (k : Z) : Prop :=
  exists b, (b < nbl)%nat /\ forall p, In p ps -> p_key p = k -> p_bl p <> b.

Hypothesis nbl_pos : (0 < nbl)%nat.

Lemma complete_true (e : elem V U) : complete nbl e = true -> forall b, (b < nbl)%nat -> exists c, e_bl e b = Some c.
Proof.
  unfold complete. rewrite forallb_forall. intros H b Hb.
  specialize (H b). destruct (e_bl e b); eauto.
  discriminate H. apply in_seq. lia.
Qed.

Lemma complete_false (e : elem V U) : complete nbl e = false -> exists b, (b < nbl)%nat /\ e_bl e b = None.
Proof.
  unfold complete. intros H.
  destruct (forallb _ _) eqn:F in H; [discriminate|]. clear H.
  assert (G : forall l : list nat, forallb (fun b => match e_bl e b with Some _ => true | None => false end) l = false ->
              exists b, In b l /\ e_bl e b = None).
  { induction l as [|a l IH]; simpl; [discriminate|]. destruct (e_bl e a) eqn:E.
    - simpl. intros K. destruct (IH K) as (b & A & B). eauto.
    - intros _. eauto. }
  destruct (G _ F) as (b & A & B). exists b. apply in_seq in A. split; [lia|auto].
Qed.

Lemma emit_inv ps fuel : forall s,
  (forall p, In p ps -> (p_key p < 2 ^ 31)%Z) ->
  Inv ps s -> (length (st_map s) < fuel)%nat ->
  Inv ps (emit nbl fuel s) /\ stuck ps (st_next (emit nbl fuel s)).
Proof.
  induction fuel as [|fuel IH]; intros s Hk HI Hf; [lia|].
  cbn [emit]. destruct HI as (I1 & I2 & I3).
  pose proof (I2 (st_next s) (Z.le_refl _)) as Hn. unfold holds in Hn.
  destruct (lookup (st_map s) (st_next s)) as [e|] eqn:El.
  - destruct Hn as [Ht Hb]. destruct (complete nbl e) eqn:Ec.
    + assert (Kb : (st_next s < 2 ^ 31)%Z) by (destruct Ht as (p & A & B & _); rewrite <- B; auto).
      apply IH; auto.
      * unfold Inv. cbn [st_next st_out st_map]. repeat split.
        -- rewrite app_length. simpl. unfold key. rewrite Z.mod_small; lia.
        -- intros k. unfold key. rewrite Z.mod_small by lia. intros Hle.
           unfold holds. rewrite lookup_erase.
           destruct (Z.eqb_spec k (st_next s)); [lia|]. apply I2. lia.
        -- destruct (Nat.lt_ge_cases k (length (st_out s))) as [Hl|Hl].
           ++ rewrite nth_error_app1 in H by auto. now apply (I3 k e0).
           ++ rewrite nth_error_app2 in H by auto.
              destruct (k - length (st_out s))%nat as [|j] eqn:Ej; simpl in H.
              ** inversion H; subst e0. replace (Z.of_nat k) with (st_next s) by lia. exact Ht.
              ** destruct j; discriminate.
        -- destruct (Nat.lt_ge_cases k (length (st_out s))) as [Hl|Hl].
           ++ rewrite nth_error_app1 in H by auto. now apply (I3 k e0).
           ++ rewrite nth_error_app2 in H by auto.
              destruct (k - length (st_out s))%nat as [|j] eqn:Ej; simpl in H.
              ** inversion H; subst e0. replace (Z.of_nat k) with (st_next s) by lia.
                 intros b Hlt. destruct (complete_true _ Ec b Hlt) as [c Hc].
                 specialize (Hb b). rewrite Hc in Hb. destruct Hb as (p & P1 & P2 & P3 & P4).
                 exists p. rewrite P4. auto.
              ** destruct j; discriminate.
      * cbn [st_map]. pose proof (erase_length _ _ _ El). lia.
    + split; [split; auto|]. destruct (complete_false _ Ec) as (b & B1 & B2).
      exists b. split; auto. specialize (Hb b). rewrite B2 in Hb. exact Hb.
  - split; [split; auto|]. exists 0%nat. split; auto. intros p Hp Ek.
    exfalso. exact (Hn p Hp Ek).
Qed.

Lemma full_mono ps qs k e : full ps k e -> full (ps ++ qs) k e.
Proof.
  intros [(p & A & B) H]. split.
  - exists p. rewrite in_app_iff. auto.
  - intros b Hb. destruct (H b Hb) as (q & Q). exists q. rewrite in_app_iff. tauto.
Qed.

Lemma process_inv ps s rows :
  (forall p, In p (ps ++ flat_map (row_puts dt t0 mapping) rows) -> (p_key p < 2 ^ 31)%Z) ->
  Inv ps s ->
  let ps' := ps ++ flat_map (row_puts dt t0 mapping) rows in
  let s' := process nbl dt t0 mapping s rows in
  Inv ps' s' /\ stuck ps' (st_next s').
Proof.
  intros Hk (I1 & I2 & I3). cbv zeta. unfold process.
  apply emit_inv; auto.
  - repeat split; auto; cbn [st_next st_map st_out].
    + intros k Hle. now apply holds_puts, I2.
    + destruct (I3 k e H) as [(p & A & B) _]. exists p. rewrite in_app_iff. auto.
    + apply (full_mono _ (flat_map (row_puts dt t0 mapping) rows) _ _ (I3 k e H)).
Qed.

Lemma run_inv batches :
  (forall p, In p (flat_map (row_puts dt t0 mapping) (concat batches)) -> (p_key p < 2 ^ 31)%Z) ->
  let ps := flat_map (row_puts dt t0 mapping) (concat batches) in
  let s := fold_left (process nbl dt t0 mapping) batches init in
  Inv ps s /\ stuck ps (st_next s).
Proof.
  cbv zeta. induction batches as [|x l IH] using rev_ind.
  - intros _. simpl. split.
    + repeat split; simpl; auto.
      * intros k _. unfold holds. simpl. auto.
      * destruct k; discriminate.
      * destruct k; discriminate.
    + exists 0%nat. split; auto.
  - rewrite fold_left_app. simpl. rewrite concat_app, flat_map_app. simpl. rewrite app_nil_r.
    intros Hk. apply process_inv; auto.
    apply IH. intros p Hp. apply Hk. rewrite in_app_iff. auto.
Qed.

(** * Insertions of a row *)

Hypothesis mapping_length : forall b, (b < nbl)%nat -> length (mapping b) = nchan.

Lemma row_puts_spec (r : row V U) s f p :
  (0 <= s)%Z -> (1 <= f)%Z -> (s + f < 2 ^ 31)%Z -> spans dt t0 r s f ->
  In p (row_puts dt t0 mapping r) ->
  (s <= p_key p < s + f)%Z /\ p_bl p = r_bl r /\ p_cells p = copy_data mapping r f.
Proof.
  intros Hs Hf Hsf [S1 S2]. unfold row_puts.
  destruct (near (r_interval r) dt) eqn:En.
  - apply near_about in En; auto.
    assert (f = 1%Z) by (eapply about_unique; eauto). subst f.
    intros [<-|[]]. cbn [p_key p_bl p_cells].
    rewrite (n_out_about dt dt_pos _ s S1) by auto. unfold key. rewrite Z.mod_small by lia. split; [lia|auto].
  - rewrite (n_out_about dt dt_pos _ f S2) by lia.
    rewrite in_map_iff. intros (i & <- & Hi). apply in_seq in Hi. cbn [p_key p_bl p_cells].
    replace (r_time r - r_interval r / (1 + 1) + qn i * dt - t0)
      with (r_time r - r_interval r / (1 + 1) - t0 + qn i * dt) by ring.
    rewrite (n_out_about dt dt_pos _ (s + Z.of_nat i)) by (try apply about_shift; auto; lia).
    unfold key. rewrite Z.mod_small by lia. split; [lia|auto].
Qed.

Lemma row_puts_cover (r : row V U) s f k :
  (0 <= s)%Z -> (1 <= f)%Z -> (s + f < 2 ^ 31)%Z -> spans dt t0 r s f -> (s <= k < s + f)%Z ->
  exists p, In p (row_puts dt t0 mapping r) /\ p_key p = k.
Proof.
  intros Hs Hf Hsf [S1 S2] Hk. unfold row_puts.
  destruct (near (r_interval r) dt) eqn:En.
  - apply near_about in En; auto.
    assert (f = 1%Z) by (eapply about_unique; eauto). subst f.
    eexists. split; [left; reflexivity|]. cbn [p_key].
    rewrite (n_out_about dt dt_pos _ s S1) by auto. unfold key. rewrite Z.mod_small; lia.
  - rewrite (n_out_about dt dt_pos _ f S2) by lia.
    eexists. split; [apply in_map_iff; exists (Z.to_nat (k - s)); split; [reflexivity|apply in_seq; lia]|].
    cbn [p_key].
    replace (r_time r - r_interval r / (1 + 1) + qn (Z.to_nat (k - s)) * dt - t0)
      with (r_time r - r_interval r / (1 + 1) - t0 + qn (Z.to_nat (k - s)) * dt) by ring.
    rewrite (n_out_about dt dt_pos _ (s + Z.of_nat (Z.to_nat (k - s)))) by (try apply about_shift; auto; lia).
    unfold key. rewrite Z.mod_small; lia.
Qed.

Lemma count_occ_filter (l : list nat) i :
  count_occ Nat.eq_dec l i = length (filter (fun ch => (nth ch l 0 =? i)%nat) (seq 0 (length l))).
Proof.
  induction l as [|a l IH]; auto.
  cbn [count_occ length seq filter]. change (nth 0 (a :: l) 0%nat) with a.
  rewrite <- seq_shift.
  assert (E : length (filter (fun ch => (nth ch (a :: l) 0 =? i)%nat) (map S (seq 0 (length l))))
              = length (filter (fun ch => (nth ch l 0 =? i)%nat) (seq 0 (length l)))).
  { generalize (seq 0 (length l)). intros s. induction s as [|x s IHs]; auto.
    cbn [map filter nth]. destruct (nth x l 0 =? i)%nat; simpl; auto. }
  destruct (Nat.eq_dec a i), (Nat.eqb_spec a i); try congruence; cbn [length]; rewrite E, IH; auto.
Qed.

Lemma chan_factor_pos b ch : (b < nbl)%nat -> (ch < nchan)%nat ->
  (0 < chan_factor nchan mapping b (nth ch (mapping b) 0%nat))%nat.
Proof.
  intros Hb Hc. unfold chan_factor.
  assert (In ch (filter (fun c => (nth c (mapping b) 0 =? nth ch (mapping b) 0)%nat) (seq 0 nchan))).
  { apply filter_In. split; [apply in_seq; lia|]. apply Nat.eqb_refl. }
  destruct (filter _ _); [contradiction|simpl; lia].
Qed.

Lemma copy_expands (r : row V U) s f : (r_bl r < nbl)%nat -> spans dt t0 r s f -> (1 <= f)%Z ->
  expands nchan dt t0 mapping r (copy_data mapping r f).
Proof.
  intros Hb HS Hf. split; auto. intros s' f' HS' ch corr Hch. cbv zeta.
  assert (f' = f) by (eapply about_unique; [exact dt_pos|apply HS'|apply HS]). subst f'.
  repeat split; auto. cbn [copy_data c_weight].
  rewrite count_occ_filter, (mapping_length _ Hb). fold (chan_factor nchan mapping (r_bl r) (nth ch (mapping (r_bl r)) 0%nat)).
  pose proof (chan_factor_pos _ _ Hb Hch) as Hp.
  set (n := chan_factor _ _ _ _) in *. clearbody n.
  change (Q2Qc (inject_Z (f * Z.of_nat n))) with (qz (f * Z.of_nat n)). rewrite qz_mult, <- qz_qn.
  assert (qz f <> 0) by (intros E; pose proof (qz_pos f) as P; rewrite E in P; specialize (P ltac:(lia)); inversion P).
  assert (qn n <> 0) by (now apply qn_neq0).
  field. auto.
Qed.

Theorem run_expanded (batches : list (list (row V U))) :
  (forall r, In r (concat batches) -> valid_row nbl dt t0 r) ->
  expanded nbl nchan dt t0 mapping (concat batches) (run nbl dt t0 mapping batches).
Proof.
  intros HV.
  assert (Hk : forall p, In p (flat_map (row_puts dt t0 mapping) (concat batches)) -> (p_key p < 2 ^ 31)%Z).
  { intros p Hp. apply in_flat_map in Hp. destruct Hp as (r & Hr & Hp).
    destruct (HV r Hr) as (_ & s & f & HS & A & B & C).
    destruct (row_puts_spec r s f p A B C HS Hp) as (D & _). lia. }
  destruct (run_inv batches Hk) as ((I1 & I2 & I3) & (b & Hb & Hst)).
  unfold run. set (st := fold_left _ _ _) in *. clearbody st. split.
  - intros k e Hn b' Hb'. destruct (I3 k e Hn) as [_ H]. destruct (H b' Hb') as (p & P1 & P2 & P3 & P4).
    apply in_flat_map in P1. destruct P1 as (r & Hr & Hp).
    destruct (HV r Hr) as (E & s & f & HS & A & B & C).
    destruct (row_puts_spec r s f p A B C HS Hp) as (D1 & D2 & D3).
    exists r, (p_cells p). split; [auto|]. split; [congruence|]. split; [|split; [auto|]].
    + exists s, f. split; auto. lia.
    + rewrite D3. apply (copy_expands r s f); auto.
  - exists b. split; auto. intros (r & Hr & Eb & s & f & HS & Hrange).
    destruct (HV r Hr) as (E & s' & f' & HS' & A & B & C).
    assert (s' = s) by (eapply about_unique; [exact dt_pos|apply HS'|apply HS]).
    assert (f' = f) by (eapply about_unique; [exact dt_pos|apply HS'|apply HS]). subst s' f'.
    destruct (row_puts_cover r s f _ A B C HS Hrange) as (p & P1 & P2).
    apply (Hst p).
    + apply in_flat_map. eauto.
    + now rewrite P2, I1.
    + destruct (row_puts_spec r s f p A B C HS P1) as (_ & D & _). congruence.
Qed.

(** * Time stamps *)

Lemma exact_about n : about dt (qz n * dt) n.
Proof.
  unfold about.
  assert (E1 : (qz n - Q2Qc (1 # 2)) * dt = qz n * dt - Q2Qc (1#2) * dt) by ring.
  assert (E2 : (qz n + Q2Qc (1 # 2)) * dt = qz n * dt + Q2Qc (1#2) * dt) by ring.
  rewrite E1, E2. clear E1 E2. set (x := qz n * dt). clearbody x.
  split; qclra.
Qed.

Lemma exact_put_time (r : row V U) p : valid_row nbl dt t0 r -> exact_row dt t0 r -> In p (row_puts dt t0 mapping r) ->
  p_time p = t0 + qz (p_key p) * dt + dt / (1 + 1).
Proof.
  intros (Hb & s' & f' & [S1 S2] & A & B & C) (s & f & E1 & E2).
  assert (s' = s).
  { eapply about_unique; [exact dt_pos|exact S1|]. rewrite E1.
    replace (t0 + qz s * dt - t0) with (qz s * dt) by ring. apply exact_about. }
  assert (f' = f).
  { eapply about_unique; [exact dt_pos|exact S2|]. rewrite E2. apply exact_about. }
  subst s' f'. unfold row_puts. destruct (near (r_interval r) dt) eqn:En.
  - assert (f = 1%Z) by (eapply about_unique; [exact dt_pos|exact S2|now apply near_about]). subst f.
    intros [<-|[]]. cbn [p_time p_key]. rewrite (n_out_about dt dt_pos _ s S1) by auto.
    unfold key. rewrite Z.mod_small by lia. rewrite <- E1, E2. change (qz 1) with 1.
    replace (1 * dt) with dt by ring. ring.
  - rewrite (n_out_about dt dt_pos _ f S2) by lia. rewrite in_map_iff. intros (i & <- & Hi). apply in_seq in Hi.
    cbn [p_time p_key].
    replace (r_time r - r_interval r / (1 + 1) + qn i * dt - t0)
      with (r_time r - r_interval r / (1 + 1) - t0 + qn i * dt) by ring.
    rewrite (n_out_about dt dt_pos _ (s + Z.of_nat i)) by (try apply about_shift; auto; lia).
    unfold key. rewrite Z.mod_small by lia. rewrite E1, qz_plus, qz_qn. ring.
Qed.

Theorem run_times (batches : list (list (row V U))) k e :
  (forall r, In r (concat batches) -> valid_row nbl dt t0 r /\ exact_row dt t0 r) ->
  nth_error (run nbl dt t0 mapping batches) k = Some e -> e_time e = slot_centre dt t0 k.
Proof.
  intros HV Hn.
  assert (Hk : forall p, In p (flat_map (row_puts dt t0 mapping) (concat batches)) -> (p_key p < 2 ^ 31)%Z).
  { intros p Hp. apply in_flat_map in Hp. destruct Hp as (r & Hr & Hp).
    destruct (HV r Hr) as ((_ & s & f & HS & A & B & C) & _).
    destruct (row_puts_spec r s f p A B C HS Hp) as (D & _). lia. }
  destruct (run_inv batches Hk) as ((I1 & I2 & I3) & _).
  destruct (I3 k e Hn) as [(p & P1 & P2 & P3) _].
  apply in_flat_map in P1. destruct P1 as (r & Hr & Hp). destruct (HV r Hr) as (A & B).
  rewrite P3, (exact_put_time r p A B Hp), P2. unfold slot_centre. rewrite qz_qn. reflexivity.
Qed.

(** * Weights *)

Lemma qsum_const {A} (l : list A) c : qsum (map (fun _ => c) l) = qn (length l) * c.
Proof.
  induction l as [|a l IH]; simpl.
  - rewrite qn_0. ring.
  - change (qsum (c :: map (fun _ => c) l)) with (c + qsum (map (fun _ => c) l)). rewrite IH, qn_S. ring.
Qed.

Theorem weights_conserved (batches : list (list (row V U))) r s f i corr :
  (forall r, In r (concat batches) -> valid_row nbl dt t0 r) ->
  (forall r1 r2 k, In r1 (concat batches) -> In r2 (concat batches) -> r_bl r1 = r_bl r2 ->
     covers dt t0 r1 k -> covers dt t0 r2 k -> r1 = r2) ->
  In r (concat batches) -> spans dt t0 r s f ->
  (s + f <= Z.of_nat (length (run nbl dt t0 mapping batches)))%Z ->
  In i (mapping (r_bl r)) ->
  qsum (map (fun k => match nth_error (run nbl dt t0 mapping batches) k with
                      | Some e => match e_bl e (r_bl r) with
                                  | Some c => qsum (map (fun ch => c_weight c ch corr)
                                                        (filter (fun ch => (nth ch (mapping (r_bl r)) 0 =? i)%nat) (seq 0 nchan)))
                                  | None => 0
                                  end
                      | None => 0
                      end) (seq (Z.to_nat s) (Z.to_nat f))) = r_weight r i corr.
Proof.
  intros HV HU Hr HS Hlen Hi.
  destruct (HV r Hr) as (Hb & s' & f' & HS' & A & B & C).
  assert (s' = s) by (eapply about_unique; [exact dt_pos|apply HS'|apply HS]).
  assert (f' = f) by (eapply about_unique; [exact dt_pos|apply HS'|apply HS]). subst s' f'.
  destruct (In_nth _ _ 0%nat Hi) as (ch0 & Hch0 & Ech0). rewrite (mapping_length _ Hb) in Hch0.
  pose proof (chan_factor_pos _ _ Hb Hch0) as Hcf. rewrite Ech0 in Hcf.
  assert (Hq : qz f <> 0) by (intros E; pose proof (qz_pos f) as P; rewrite E in P; specialize (P ltac:(lia)); inversion P).
  rewrite (qsum_map_ext _ (fun _ => r_weight r i corr / qz f)).
  - rewrite qsum_const, seq_length, qz_qn, Z2Nat.id by lia. field. auto.
  - intros k Hk. apply in_seq in Hk.
    destruct (nth_error (run nbl dt t0 mapping batches) k) as [e|] eqn:En.
    2: { apply nth_error_None in En. lia. }
    destruct (proj1 (run_expanded batches HV) k e En _ Hb) as (r' & c & Hr' & Eb & Hc & Ec & HE).
    assert (r' = r).
    { apply (HU r' r (Z.of_nat k)); auto. exists s, f. split; auto. lia. }
    subst r'. rewrite Ec. destruct HE as [_ HE].
    rewrite (qsum_map_ext _ (fun _ => r_weight r i corr / (qz f * qn (chan_factor nchan mapping (r_bl r) i)))).
    + rewrite qsum_const. fold (chan_factor nchan mapping (r_bl r) i).
      field. split; auto. now apply qn_neq0.
    + intros ch Hch. apply filter_In in Hch. destruct Hch as [H1 H2]. apply in_seq in H1. apply Nat.eqb_eq in H2.
      destruct (HE s f HS ch corr ltac:(lia)) as (_ & _ & W). rewrite H2 in W. rewrite <- W.
      field. split; auto. now apply qn_neq0.
Qed.
End Proofs.

(** * Channel mapping *)

Lemma n_averaged_exact bw m : 0 < bw -> n_averaged_channels bw (qn m * bw) = m.
Proof.
  intros Hb. unfold n_averaged_channels.
  assert (E : qn m * bw / bw = qn m) by (field; intros ->; inversion Hb).
  rewrite E. rewrite (Qfloor_unique _ (Z.of_nat m)); [apply Nat2Z.id| |].
  - rewrite this_plus. rewrite this_Q2Qc. unfold qn. rewrite this_Q2Qc. lra.
  - rewrite this_plus. rewrite this_Q2Qc. unfold qn. rewrite this_Q2Qc. lra.
Qed.

Lemma mapping_from_nth bw ms : 0 < bw -> forall next,
  let l := mapping_from bw next (map (fun m => qn m * bw) ms) in
  length l = fold_right Nat.add 0%nat ms /\
  forall j, (j < length ms)%nat -> forall ch,
    (fold_right Nat.add 0 (firstn j ms) <= ch < fold_right Nat.add 0 (firstn (S j) ms))%nat ->
    nth ch l 0%nat = (next + j)%nat.
Proof.
  intros Hb. induction ms as [|m ms IH]; intros next; cbn [map mapping_from].
  - split; auto. simpl. intros; lia.
  - rewrite n_averaged_exact by auto. destruct (IH (S next)) as [L N]. split.
    + rewrite app_length, repeat_length, L. reflexivity.
    + intros j Hj ch Hch. destruct j as [|j].
      * simpl in Hch. rewrite app_nth1 by (rewrite repeat_length; lia).
        rewrite nth_repeat_lt || rewrite (nth_indep _ 0%nat next) by (rewrite repeat_length; lia).
        rewrite nth_repeat. lia.
      * cbn [firstn fold_right] in Hch. cbn [length] in Hj.
        rewrite app_nth2 by (rewrite repeat_length; cbn [firstn fold_right] in *; lia).
        rewrite repeat_length. rewrite (N j); try lia.
        cbn [firstn fold_right] in *. lia.
Qed.

Lemma n_averaged_near bw w m : 0 < bw -> (qn m - Q2Qc (1 # 2)) * bw <= w -> w < (qn m + Q2Qc (1 # 2)) * bw ->
  n_averaged_channels bw w = m.
Proof.
  intros Hb A B. unfold n_averaged_channels.
  assert (E : w = w / bw * bw) by (field; intros ->; inversion Hb).
  rewrite E in A, B. apply Qcmult_lt_0_le_reg_r in A; auto.
  assert (B' : w / bw < qn m + Q2Qc (1 # 2)).
  { apply Qcnot_le_lt. intros C. apply (Qclt_not_le _ _ B). apply Qcmult_le_compat_r; auto. now apply Qclt_le_weak. }
  rewrite (Qfloor_unique _ (Z.of_nat m)); [apply Nat2Z.id| |].
  - rewrite this_plus, this_Q2Qc. unfold Qcle in A. rewrite this_minus, this_Q2Qc in A. unfold qn in A. rewrite this_Q2Qc in A. lra.
  - rewrite this_plus, this_Q2Qc. unfold Qclt in B'. rewrite this_plus, this_Q2Qc in B'. unfold qn in B'. rewrite this_Q2Qc in B'. lra.
Qed.

Lemma mapping_from_near bw ws ms : 0 < bw ->
  Forall2 (fun w m => (qn m - Q2Qc (1 # 2)) * bw <= w /\ w < (qn m + Q2Qc (1 # 2)) * bw) ws ms ->
  forall next, mapping_from bw next ws = mapping_from bw next (map (fun m => qn m * bw) ms).
Proof.
  intros Hb H. induction H as [|w m ws ms [A B] H IH]; intros next; [reflexivity|]. cbn [mapping_from map].
  rewrite (n_averaged_near bw w m), n_averaged_exact, IH by assumption. reflexivity.
Qed.
