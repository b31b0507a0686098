(** Proofs about steps/Filter.cc and base/BaselineSelection.cc. *)
From Coq Require Import QArith Qcanon List Bool Arith ZArith Sorted Lia.
From Verif Require Import QcUtil AverageModel InfoModel InfoProofs FilterModel FilterSpec.
Import ListNotations.
Open Scope nat_scope.

(** * Copying *)

Lemma nth_error_firstn {X} (l : list X) : forall n i, i < n -> nth_error (firstn n l) i = nth_error l i.
Proof. induction l; intros [|n] [|i] H; cbn; auto; try lia. apply IHl. lia. Qed.
Lemma nth_error_skipn {X} (l : list X) : forall n i, nth_error (skipn n l) i = nth_error l (n + i).
Proof. induction l; intros [|n] i; cbn; auto. now destruct i. Qed.

Lemma flat_map_chunks {X} (f : nat -> list X) k : forall sel, (forall b, In b sel -> length (f b) = k) ->
  length (flat_map f sel) = length sel * k /\
  forall i b q, nth_error sel i = Some b -> q < k -> nth_error (flat_map f sel) (i * k + q) = nth_error (f b) q.
Proof.
  induction sel as [|s sel IH]; intros H.
  - split; auto. intros [|i] b q E; discriminate.
  - destruct IH as [L IH]; [intros; apply H; now right|].
    assert (Hs : length (f s) = k) by (apply H; now left).
    cbn [flat_map length]. split; [rewrite app_length, L; lia|].
    intros [|i] b q E Hq; cbn [nth_error] in E.
    + injection E as <-. rewrite nth_error_app1 by (cbn; lia). reflexivity.
    + rewrite nth_error_app2 by (cbn; lia). replace (S i * k + q - length (f s)) with (i * k + q) by (cbn; lia). now apply IH.
Qed.

Lemma picks_flat_map {X} nchan ncorr start n nbl sel (src : list X) (offs : nat -> nat) :
  length src = nbl * nchan * ncorr -> start + n <= nchan ->
  (forall b, In b sel -> b < nbl /\ offs b = (b * nchan + start) * ncorr) ->
  picks nchan ncorr start n sel src (flat_map (fun b => firstn (n * ncorr) (skipn (offs b) src)) sel).
Proof.
  intros Hl Hsn Hsel.
  destruct (flat_map_chunks (fun b => firstn (n * ncorr) (skipn (offs b) src)) (n * ncorr) sel) as [L H].
  { intros b Hb. destruct (Hsel b Hb) as [Hb1 ->]. rewrite firstn_length, skipn_length, Hl.
    assert (E : (b * nchan + start) * ncorr + n * ncorr <= nbl * nchan * ncorr).
    { rewrite <- Nat.mul_add_distr_r. apply Nat.mul_le_mono_r. 
      assert (S b * nchan <= nbl * nchan) by (apply Nat.mul_le_mono_r; lia). cbn in *. lia. }
    lia. }
  split; [rewrite L; lia|].
  intros i b c p Hi Hc Hp. destruct (Hsel b (nth_error_In _ _ Hi)) as [_ Hoff].
  replace ((i * n + c) * ncorr + p) with (i * (n * ncorr) + (c * ncorr + p)) by ring.
  assert (Hlt : c * ncorr + p < n * ncorr).
  { assert (S c * ncorr <= n * ncorr) by (apply Nat.mul_le_mono_r; lia). cbn in *. lia. }
  rewrite (H i b) by assumption. rewrite nth_error_firstn by assumption. rewrite nth_error_skipn, Hoff.
  f_equal. ring.
Qed.

Lemma copy_sel_picks {X} nchan ncorr start n nbl sel (src : list X) :
  length src = nbl * nchan * ncorr -> start + n <= nchan -> (Z.of_nat (nbl * nchan * ncorr) <= 2 ^ 32)%Z ->
  (forall b, In b sel -> b < nbl) ->
  picks nchan ncorr start n sel src (copy_sel sel (ncorr * start) (ncorr * nchan) (ncorr * n) src).
Proof.
  intros Hl Hsn Hw Hsel. unfold copy_sel. rewrite (Nat.mul_comm ncorr n).
  destruct (Nat.eq_dec n 0) as [->|Hn].
  { split; [|intros; lia]. cbn [Nat.mul]. rewrite Nat.mul_0_r. 
    clear. induction sel; cbn; auto. }
  destruct (Nat.eq_dec ncorr 0) as [->|Hc].
  { split; [|intros; lia]. rewrite !Nat.mul_0_r. 
    clear. induction sel; cbn; auto. }
  apply (picks_flat_map nchan ncorr start n nbl); auto.
  intros b Hb. split; [auto|]. specialize (Hsel b Hb).
  assert (E : (Z.of_nat b * Z.of_nat (ncorr * nchan) < 2 ^ 32)%Z).
  { rewrite <- Nat2Z.inj_mul. 
    assert (b * (ncorr * nchan) < nbl * nchan * ncorr); [|lia].
    replace (nbl * nchan * ncorr) with (nbl * (ncorr * nchan)) by ring.
    apply Nat.mul_lt_mono_pos_r; auto. apply Nat.mul_pos_pos; lia. }
  rewrite Z.mod_small by lia. rewrite <- Nat2Z.inj_mul, Nat2Z.id. ring.
Qed.

Lemma view_chan_picks {X} nbl nchan ncorr start n (src : list X) :
  length src = nbl * nchan * ncorr -> start + n <= nchan ->
  picks nchan ncorr start n (seq 0 nbl) src (view_chan nbl nchan ncorr start n src).
Proof.
  intros Hl Hs. unfold view_chan. apply (picks_flat_map nchan ncorr start n nbl); auto.
  intros b Hb. apply in_seq in Hb. split; auto; lia.
Qed.

Lemma picks_all {X} nbl nchan ncorr (src : list X) : length src = nbl * nchan * ncorr ->
  picks nchan ncorr 0 nchan (seq 0 nbl) src src.
Proof.
  intros H. split; [now rewrite seq_length|]. intros i b c p Hi _ _.
  assert (i < nbl) by (apply nth_error_Some_length in Hi || (assert (L : nth_error (seq 0 nbl) i <> None) by congruence; apply nth_error_Some in L; rewrite seq_length in L; exact L)).
  rewrite (nth_error_nth' _ 0) in Hi by (rewrite seq_length; lia). rewrite seq_nth in Hi by lia.
  injection Hi as <-. f_equal. lia.
Qed.

Lemma sorted_filter (f : nat -> bool) : forall n s, StronglySorted lt (filter f (seq s n)).
Proof.
  induction n; intros s; cbn [seq filter]; [constructor|].
  destruct (f s); auto. constructor; auto.
  apply Forall_forall. intros x Hx. apply filter_In in Hx as [Hx _]. apply in_seq in Hx. lia.
Qed.

Lemma filter_selection nbl m : is_selection nbl (Some m) (filter (fun i => nth i m false) (seq 0 nbl)).
Proof.
  split; [apply sorted_filter|]. intros b. rewrite filter_In, in_seq. intuition lia.
Qed.

Lemma all_selection nbl : is_selection nbl None (seq 0 nbl).
Proof.
  split.
  - generalize 0. induction nbl; intros s; cbn [seq]; constructor; auto.
    apply Forall_forall. intros x Hx. apply in_seq in Hx. lia.
  - intros b. rewrite in_seq. intuition lia.
Qed.

Lemma filter_length_le' {A} (f : A -> bool) l : length (filter f l) <= length l.
Proof. induction l; cbn; auto. destruct (f a); cbn; lia. Qed.

Lemma filter_length_all {A} (f : A -> bool) l : length (filter f l) = length l -> filter f l = l.
Proof.
  induction l as [|a l IH]; cbn; auto. pose proof (filter_length_le' f l). destruct (f a); cbn; intros.
  - f_equal. apply IH. lia.
  - lia.
Qed.

(** The selection made by updateInfo, unless it matches nothing. *)
Lemma update_selection nbl nchan start n mask :
  (match mask with None => True | Some m => exists b, b < nbl /\ nth b m false = true end) ->
  let cfg := filter_update nbl nchan start n mask in
  let sel := match c_sel cfg with [] => seq 0 nbl | s => s end in
  is_selection nbl mask sel /\ (c_do cfg = false -> sel = seq 0 nbl /\ start = 0 /\ nchan <= n).
Proof.
  intros Hm cfg sel. subst cfg sel. destruct mask as [m|]; unfold filter_update; cbn [c_sel c_do].
  - destruct Hm as (b0 & Hb & Hb').
    assert (E : (match filter (fun i => nth i m false) (seq 0 nbl) with [] => seq 0 nbl | s => s end) = filter (fun i => nth i m false) (seq 0 nbl)).
    { destruct (filter _ _) eqn:E; auto. exfalso.
      assert (In b0 (filter (fun i => nth i m false) (seq 0 nbl))) by (apply filter_In; rewrite in_seq; split; [lia|auto]).
      rewrite E in H. destruct H. }
    cbv zeta. rewrite E. split; [apply filter_selection|].
    rewrite !orb_false_iff, !Nat.ltb_ge. intros ((H1 & H2) & H3). split; [|lia].
    apply filter_length_all. rewrite seq_length. pose proof (filter_length_le' (fun i => nth i m false) (seq 0 nbl)). rewrite seq_length in *. lia.
  - split; [apply all_selection|]. rewrite !orb_false_iff, !Nat.ltb_ge. intros (H1 & H2). split; auto. lia.
Qed.

Section Process.
Context {D F W U R : Type}.

Lemma rows_flat (rows : list R) sel : (forall b, In b sel -> b < length rows) ->
  length (flat_map (fun i => match nth_error rows i with Some r => [r] | None => [] end) sel) = length sel /\
  forall i b, nth_error sel i = Some b -> nth_error (flat_map (fun i => match nth_error rows i with Some r => [r] | None => [] end) sel) i = nth_error rows b.
Proof.
  intros H. destruct (flat_map_chunks (fun i => match nth_error rows i with Some r => [r] | None => [] end) 1 sel) as [L E].
  { intros b Hb. destruct (nth_error rows b) eqn:E; auto. apply nth_error_None in E. specialize (H b Hb). lia. }
  split; [lia|]. intros i b Hi. specialize (E i b 0 Hi ltac:(lia)). rewrite Nat.mul_1_r, Nat.add_0_r in E. rewrite E.
  destruct (nth_error rows b); reflexivity.
Qed.

Theorem process_picks nbl nchan ncorr start n mask (b : fbuf D F W U R) :
  length (f_data b) = nbl * nchan * ncorr -> length (f_flags b) = nbl * nchan * ncorr ->
  length (f_weights b) = nbl * nchan * ncorr -> length (f_uvw b) = nbl * 3 * 1 ->
  (f_rows b = [] \/ length (f_rows b) = nbl) ->
  start + n <= nchan -> (Z.of_nat (nbl * nchan * ncorr) <= 2 ^ 32)%Z -> (Z.of_nat (nbl * 3 * 1) <= 2 ^ 32)%Z ->
  (match mask with None => True | Some m => exists b, b < nbl /\ nth b m false = true end) ->
  let cfg := filter_update nbl nchan start n mask in
  let out := filter_process nbl nchan ncorr cfg b in
  exists sel, is_selection nbl mask sel /\
    sel = match c_sel cfg with [] => seq 0 nbl | s => s end /\
    picks nchan ncorr start n sel (f_data b) (f_data out) /\
    picks nchan ncorr start n sel (f_flags b) (f_flags out) /\
    picks nchan ncorr start n sel (f_weights b) (f_weights out) /\
    picks 3 1 0 3 sel (f_uvw b) (f_uvw out) /\
    (f_rows b = [] -> f_rows out = []) /\
    (length (f_rows b) = nbl -> picks 1 1 0 1 sel (f_rows b) (f_rows out)).
Proof.
  intros Hd Hf Hw Hu Hr Hsn Hbig Hbig3 Hm cfg out.
  pose proof (update_selection nbl nchan start n mask Hm) as [Hsel Hno]. fold cfg in Hsel, Hno.
  set (sel := match c_sel cfg with [] => seq 0 nbl | s => s end) in *.
  exists sel. split; [exact Hsel|]. split; [reflexivity|].
  assert (Hin : forall x, In x sel -> x < nbl) by (intros x Hx; apply Hsel in Hx; tauto).
  assert (Hcs : c_start cfg = start /\ c_n cfg = n) by (subst cfg; unfold filter_update; destruct mask; auto).
  destruct Hcs as [Hcs Hcn].
  subst out. unfold filter_process. rewrite Hcs, Hcn.
  destruct (c_do cfg) eqn:Hdo; cbn [negb].
  - assert (Hrows : f_rows b = [] -> (length (f_rows b) = nbl) -> nbl = 0) by (intros ->; cbn; auto).
    destruct (c_sel cfg) as [|s0 sel0] eqn:Hs.
    + cbn [f_data f_flags f_weights f_uvw f_rows]. subst sel.
      do 3 (split; [apply view_chan_picks; auto|]). split; [apply (picks_all nbl 3 1); auto|]. split; [auto|].
      intros Hr'. apply (picks_all nbl 1 1). lia.
    + replace (s0 :: sel0) with sel by reflexivity. clearbody sel.
      cbn [f_data f_flags f_weights f_uvw f_rows].
      split; [now apply (copy_sel_picks nchan ncorr start n nbl)|].
      split; [now apply (copy_sel_picks nchan ncorr start n nbl)|].
      split; [now apply (copy_sel_picks nchan ncorr start n nbl)|].
      split; [apply (copy_sel_picks 3 1 0 3 nbl); auto; lia|].
      split; [now intros ->|].
      intros Hr'. destruct (rows_flat (f_rows b) sel) as [L E]; [now rewrite Hr'|].
      assert (G : picks 1 1 0 1 sel (f_rows b) (flat_map (fun i => match nth_error (f_rows b) i with Some r => [r] | None => [] end) sel)).
      { split; [lia|]. intros i x c p Hi Hc Hp. rewrite !Nat.mul_1_r. 
        replace (i + c + p) with i by lia. replace (x + 0 + c + p) with x by lia. now apply E. }
      destruct (f_rows b) eqn:Er; [|exact G].
      cbn [length] in Hr'. assert (sel = []) as -> by (destruct sel as [|x sel]; auto; specialize (Hin x (or_introl eq_refl)); lia).
      exact G.
  - destruct (Hno eq_refl) as (-> & -> & Hn). assert (n = nchan) as -> by lia.
    do 3 (split; [apply picks_all; auto|]). split; [apply (picks_all nbl 3 1); auto|]. split; [auto|].
      intros Hr'. apply (picks_all nbl 1 1). lia.
Qed.
End Process.

(** * createIdMap *)

Definition rm (removed : list nat) (j : nat) : bool := existsb (Nat.eqb j) removed.
Lemma rm_In removed j : rm removed j = true <-> In j removed.
Proof. unfold rm. rewrite existsb_exists. split; [intros (x & H & E); apply Nat.eqb_eq in E; now subst|intros H; exists j; split; auto; apply Nat.eqb_refl]. Qed.
Lemma rm_notIn removed j : rm removed j = false <-> ~ In j removed.
Proof. rewrite <- rm_In. destruct (rm removed j); intuition congruence. Qed.

Lemma sub_range_gen k : forall m lo l, 
  length (fold_left (fun l j => set_nth l j (nth j l 0%Z - k)%Z) (seq lo m) l) = length l /\
  forall j, j < length l -> nth j (fold_left (fun l j => set_nth l j (nth j l 0%Z - k)%Z) (seq lo m) l) 0%Z =
    if (lo <=? j) && (j <? lo + m) then (nth j l 0 - k)%Z else nth j l 0%Z.
Proof.
  induction m; intros lo l; cbn [seq fold_left].
  - split; auto. intros j _. destruct (Nat.leb_spec lo j), (Nat.ltb_spec j (lo + 0)); cbn [andb]; auto; lia.
  - destruct (IHm (S lo) (set_nth l lo (nth lo l 0 - k)%Z)) as [L H]. rewrite set_nth_length in *. split; [exact L|].
    intros j Hj. rewrite H by exact Hj. destruct (Nat.eq_dec j lo) as [->|Hne].
    + rewrite set_nth_same by exact Hj.
      destruct (Nat.leb_spec (S lo) lo), (Nat.leb_spec lo lo), (Nat.ltb_spec lo (lo + S m)); cbn [andb]; auto; lia.
    + rewrite set_nth_other by auto.
      destruct (Nat.leb_spec (S lo) j), (Nat.leb_spec lo j), (Nat.ltb_spec j (S lo + m)), (Nat.ltb_spec j (lo + S m)); cbn [andb]; auto; lia.
Qed.

Lemma sub_range_length l lo hi k : length (sub_range l lo hi k) = length l.
Proof. apply sub_range_gen. Qed.
Lemma sub_range_nth l lo hi k j : j < length l ->
  nth j (sub_range l lo hi k) 0%Z = if (lo <=? j) && (j <? hi) then (nth j l 0 - k)%Z else nth j l 0%Z.
Proof.
  intros H. unfold sub_range. rewrite (proj2 (sub_range_gen k (hi - lo) lo l)) by exact H.
  destruct (Nat.leb_spec lo j), (Nat.ltb_spec j (lo + (hi - lo))), (Nat.ltb_spec j hi); cbn [andb]; auto; lia.
Qed.

Definition below (removed : list nat) (j : nat) : nat := length (filter (fun r => r <? j) removed).
Definition ideal (k : Z) (removed : list nat) (j : nat) : Z :=
  if rm removed j then (-1)%Z else (Z.of_nat j - (k + Z.of_nat (below removed j)))%Z.

Lemma id_loop_spec n : forall rest r l k, StronglySorted lt (r :: rest) -> length l = n ->
  (forall x, In x (r :: rest) -> x < n) -> (forall j, r <= j < n -> nth j l 0%Z = Z.of_nat j) ->
  let '(l', k') := id_loop l (r :: rest) k in
  let res := sub_range l' (S (last (r :: rest) 0)) n k' in
  length res = n /\
  forall j, j < n -> nth j res 0%Z = if j <? r then nth j l 0%Z else ideal k (r :: rest) j.
Proof.
  induction rest as [|r' rest IH]; intros r l k Hs Hl Hn Hid.
  - cbn [id_loop last]. rewrite sub_range_length, set_nth_length. split; [exact Hl|].
    intros j Hj. rewrite sub_range_nth by (rewrite set_nth_length; lia).
    unfold ideal, rm, below; cbn [existsb filter].
    destruct (Nat.ltb_spec j r).
    + destruct (Nat.leb_spec (S r) j); [lia|]. cbn [andb]. rewrite set_nth_other by lia. reflexivity.
    + destruct (Nat.eqb_spec j r) as [->|Hne]; cbn [orb].
      * destruct (Nat.leb_spec (S r) r); [lia|]. cbn [andb]. rewrite set_nth_same by lia. reflexivity.
      * destruct (Nat.leb_spec (S r) j); [|lia]. destruct (Nat.ltb_spec j n); [|lia]. cbn [andb].
        rewrite set_nth_other by lia. rewrite Hid by lia.
        destruct (Nat.ltb_spec r j); [|lia]. cbn [length]. lia.
  - change (id_loop l (r :: r' :: rest) k) with (id_loop (sub_range (set_nth l r (-1)%Z) (S r) r' (k + 1)) (r' :: rest) (k + 1)).
    set (l2 := sub_range (set_nth l r (-1)%Z) (S r) r' (k + 1)).
    inversion Hs as [|? ? Hs' Hf]; subst. 
    assert (Hrr : r < r') by (rewrite Forall_forall in Hf; apply Hf; now left).
    specialize (IH r' l2 (k + 1)%Z Hs').
    assert (Hl2 : length l2 = length l) by (unfold l2; rewrite sub_range_length, set_nth_length; reflexivity).
    specialize (IH Hl2 ltac:(intros; apply Hn; now right)).
    assert (Hl2n : forall j, j < length l -> nth j l2 0%Z = if j <? r then nth j l 0%Z else if j =? r then (-1)%Z else if j <? r' then (Z.of_nat j - (k + 1))%Z else Z.of_nat j).
    { intros j Hj. unfold l2. rewrite sub_range_nth by (rewrite set_nth_length; lia).
      destruct (Nat.ltb_spec j r); [|destruct (Nat.eqb_spec j r) as [->|]].
      - destruct (Nat.leb_spec (S r) j); [lia|]. cbn [andb]. now rewrite set_nth_other by lia.
      - destruct (Nat.leb_spec (S r) r); [lia|]. cbn [andb]. now rewrite set_nth_same by lia.
      - destruct (Nat.leb_spec (S r) j); [|lia]. cbn [andb]. rewrite set_nth_other, Hid by lia. reflexivity. }
    assert (Hid2 : forall j, r' <= j < length l -> nth j l2 0%Z = Z.of_nat j).
    { intros j Hj. rewrite Hl2n by lia. destruct (Nat.ltb_spec j r); [lia|]. destruct (Nat.eqb_spec j r); [lia|]. destruct (Nat.ltb_spec j r'); [lia|]. reflexivity. }
    specialize (IH Hid2).
    change (last (r :: r' :: rest) 0) with (last (r' :: rest) 0).
    destruct (id_loop l2 (r' :: rest) (k + 1)) as [l' k'] eqn:E. cbn zeta in IH |- *.
    destruct IH as [IL IH]. split; [exact IL|]. intros j Hj. rewrite IH by exact Hj. rewrite Hl2n by exact Hj.
    assert (Hbig : forall x, In x (r' :: rest) -> r' <= x).
    { intros x [->|Hx]; auto. inversion Hs' as [|? ? _ Hf']; subst. rewrite Forall_forall in Hf'. apply Hf' in Hx. lia. }
    unfold ideal. change (rm (r :: r' :: rest) j) with ((j =? r) || rm (r' :: rest) j). unfold below. cbn [filter].
    destruct (Nat.ltb_spec j r) as [H1|H1].
    + destruct (Nat.ltb_spec j r'); [reflexivity|lia].
    + destruct (Nat.eqb_spec j r) as [->|H2]; cbn [orb].
      * destruct (Nat.ltb_spec r r'); [reflexivity|lia].
      * destruct (Nat.ltb_spec r j); [|lia]. cbn [length].
        destruct (Nat.ltb_spec j r') as [H3|H3].
        -- rewrite (proj2 (rm_notIn (r' :: rest) j)) by (intros Hin; apply Hbig in Hin; lia).
           assert (E0 : filter (fun x => x <? j) rest = []).
           { assert (G : forall x, In x rest -> (x <? j) = false) by (intros x Hx; apply Nat.ltb_ge; specialize (Hbig x (or_intror Hx)); lia).
             clear -G. induction rest as [|y rest IHr]; auto. cbn [filter]. rewrite (G y) by now left. apply IHr. intros; apply G; now right. }
           rewrite E0. destruct (Nat.ltb_spec r' j); [lia|]. cbn [length]. lia.
        -- destruct (rm (r' :: rest) j); [reflexivity|]. destruct (r' <? j); cbn [length]; lia.
Qed.

Lemma filter_split {A} (f : A -> bool) l : length (filter f l) + length (filter (fun x => negb (f x)) l) = length l.
Proof. induction l as [|a l IH]; cbn; auto. destruct (f a); cbn; lia. Qed.

Lemma sorted_nodup l : StronglySorted lt l -> NoDup l.
Proof.
  induction 1 as [|a l _ IH Hf]; constructor; auto.
  intros Hin. rewrite Forall_forall in Hf. apply Hf in Hin. lia.
Qed.

Lemma below_count removed j : NoDup removed -> below removed j = length (filter (rm removed) (seq 0 j)).
Proof.
  intros Hnd. unfold below. apply Nat.le_antisymm; apply NoDup_incl_length.
  - now apply NoDup_filter.
  - intros x Hx. apply filter_In in Hx as [H1 H2]. apply filter_In. apply Nat.ltb_lt in H2. rewrite in_seq. split; [lia|now apply rm_In].
  - apply NoDup_filter, seq_NoDup.
  - intros x Hx. apply filter_In in Hx as [H1 H2]. apply in_seq in H1. apply rm_In in H2. apply filter_In. split; auto. apply Nat.ltb_lt. lia.
Qed.

Theorem id_map_spec n removed : removed <> [] -> StronglySorted lt removed -> (forall r, In r removed -> r < n) ->
  exists m, create_id_map n removed = Some m /\ length m = n /\
  forall j, j < n -> nth_error m j = Some (match new_id removed j with Some k => Z.of_nat k | None => (-1)%Z end).
Proof.
  intros Hne Hs Hn. destruct removed as [|r rest]; [congruence|].
  pose proof (id_loop_spec n rest r (map Z.of_nat (seq 0 n)) 0%Z Hs) as H.
  specialize (H ltac:(rewrite map_length, seq_length; reflexivity) Hn).
  assert (Hid : forall j, j < n -> nth j (map Z.of_nat (seq 0 n)) 0%Z = Z.of_nat j).
  { intros j Hj. rewrite (nth_indep _ 0%Z (Z.of_nat 0)) by (rewrite map_length, seq_length; lia).
    rewrite map_nth, seq_nth by lia. reflexivity. }
  specialize (H ltac:(intros; apply Hid; lia)).
  unfold create_id_map. assert (Hfb : forallb (fun r0 => r0 <? n) (r :: rest) = true).
  { apply forallb_forall. intros x Hx. apply Nat.ltb_lt. auto. }
  rewrite Hfb.
  destruct (id_loop (map Z.of_nat (seq 0 n)) (r :: rest) 0) as [l' k']. cbn zeta in H. destruct H as [HL H].
  eexists. split; [reflexivity|]. split; [exact HL|].
  intros j Hj. rewrite (nth_error_nth' _ 0%Z) by (rewrite HL; exact Hj). rewrite H by exact Hj. f_equal.
  assert (Hgen : ideal 0 (r :: rest) j = match new_id (r :: rest) j with Some k => Z.of_nat k | None => (-1)%Z end).
  { unfold ideal, new_id. fold (rm (r :: rest) j). destruct (rm (r :: rest) j); [reflexivity|].
    rewrite below_count by (now apply sorted_nodup).
    pose proof (filter_split (rm (r :: rest)) (seq 0 j)) as E. rewrite seq_length in E.
    change (fun i => negb (existsb (Nat.eqb i) (r :: rest))) with (fun i => negb (rm (r :: rest) i)). lia. }
  rewrite <- Hgen. destruct (Nat.ltb_spec j r); [|reflexivity].
  rewrite Hid by lia. unfold ideal.
  assert (Hall : forall x, In x (r :: rest) -> r <= x).
  { intros x [->|Hx]; auto. inversion Hs as [|? ? _ Hf]; subst. rewrite Forall_forall in Hf. apply Hf in Hx. lia. }
  rewrite (proj2 (rm_notIn (r :: rest) j)) by (intros Hin; apply Hall in Hin; lia).
  assert (E0 : below (r :: rest) j = 0).
  { unfold below. destruct (filter _ _) as [|x t] eqn:E; auto. exfalso.
    assert (Hx : In x (filter (fun r0 => r0 <? j) (r :: rest))) by (rewrite E; now left).
    apply filter_In in Hx as [Hx1 Hx2]. apply Hall in Hx1. apply Nat.ltb_lt in Hx2. lia. }
  rewrite E0. lia.
Qed.

(** The new id of a kept row points at that row in the new table. *)
Lemma new_id_kept {X} removed (rows : list X) j k : new_id removed j = Some k -> j < length rows ->
  nth_error (kept_rows removed rows) k = nth_error rows j.
Proof.
  unfold new_id, kept_rows. fold (rm removed j). destruct (rm removed j) eqn:Hrm; [discriminate|]. intros [= <-] Hj.
  assert (G : forall (l : list X) s, nth_error l (j - s) <> None -> s <= j ->
    nth_error (map snd (filter (fun r => negb (existsb (Nat.eqb (fst r)) removed)) (combine (seq s (length l)) l)))
      (length (filter (fun i => negb (rm removed i)) (seq s (j - s)))) = nth_error l (j - s)).
  { induction l as [|x l IH]; intros s Hne Hsj; [now destruct (j - s)|].
    cbn [length seq combine filter fst]. fold (rm removed s).
    destruct (Nat.eq_dec s j) as [->|Hd].
    - rewrite Nat.sub_diag. cbn [seq filter length]. rewrite Hrm. reflexivity.
    - replace (j - s) with (S (j - S s)) in * by lia. cbn [seq filter nth_error] in *.
      specialize (IH (S s) Hne ltac:(lia)).
      destruct (rm removed s); cbn [negb]; cbn [map length nth_error]; exact IH. }
  specialize (G rows 0). rewrite Nat.sub_0_r in G. apply G; [|lia]. now apply nth_error_Some.
Qed.

Lemma new_id_le removed : forall i j, i <= j -> length (filter (fun x => negb (rm removed x)) (seq 0 i)) <= length (filter (fun x => negb (rm removed x)) (seq 0 j)).
Proof.
  intros i j H. replace j with (i + (j - i)) by lia. rewrite seq_app, filter_app, app_length. lia.
Qed.

Lemma new_id_increasing removed i j a b : i < j -> new_id removed i = Some a -> new_id removed j = Some b -> a < b.
Proof.
  unfold new_id. fold (rm removed i). fold (rm removed j). destruct (rm removed i) eqn:Hi, (rm removed j); try discriminate.
  intros H [= <-] [= <-].
  assert (E : length (filter (fun x => negb (rm removed x)) (seq 0 (S i))) = S (length (filter (fun x => negb (rm removed x)) (seq 0 i)))).
  { rewrite seq_S, filter_app, app_length. cbn [filter Nat.add]. rewrite Hi. cbn [negb length]. lia. }
  pose proof (new_id_le removed (S i) j H). unfold rm in *. lia.
Qed.

Lemma new_id_onto removed n : forall k, k < length (filter (fun x => negb (rm removed x)) (seq 0 n)) -> exists j, j < n /\ new_id removed j = Some k.
Proof.
  induction n; intros k Hk; [cbn in Hk; lia|].
  rewrite seq_S, filter_app, app_length in Hk. cbn [filter Nat.add] in Hk.
  destruct (Nat.lt_ge_cases k (length (filter (fun x => negb (rm removed x)) (seq 0 n)))) as [H|H].
  - apply IHn in H as (j & H1 & H2). exists j. split; [lia|exact H2].
  - destruct (rm removed n) eqn:E; cbn [negb length] in Hk; [lia|].
    exists n. split; [lia|]. unfold new_id. fold (rm removed n). rewrite E. f_equal. unfold rm in *. lia.
Qed.

Theorem renumber_spec {X} removed m (ids : list nat) (ants : list X) : removed <> [] -> StronglySorted lt removed ->
  (forall r, In r removed -> r < length ants) -> (forall a, In a ids -> a < length ants) ->
  create_id_map (length ants) removed = Some m ->
  exists ids', renumber removed m ids = Some ids' /\
    map (nth_error (kept_rows removed ants)) ids' = map (nth_error ants) (filter (fun a => negb (existsb (Nat.eqb a) removed)) ids).
Proof.
  intros Hne Hs Hr Hi Hm. destruct (id_map_spec (length ants) removed Hne Hs Hr) as (m' & E & HL & H).
  assert (m' = m) by congruence. subst m'. clear E Hm.
  unfold renumber. induction ids as [|a ids IH].
  - exists []. split; reflexivity.
  - destruct IH as (ids' & E & EM); [intros; apply Hi; now right|].
    cbn [filter]. fold (rm removed a). destruct (rm removed a) eqn:Ha; cbn [negb]; [eauto|].
    assert (Hal : a < length ants) by (apply Hi; now left).
    cbn [map sequence]. rewrite (H a Hal).
    destruct (new_id removed a) as [k|] eqn:Ek; [|unfold new_id in Ek; fold (rm removed a) in Ek; rewrite Ha in Ek; discriminate].
    destruct (Z.leb_spec 0 (Z.of_nat k)); [|lia]. rewrite Nat2Z.id. rewrite E.
    exists (k :: ids'). split; [reflexivity|]. cbn [map]. rewrite EM. f_equal. now apply new_id_kept.
Qed.

(** * Baseline selection *)

Section Selection.
Context {N Pat : Type}.
Variables (matches : Pat -> N -> bool) (names : list N).

Lemma name_matches_spec p i : name_matches matches names p i = true <-> exists s, nth_error names i = Some s /\ matches p s = true.
Proof.
  unfold name_matches. destruct (nth_error names i) as [s|]; split.
  - intros H. eauto.
  - intros (s' & [= <-] & H). exact H.
  - discriminate.
  - intros (s' & H & _). discriminate.
Qed.
Lemma name_matches_lt p i : name_matches matches names p i = true -> i < length names.
Proof. intros H. apply name_matches_spec in H as (s & H & _). apply nth_error_Some. congruence. Qed.

Lemma set_true_spec m a b x y : set_true m a b x y = true <-> (x = a /\ y = b) \/ m x y = true.
Proof.
  unfold set_true. destruct (Nat.eqb_spec x a), (Nat.eqb_spec y b); cbn [andb]; subst; intuition congruence.
Qed.

Lemma fold_rel {A} (f : smatrix -> A -> smatrix) (P : A -> nat -> nat -> Prop) l :
  (forall m a x y, In a l -> f m a x y = true <-> P a x y \/ m x y = true) ->
  forall m x y, fold_left f l m x y = true <-> (exists a, In a l /\ P a x y) \/ m x y = true.
Proof.
  clear. induction l as [|a l IH]; intros Hf m x y; cbn [fold_left].
  - split; auto. intros [(a & [] & _)|H]; auto.
  - rewrite IH by (intros; apply Hf; now right). rewrite Hf by now left. split.
    + intros [(b & H1 & H2)|[H|H]]; auto.
      * left. exists b. split; auto. now right.
      * left. exists a. split; auto. now left.
    + intros [(b & [->|H1] & H2)|H]; auto. left. eauto.
Qed.

Lemma handle_entry_spec m e x y : x < length names -> y < length names ->
  handle_entry matches names m e x y = true <-> named matches names e x y \/ m x y = true.
Proof.
  intros Hx Hy. destruct e as [p|p q]; unfold handle_entry, named.
  - rewrite (fold_rel (A:=nat) _
       (fun i2 x y => name_matches matches names p i2 = true /\ ((x = i2 /\ y < length names) \/ (y = i2 /\ x < length names)))).
    + rewrite <- !name_matches_spec. split.
      * intros [(a & _ & H & [(-> & _)|(-> & _)])|H]; auto.
      * intros [[H|H]|H]; auto; left; [exists x|exists y]; (split; [apply in_seq; lia|]); auto.
    + intros m' i2 x' y' _. destruct (name_matches matches names p i2).
      * rewrite (fold_rel (A:=nat) _ (fun j x y => (x = i2 /\ y = j) \/ (x = j /\ y = i2))).
        -- split.
           ++ intros [(j & Hj & H)|H]; auto. apply in_seq in Hj. left. split; auto. destruct H as [[-> ->]|[-> ->]]; [left|right]; split; auto; lia.
           ++ intros [(_ & [(-> & H)|(-> & H)])|H]; auto; left; [exists y'|exists x']; (split; [apply in_seq; lia|]); auto.
        -- intros. rewrite !set_true_spec. tauto.
      * split; auto. intros [(H & _)|H]; auto. discriminate.
  - rewrite (fold_rel (A:=nat) _
       (fun i2 x y => name_matches matches names q i2 = true /\ exists i1, name_matches matches names p i1 = true /\ ((x = i1 /\ y = i2) \/ (x = i2 /\ y = i1)))).
    + rewrite <- !name_matches_spec. split.
      * intros [(i2 & _ & H & i1 & H' & [(-> & ->)|(-> & ->)])|H]; auto.
      * intros [[[H H']|[H H']]|H]; auto; left; [exists y|exists x]; (split; [apply in_seq; lia|]); (split; [auto|]); [exists x|exists y]; auto.
    + intros m' i2 x' y' _. destruct (name_matches matches names q i2).
      * rewrite (fold_rel (A:=nat) _ (fun i1 x y => name_matches matches names p i1 = true /\ ((x = i1 /\ y = i2) \/ (x = i2 /\ y = i1)))).
        -- split.
           ++ intros [(j & Hj & H)|H]; auto. left. split; auto. eauto.
           ++ intros [(_ & (j & Hj & H))|H]; auto. left. exists j. split; auto. apply in_seq. apply name_matches_lt in Hj. lia.
        -- intros m'' i1 x'' y'' _. destruct (name_matches matches names p i1).
           ++ rewrite !set_true_spec. tauto.
           ++ split; auto. intros [(H & _)|H]; auto. discriminate.
      * split; auto. intros [(H & _)|H]; auto. discriminate.
Qed.

Lemma handle_bl_vector_spec es x y : x < length names -> y < length names ->
  handle_bl_vector matches names es x y = true <-> exists e, In e es /\ named matches names e x y.
Proof.
  intros Hx Hy. unfold handle_bl_vector.
  assert (G : forall m, fold_left (handle_entry matches names) es m x y = true <-> (exists e, In e es /\ named matches names e x y) \/ m x y = true).
  { induction es as [|e es IH]; intros m; cbn [fold_left].
    - split; auto. intros [(e & [] & _)|H]; auto.
    - rewrite IH, handle_entry_spec by assumption. split.
      + intros [(e' & H1 & H2)|[H|H]]; auto; left; [exists e'|exists e]; split; auto; [now right|now left].
      + intros [(e' & [->|H1] & H2)|H]; auto. left. eauto. }
  rewrite G. split; auto. intros [H|H]; auto. discriminate.
Qed.

Lemma set_false_spec m a b x y : set_false m a b x y = true <-> ~ (x = a /\ y = b) /\ m x y = true.
Proof.
  unfold set_false. destruct (Nat.eqb_spec x a), (Nat.eqb_spec y b); cbn [andb]; subst; intuition congruence.
Qed.

Lemma in_ranges_spec ranges len : existsb (fun r => qleb (fst r) len && qleb len (snd r)) ranges = true <-> in_ranges ranges len.
Proof.
  rewrite existsb_exists. unfold in_ranges. split; intros (r & H1 & H2); exists r; split; auto.
  - apply andb_true_iff in H2. rewrite !qleb_true in H2. exact H2.
  - apply andb_true_iff. rewrite !qleb_true. exact H2.
Qed.

Lemma handle_length_spec ranges : forall bls lens m x y,
  handle_length ranges bls lens m x y = true <->
  m x y = true /\ forall a b len, In ((a, b), len) (combine bls lens) -> (x = a /\ y = b) \/ (x = b /\ y = a) -> in_ranges ranges len.
Proof.
  intros bls lens. unfold handle_length. induction (combine bls lens) as [|[[a b] len] l IH]; intros m x y; cbn [fold_left].
  - split; [|tauto]. intros H. split; auto. intros ? ? ? [].
  - rewrite IH. destruct (existsb _ ranges) eqn:E.
    + apply in_ranges_spec in E. split.
      * intros [H1 H2]. split; auto. intros a' b' len' [[= -> -> ->]|H] Hxy; eauto.
      * intros [H1 H2]. split; auto. intros a' b' len' H Hxy. eapply H2; eauto. now right.
    + rewrite !set_false_spec. assert (Hn : ~ in_ranges ranges len) by (rewrite <- in_ranges_spec; congruence). split.
      * intros [(H0 & H1 & H3) H2]. split; auto. intros a' b' len' [[= -> -> ->]|H] Hxy; [|eauto].
        exfalso. destruct Hxy; auto.
      * intros [H1 H2]. split.
        -- split; [|split; auto]; intros Hxy; apply Hn; eapply H2; [now left|auto|now left|auto].
        -- intros a' b' len' H Hxy. eapply H2; eauto. now right.
Qed.
End Selection.
