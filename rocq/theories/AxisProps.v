(** C92: the axes of the parameter database. *)
From Coq Require Import Qcanon List Arith Lia Bool QArith.
From Verif Require Import QcUtil AverageModel GainModel AxisModel AxisSpec AxisProofs.
Import ListNotations.
Open Scope Qc_scope.
Open Scope nat_scope.

(** The search of the cell with a point: all cells before the one given back are
   left of the point, the others are not; it is told whether the point is in
   that cell, which is so if the point is in any cell.  The hint where to start
   plays no part. *)
Theorem C92_find : forall l x bias hint,
  ordered l ->
  let k := fst (find l x bias hint) in
  let f := snd (find l x bias hint) in
  k <= length l /\
  (forall i c, i < k -> nth_error l i = Some c -> left_of bias x c) /\
  (forall i c, k <= i -> nth_error l i = Some c -> ~ left_of bias x c) /\
  (f = true <-> exists c, nth_error l k = Some c /\ inside bias x c) /\
  (f = true <-> exists c, In c l /\ inside bias x c).
Proof.
  intros l x bias hint O. cbv zeta. destruct (find_found l x bias hint O) as (F1 & F2 & F3 & F4).
  destruct (find l x bias hint) as [k f]. cbn [fst snd] in *.
  split; [auto|]. split; [intros i c Hi Hc; apply F1; eapply nth_firstn_in; eauto|].
  split; [intros i c Hi Hc; apply F2; eapply nth_skipn_in; eauto|].
  destruct f; split; split; intro H; try discriminate; auto.
  - destruct F4 as (c & E & I). exists c. split; auto. eapply nth_error_In; eauto.
  - destruct H as (c & E & I). exfalso. apply (F4 c); auto. eapply nth_error_In; eauto.
  - destruct H as (c & E & I). exfalso. apply (F4 c); auto.
Qed.
Print Assumptions C92_find.

Definition q (n : Z) : Qc := Q2Qc (inject_Z n).

Definition shown (l : list cell) : list (Q * Q) := map (fun c => (this (fst c), this (snd c))) l.

Lemma shown_eq l m : shown l = shown m -> l = m.
Proof.
  revert m. induction l as [|[a b] l IH]; intros [|[c d] m] H; try discriminate; auto.
  cbn in H. injection H as H1 H2 H3. f_equal; [|apply IH; exact H3].
  f_equal; apply Qc_is_canon; [rewrite H1|rewrite H2]; reflexivity.
Qed.

Example C92_find_example :
  let l := [(q 0, q 2); (q 2, q 3); (q 5, q 6)] in
  ordered l /\
  find l (q 2) true 2 = (1, true) /\ find l (q 2) false 0 = (0, true) /\
  find l (q 4) true 1 = (2, false) /\ find l (q 6) true 0 = (3, false).
Proof.
  cbv zeta. split.
  - cbn. repeat split; try (apply qltb_true; vm_compute; reflexivity); apply qleb_true; vm_compute; reflexivity.
  - vm_compute. repeat split.
Qed.

(** locate gives the one cell with the point, and throws if there is none. *)
Theorem C92_locate : forall l x bias hint,
  ordered l ->
  (forall k, locate l x bias hint = Ok k <-> exists c, nth_error l k = Some c /\ inside bias x c) /\
  (locate l x bias hint = Throw <-> forall c, In c l -> ~ inside bias x c).
Proof.
  intros l x bias hint O. destruct (C92_find l x bias hint O) as (H1 & H2 & H3 & H4 & H5).
  unfold locate. destruct (find l x bias hint) as [k f]. cbn [fst snd] in *. destruct f; split.
  - intro k'. split.
    + intros [= <-]. apply H4. reflexivity.
    + intros (c & E & I). f_equal.
      destruct (lt_eq_lt_dec k' k) as [[L|L]|L]; auto; exfalso.
      * specialize (H2 _ _ L E). clear - H2 I. destruct bias; unfold left_of, inside in *; destruct I; qclra.
      * destruct (proj1 H4 eq_refl) as (d & Ed & Id).
        pose proof (ordered_lt _ _ _ _ _ O Ed E L) as X.
        clear - X I Id. destruct bias; unfold inside in *; destruct I, Id; qclra.
  - split; [discriminate|]. intro N. exfalso. destruct (proj1 H5 eq_refl) as (c & E & I). apply (N c); auto.
  - intro k'. split; [discriminate|]. intros (c & E & I). exfalso.
    assert (false = true); [|discriminate]. apply H5. exists c. split; auto. eapply nth_error_In; eauto.
  - split; auto. intros _ c Hc I. assert (false = true); [|discriminate]. apply H5. eauto.
Qed.
Print Assumptions C92_locate.

Example C92_locate_example :
  locate [(q 0, q 2); (q 2, q 3)] (q 2) true 0 = Ok 1 /\ locate [(q 0, q 2); (q 2, q 3)] (q 3) true 1 = Throw.
Proof. vm_compute. split; reflexivity. Qed.

(** A regular axis has its cells one behind the other from its start on, all of
   the same width; given by its start and end, it covers that interval. *)
Theorem C92_regular : forall start w count,
  (0 < w)%Qc -> 0 < count ->
  axis_cells (regular (regular_axis start w count)) (cells (regular_axis start w count)) /\
  length (cells (regular_axis start w count)) = count /\
  tiles start (start + qn count * w) (cells (regular_axis start w count)) /\
  wide w (cells (regular_axis start w count)) /\
  (forall stop, (start < stop)%Qc ->
     tiles start stop (cells (regular_axis_to start stop count)) /\
     wide ((stop - start) / qn count) (cells (regular_axis_to start stop count))).
Proof.
  intros start w count W N. cbn [regular cells regular_axis].
  pose proof (regular_cells_tiles start w count W) as T. pose proof (regular_cells_wide start w count) as D.
  pose proof (regular_cells_length start w count) as L.
  split. { split; [intro E; rewrite E in L; cbn in L; lia|]. split; [eapply tiles_ordered; eauto|]. eauto. }
  split; [auto|]. split; [auto|]. split; [auto|].
  intros stop S. unfold regular_axis_to, regular_axis. cbn [cells]. split; [|apply regular_cells_wide].
  assert (P : (0 < (stop - start) / qn count)%Qc).
  { unfold Qcdiv. apply qc_mult_pos; [qclra|]. apply qc_inv_pos, qn_pos, N. }
  pose proof (regular_cells_tiles start _ count P) as T2.
  replace (start + qn count * ((stop - start) / qn count))%Qc with stop in T2; [exact T2|].
  rewrite (Qcmult_comm (qn count)). unfold Qcdiv. rewrite <- Qcmult_assoc, (Qcmult_comm (/ qn count)), Qcmult_inv_r by (apply qn_neq0; auto).
  ring.
Qed.
Print Assumptions C92_regular.

Example C92_regular_example :
  map (fun c => (this (fst c), this (snd c))) (cells (regular_axis_to (q 0) (q 3) 2)) = [(0, 3 # 2); (3 # 2, 3)]%Q.
Proof. vm_compute. reflexivity. Qed.

(** The subset of an axis without holes: precisely the cells that have points
   between start and end, and the index of the first one; if there are none, the
   default axis. *)
Theorem C92_subset : forall ax a b start stop,
  axis_cells (regular ax) (cells ax) -> tiles a b (cells ax) ->
  let k := fst (subset ax start stop) in
  let r := snd (subset ax start stop) in
  (cells r <> [] /\ those (meets start stop) (cells ax) (cells r) k /\ regular r = regular ax) \/
  (Forall (fun c => ~ meets start stop c) (cells ax) /\ r = default_axis).
Proof.
  intros ax a b start stop S T. cbv zeta. destruct (subset_those ax a b start stop S T) as [(m & M1 & M2 & ->)|H]; [left|right; auto].
  cbn [cells regular]. auto.
Qed.
Print Assumptions C92_subset.

Example C92_subset_example :
  let ax := regular_axis (q 0) (q 1) 5 in
  axis_cells (regular ax) (cells ax) /\ tiles (q 0) (q 5) (cells ax) /\
  subset ax (q 1) (q 3) = (1, regular_axis (q 1) (q 1) 2) /\
  snd (subset ax (q 7) (q 9)) = default_axis.
Proof.
  cbv zeta. destruct (C92_regular (q 0) (q 1) 5) as (A & B & C & _); [apply qltb_true; vm_compute; reflexivity|lia|].
  split; [exact A|]. split.
  { replace (q 5) with (q 0 + qn 5 * q 1)%Qc by (apply Qc_is_canon; vm_compute; reflexivity). exact C. }
  split; vm_compute; reflexivity.
Qed.

(** On an axis with a hole, the end of the interval being in the hole: the cell
   behind the hole, no point of which is in the interval, is in the subset. *)
Theorem C92_subset_refuted : exists ax start stop c,
  axis_cells (regular ax) (cells ax) /\ In c (cells (snd (subset ax start stop))) /\
  (start < stop)%Qc /\ (stop < fst c)%Qc.
Proof.
  exists (Axis false [(q 0, q 1); (q 3, q 4)]), (q 0), (q 2), (q 3, q 4).
  split.
  - split; [discriminate|]. split; [|discriminate]. cbn. repeat split; try (apply qltb_true; vm_compute; reflexivity). apply qleb_true; vm_compute; reflexivity.
  - split; [|split; apply qltb_true; vm_compute; reflexivity].
    assert (E : cells (snd (subset (Axis false [(q 0, q 1); (q 3, q 4)]) (q 0) (q 2))) = [(q 0, q 1); (q 3, q 4)]) by (apply shown_eq; vm_compute; reflexivity).
    rewrite E. right. left. reflexivity.
Qed.
Print Assumptions C92_subset_refuted.

(** Compressing: every cell is the union of the given number of cells, the last
   one of those that are left; the result is an axis again, and a regular one
   only if it has one width. *)
Theorem C92_compress : forall ax factor,
  axis_cells (regular ax) (cells ax) -> 0 < factor ->
  joined factor (cells ax) (cells (compress ax factor)) /\
  axis_cells (regular (compress ax factor)) (cells (compress ax factor)).
Proof.
  intros ax factor (N & O & R) F. unfold compress. destruct (regular ax) eqn:E.
  - destruct (R eq_refl) as (a & b & w & T & W).
    pose proof (compress_regular_joined a b w _ factor F N T W) as J. split; auto.
    destruct (joined_ordered _ _ _ F N O J) as [J1 J2]. split; [auto|]. split; [auto|].
    clear J J1 J2. unfold compress_regular. destruct (length (cells ax) mod factor =? 0); [|discriminate].
    intros _. unfold regular_axis. cbn [cells]. do 3 eexists. split; [apply regular_cells_tiles|apply regular_cells_wide].
    rewrite (wide_hd w) by auto. apply qc_mult_pos; [|apply qn_pos; auto].
    destruct (cells ax) as [|[s e] l]; [congruence|]. destruct T as (_ & T & _). rewrite <- (W s e) by (left; auto). qclra.
  - pose proof (compress_ordered_joined (cells ax) factor F) as J. split; auto.
    destruct (joined_ordered _ _ _ F N O J) as [J1 J2]. split; [auto|]. split; [auto|discriminate].
Qed.
Print Assumptions C92_compress.

Example C92_compress_example :
  map (fun c => (this (fst c), this (snd c))) (cells (compress (regular_axis (q 0) (q 1) 5) 2)) = [(0, 2); (2, 4); (4, 5)]%Q /\
  compress (regular_axis (q 0) (q 1) 4) 2 = regular_axis (q 0) (q 2) 2.
Proof. vm_compute. split; reflexivity. Qed.

Lemma last_default {A} (l : list A) d e : l <> [] -> last l d = last l e.
Proof. intro N. destruct (exists_last N) as (m & x & ->). now rewrite !last_last. Qed.

(** The union of two axes without holes, if there is one: it has the cells of
   both at the indices given back, one of both starts it and one ends it, and
   only the hole between both is an extra cell. *)
Theorem C92_combine : forall a b a0 a1 b0 b1 u r1 r2,
  axis_cells (regular a) (cells a) -> axis_cells (regular b) (cells b) ->
  tiles a0 a1 (cells a) -> tiles b0 b1 (cells b) ->
  combine a b = Ok (u, r1, r2) ->
  union_of (cells a) (cells b) (cells u) r1 r2 /\ axis_cells (regular u) (cells u).
Proof.
  intros a b a0 a1 b0 b1 u r1 r2 XA XB TA TB H.
  destruct (combine_union _ _ _ _ _ _ _ _ _ XA XB TA TB H) as (H1 & H2 & H3 & H4 & H5 & H6 & H7 & H8 & H9).
  split; [|exact H2]. split; [exact H1|]. split; [exact H3|]. split; [exact H4|]. split; [exact H5|].
  split; [exact H6|]. split; [exact H7|]. split; [exact H8|].
  intros c Hc. destruct XA as (NA & _), XB as (NB & _).
  destruct (H9 c Hc) as [X|[X|[X|X]]]; auto; right; right; [left|right]; unfold end_of, start_of in X.
  - rewrite (last_default _ _ c) in X by auto. destruct (cells b); [congruence|exact X].
  - rewrite (last_default _ _ c) in X by auto. destruct (cells a); [congruence|exact X].
Qed.
Print Assumptions C92_combine.

Example C92_combine_example :
  combine (regular_axis (q 0) (q 1) 3) (regular_axis (q 2) (q 1) 2) = Ok (regular_axis (q 0) (q 1) 4, (0, 3), (2, 4)) /\
  combine (regular_axis (q 4) (q 1) 1) (regular_axis (q 0) (q 1) 2) =
    Ok (Axis false [(q 0, q 1); (q 1, q 2); (q 2, q 4); (q 4, q 5)], (3, 4), (0, 2)) /\
  combine (regular_axis (q 0) (q 1) 3) (regular_axis (q 1) (q 2) 2) = Throw.
Proof. vm_compute. repeat split. Qed.

(** There is a union precisely if the axes do not overlap, or if they are parts of
   one axis, so if the cells in the overlap are the same. *)
Theorem C92_combine_possible : forall a b a0 a1 b0 b1,
  axis_cells (regular a) (cells a) -> axis_cells (regular b) (cells b) ->
  tiles a0 a1 (cells a) -> tiles b0 b1 (cells b) ->
  (exists u r1 r2, combine a b = Ok (u, r1, r2)) <-> fitting (cells a) (cells b).
Proof.
  intros a b a0 a1 b0 b1 XA XB TA TB. split.
  - intros (u & r1 & r2 & H).
    destruct (combine_union _ _ _ _ _ _ _ _ _ XA XB TA TB H) as ((lo & hi & H1) & H2 & H3 & H4 & H5 & H6 & _).
    exists lo, hi, (cells u), (fst r1), (fst r2). rewrite <- H5, <- H6. auto.
  - intro F. destruct XA as (NA & _), XB as (NB & _).
    apply (combine_done a b a0 a1 b0 b1 NA NB TA TB). left. exact F.
Qed.
Print Assumptions C92_combine_possible.

Example C92_combine_possible_example :
  fitting [(q 0, q 1); (q 1, q 2)] [(q 1, q 2); (q 2, q 5)].
Proof.
  exists (q 0), (q 5), [(q 0, q 1); (q 1, q 2); (q 2, q 5)], 0, 1. split; [|split; reflexivity].
  cbn. repeat split; apply qltb_true; vm_compute; reflexivity.
Qed.

(** For axes that overlap in another way, an exception is promised; instead the
   cells of this axis are read past the end if the center of the first cell of
   that axis is past the end of this axis. *)
Theorem C92_combine_refuted : exists a b a0 a1 b0 b1,
  axis_cells (regular a) (cells a) /\ axis_cells (regular b) (cells b) /\
  tiles a0 a1 (cells a) /\ tiles b0 b1 (cells b) /\
  combine a b = Undefined.
Proof.
  exists (regular_axis (q 0) (q 2) 1), (regular_axis (q 1) (q 6) 1).
  destruct (C92_regular (q 0) (q 2) 1) as (A & _ & B & _); [apply qltb_true; vm_compute; reflexivity|lia|].
  destruct (C92_regular (q 1) (q 6) 1) as (C & _ & D & _); [apply qltb_true; vm_compute; reflexivity|lia|].
  do 4 eexists. split; [exact A|]. split; [exact C|]. split; [exact B|]. split; [exact D|]. vm_compute. reflexivity.
Qed.
Print Assumptions C92_combine_refuted.

(** An axis with a hole, all cells of which have the same width, is combined as
   if there were no hole: the cells behind the hole are moved. *)
Theorem C92_combine_hole_refuted : exists a b u r1 r2 c,
  axis_cells (regular a) (cells a) /\ axis_cells (regular b) (cells b) /\
  combine a b = Ok (u, r1, r2) /\ In c (cells b) /\ ~ In c (cells u).
Proof.
  exists (Axis false [(q 0, q 1); (q 2, q 3)]), (regular_axis (q 3) (q 1) 1),
         (regular_axis (q 0) (q 1) 3), (0, 2), (2, 3), (q 3, q 4).
  destruct (C92_regular (q 3) (q 1) 1) as (A & _); [apply qltb_true; vm_compute; reflexivity|lia|].
  split.
  { split; [discriminate|]. split; [|discriminate]. cbn. repeat split; try (apply qltb_true; vm_compute; reflexivity). apply qleb_true; vm_compute; reflexivity. }
  split; [exact A|]. split; [vm_compute; reflexivity|].
  split.
  - assert (E : cells (regular_axis (q 3) (q 1) 1) = [(q 3, q 4)]) by (apply shown_eq; vm_compute; reflexivity). rewrite E. left. reflexivity.
  - assert (E : cells (regular_axis (q 0) (q 1) 3) = [(q 0, q 1); (q 1, q 2); (q 2, q 3)]) by (apply shown_eq; vm_compute; reflexivity).
    rewrite E. intros [X|[X|[X|[]]]]; discriminate X.
Qed.
Print Assumptions C92_combine_hole_refuted.

(** The mapping of the cells of one axis on those of another one: the cell with
   the center, or the nearest to the right, or the last one; the borders tell
   where the mapping changes, and the center is scaled to the cell. *)
Theorem C92_mapping : forall a b mapping borders centers,
  a <> [] -> b <> [] -> ordered b ->
  axis_mapping a b = (mapping, borders, centers) ->
  length mapping = length a /\ length centers = length a /\
  (forall i c, nth_error a i = Some c -> exists m d,
     nth_error mapping i = Some m /\ mapped b ((fst c + snd c) * half)%Qc m /\
     nth_error b m = Some d /\
     nth_error centers i = Some (((fst c + snd c) * half - fst d) / (snd d - fst d))%Qc) /\
  borders_of mapping borders.
Proof.
  intros a b mapping borders centers NA NB O H. unfold axis_mapping in H.
  rewrite (mapping_fold b a O) in H. injection H as <- <- <-. rewrite !map_length.
  split; [auto|]. split; [auto|]. split.
  - intros i c E. pose proof (map_of_mapped b c O NB) as M.
    exists (map_of b c), (nth (map_of b c) b (0, 0)%Qc). rewrite !nth_error_map, E. cbn [option_map].
    split; [auto|]. split; [exact M|]. split; [|reflexivity].
    destruct M as (M & _). apply nth_error_nth'. exact M.
  - destruct (borders_ok b a) as [B|B]; [exact B|congruence].
Qed.
Print Assumptions C92_mapping.

Example C92_mapping_example :
  fst (axis_mapping (cells (regular_axis (q 0) (q 1) 6)) [(q 0, q 2); (q 2, q 4)]) = ([0; 0; 1; 1; 1; 1], [2; 6]) /\
  map this (firstn 3 (snd (axis_mapping (cells (regular_axis (q 0) (q 1) 6)) [(q 0, q 2); (q 2, q 4)]))) = [1 # 4; 3 # 4; 1 # 4]%Q.
Proof. vm_compute. split; reflexivity. Qed.

(** A point that is in a cell is mapped on that cell. *)
Theorem C92_mapped_inside : forall b x m j c,
  ordered b -> mapped b x m -> nth_error b j = Some c -> inside true x c -> m = j.
Proof.
  intros b x m j c O (M1 & M2 & M3) N (I1 & I2).
  destruct (lt_eq_lt_dec m j) as [[L|L]|L]; auto; exfalso.
  - assert (j < length b) by (apply nth_error_Some; congruence).
    destruct (nth_error b m) as [d|] eqn:E; [|apply nth_error_None in E; lia].
    destruct (M3 m d (le_n m) E) as [X|X]; [|lia].
    pose proof (ordered_lt _ _ _ _ _ O E N L). qclra.
  - specialize (M2 _ _ L N). qclra.
Qed.
Print Assumptions C92_mapped_inside.

Example C92_mapped_inside_example : mapped [(q 0, q 2); (q 2, q 4)] (q 3) 1 /\ inside true (q 3) (q 2, q 4).
Proof.
  split.
  - split; [cbn; lia|]. split.
    + intros [|[|i]] c Hi E; try lia. cbn in E. injection E as <-. apply qleb_true. vm_compute. reflexivity.
    + intros i c _ _. right. reflexivity.
  - split; [apply qleb_true|apply qltb_true]; vm_compute; reflexivity.
Qed.

Lemma cells_eq (l m : list cell) (f : cell * cell -> bool) :
  (forall c d, f (c, d) = true <-> c = d) ->
  (length m =? length l) && forallb f (List.combine l m) = true <-> l = m.
Proof.
  intro F. revert m. induction l as [|c l IH]; intros [|d m]; cbn; try (split; congruence).
  specialize (IH m). rewrite andb_true_iff in *. rewrite andb_true_iff.
  split.
  - intros (H1 & H2 & H3). apply F in H2. f_equal; auto. apply IH. auto.
  - intros [= -> ->]. destruct (proj2 IH eq_refl). split; auto. split; auto. apply F. reflexivity.
Qed.

Lemma near_cells (c d : cell) : near (fst c) (fst d) && near (snd c) (snd d) = true <-> c = d.
Proof.
  destruct (near_spec (fst c) (fst d)) as [E|E], (near_spec (snd c) (snd d)) as [F|F]; cbn; split; intro H; try discriminate; auto; try congruence.
  destruct c, d; cbn in *; congruence.
Qed.

(** Two axes are equal precisely if their cells are. *)
Theorem C92_equal : forall a b,
  axis_cells (regular a) (cells a) -> axis_cells (regular b) (cells b) ->
  same_axis a b = true <-> cells a = cells b.
Proof.
  intros a b (NA & _ & RA) (NB & _ & RB). unfold same_axis.
  destruct (regular a && regular b) eqn:R.
  - apply andb_true_iff in R. destruct R as [R1 R2].
    destruct (RA R1) as (a0 & a1 & w & TA & WA), (RB R2) as (b0 & b1 & v & TB & WB). clear RA RB.
    rewrite (tiles_start _ _ _ TA NA), (tiles_start _ _ _ TB NB), (tiles_end _ _ _ TA NA), (tiles_end _ _ _ TB NB).
    pose proof (regular_cells_eq _ _ _ _ TA WA) as EA. pose proof (regular_cells_eq _ _ _ _ TB WB) as EB.
    split.
    + rewrite !andb_true_iff. intros ((H1 & H2) & H3). apply Nat.eqb_eq in H3.
      destruct (near_spec a0 b0) as [X|]; [|discriminate]. destruct (near_spec a1 b1) as [Y|]; [|discriminate].
      rewrite EA, EB, H3, X. f_equal.
      assert (Wa : (0 < w)%Qc) by (destruct (cells a) as [|[s e] l]; [congruence|]; destruct TA as (_ & T & _); rewrite <- (WA s e) by (left; auto); qclra).
      assert (Wb : (0 < v)%Qc) by (destruct (cells b) as [|[s e] l]; [congruence|]; destruct TB as (_ & T & _); rewrite <- (WB s e) by (left; auto); qclra).
      assert (Na : 0 < length (cells b)) by (destruct (cells b); cbn; [congruence|lia]).
      pose proof (regular_cells_tiles a0 w (length (cells a)) Wa) as Ta. rewrite <- EA in Ta.
      pose proof (regular_cells_tiles b0 v (length (cells b)) Wb) as Tb. rewrite <- EB in Tb.
      pose proof (tiles_end _ _ _ Ta NA) as Za. rewrite (tiles_end _ _ _ TA NA) in Za.
      pose proof (tiles_end _ _ _ Tb NB) as Zb. rewrite (tiles_end _ _ _ TB NB) in Zb.
      rewrite H3 in Za. pose proof (qn_neq0 _ Na) as Q0. set (nn := qn (length (cells b))) in *. clearbody nn.
      assert (E : (nn * w = nn * v)%Qc) by (clear - Za Zb X Y; subst b0 b1; rewrite Za in Zb; set (u := (nn * w)%Qc) in *; set (u' := (nn * v)%Qc) in *; clearbody u u'; qclra).
      replace w with (nn * w / nn)%Qc by (field; auto). rewrite E. field; auto.
    + intro E. assert (Y : a1 = b1) by (rewrite <- (tiles_end _ _ _ TA NA), <- (tiles_end _ _ _ TB NB), E; reflexivity).
      assert (X : a0 = b0) by (rewrite <- (tiles_start _ _ _ TA NA), <- (tiles_start _ _ _ TB NB), E; reflexivity).
      rewrite E, X, Y, Nat.eqb_refl. destruct (near_spec b0 b0); [|congruence]. destruct (near_spec b1 b1); [reflexivity|congruence].
  - rewrite Nat.eqb_sym. apply cells_eq. intros c d. cbn [fst snd].
    destruct (near_spec (center c) (center d)) as [E|E], (near_spec (width c) (width d)) as [F|F]; cbn; split; intro H; try discriminate; auto; try congruence.
    rewrite <- (around_center c), <- (around_center d), E, F. reflexivity.
Qed.
Print Assumptions C92_equal.

Example C92_equal_example :
  same_axis (regular_axis (q 0) (q 1) 3) (regular_axis_to (q 0) (q 3) 3) = true /\
  same_axis (regular_axis (q 0) (q 1) 2) (Axis false [(q 0, q 1); (q 1, q 3)]) = false.
Proof. vm_compute. split; reflexivity. Qed.

Lemma meets_some a b l s e : tiles a b l -> (s < e)%Qc -> (s < b)%Qc -> (a < e)%Qc -> (a < b)%Qc ->
  ~ Forall (fun c => ~ meets s e c) l.
Proof.
  intros T H1 H2 H3 H4 F. rewrite Forall_forall in F.
  destruct (Qclt_le_dec s a) as [L|L].
  - destruct (tiles_cover _ _ _ a T) as (k & c & N & I1 & I2); [apply Qcle_refl|auto|].
    apply (F c); [eapply nth_error_In; eauto|]. split; qclra.
  - destruct (tiles_cover _ _ _ s T) as (k & c & N & I1 & I2); auto.
    apply (F c); [eapply nth_error_In; eauto|]. split; qclra.
Qed.

(** checkIntervals: the axes do not overlap, or the cells of the one that are in
   the range of the other are the same for both. *)
Theorem C92_check : forall a b a0 a1 b0 b1,
  axis_cells (regular a) (cells a) -> axis_cells (regular b) (cells b) ->
  tiles a0 a1 (cells a) -> tiles b0 b1 (cells b) ->
  check_intervals a b = true <->
    ((a1 <= b0)%Qc \/ (b1 <= a0)%Qc) \/
    (exists m k1 k2, m <> [] /\ those (meets b0 b1) (cells a) m k1 /\ those (meets a0 a1) (cells b) m k2).
Proof.
  intros a b a0 a1 b0 b1 XA XB TA TB. pose proof XA as (NA & _). pose proof XB as (NB & _).
  unfold check_intervals.
  rewrite (tiles_start _ _ _ TA NA), (tiles_start _ _ _ TB NB), (tiles_end _ _ _ TA NA), (tiles_end _ _ _ TB NB).
  pose proof (tiles_lt _ _ _ TA NA) as LA. pose proof (tiles_lt _ _ _ TB NB) as LB.
  assert (Meet : forall P l m k, @those (Qc * Qc) P l m k -> m <> [] -> exists c, In c l /\ P c).
  { intros P l m k (x & y & -> & _ & H & _) N. destruct m as [|c m]; [congruence|]. exists c.
    split; [apply in_or_app; right; left; auto|]. now inversion H. }
  assert (Uniq : forall (P : Qc * Qc -> Prop) l m m' k k', those P l m k -> those P l m' k' -> m = m').
  { intros P l m m' k k' (x & y & E & _ & H1 & H2 & H3) (x' & y' & E' & _ & H1' & H2' & H3').
    assert (G : forall l x y m, l = x ++ m ++ y -> Forall P m -> Forall (fun c => ~ P c) x -> Forall (fun c => ~ P c) y ->
       forall c l', l = c :: l' -> (P c -> exists m1, m = c :: m1 /\ x = []) /\ (~ P c -> (exists x1, x = c :: x1) \/ (x = [] /\ m = []))).
    { clear. intros l x y m E H1 H2 H3 c l' ->. destruct x as [|d x]; cbn in E.
      - destruct m as [|d m]; cbn in E.
        + subst y. split; [intro Pc; inversion H3; contradiction|right; auto].
        + injection E as <- E. split; [eauto|]. intro. inversion H1. contradiction.
      - injection E as <- E. split; [|eauto]. intro. inversion H2. contradiction. }
    clear k k'. revert x x' m m' E E' H1 H1' H2 H2'. induction l as [|c l IH]; intros x x' m m' E E' H1 H1' H2 H2'.
    - destruct x; [|discriminate]. destruct m; [|discriminate]. destruct x'; [|discriminate]. destruct m'; [auto|discriminate].
    - destruct (G _ _ _ _ E H1 H2 H3 c l eq_refl) as [G1 G2]. destruct (G _ _ _ _ E' H1' H2' H3' c l eq_refl) as [G1' G2'].
      destruct x as [|d x].
      + destruct m as [|d m].
        * cbn in E. subst y. destruct m' as [|d' m']; auto. exfalso.
          rewrite Forall_forall in H3. apply (H3 d'); [rewrite E'; apply in_or_app; right; left; auto|]. now inversion H1'.
        * cbn in E. injection E as <- E. inversion H1; subst. destruct (G1' H4) as (m1 & -> & ->).
          cbn in E'. injection E' as E'. f_equal. apply (IH [] [] m m1); auto. now inversion H1'.
      + cbn in E. injection E as <- E. inversion H2; subst. destruct x' as [|d' x'].
        * destruct m' as [|d' m'].
          -- cbn in E'. subst y'. destruct m as [|d m]; auto. exfalso.
             rewrite Forall_forall in H3'. apply (H3' d); [right; apply in_or_app; right; left; auto|]. now inversion H1.
          -- cbn in E'. injection E' as <- E'. inversion H1'. contradiction.
        * cbn in E'. injection E' as <- E'. inversion H2'; subst. apply (IH x x' m m'); auto. }
  destruct (subset_those a a0 a1 b0 b1 XA TA) as [(m1 & M1 & M2 & ->)|(M1 & ->)];
  destruct (subset_those b b0 b1 a0 a1 XB TB) as [(m2 & P1 & P2 & ->)|(P1 & ->)]; cbn [cells].
  - rewrite cells_eq by (intros; apply near_cells). split.
    + intros <-. right. exists m1. do 2 eexists. eauto.
    + intros [H|(m & k1 & k2 & N & H1 & H2)].
      * exfalso. destruct (Meet _ _ _ _ M2 M1) as (c & Hc & Y1 & Y2).
        destruct (tiles_in _ _ _ _ TA Hc) as (Z1 & Z2 & Z3). destruct H; qclra.
      * rewrite (Uniq _ _ _ _ _ _ M2 H1), (Uniq _ _ _ _ _ _ P2 H2). reflexivity.
  - exfalso. destruct (Meet _ _ _ _ M2 M1) as (c & Hc & Y1 & Y2). destruct (tiles_in _ _ _ _ TA Hc) as (Z1 & Z2 & Z3).
    apply (meets_some b0 b1 (cells b) a0 a1); auto; qclra.
  - exfalso. destruct (Meet _ _ _ _ P2 P1) as (c & Hc & Y1 & Y2). destruct (tiles_in _ _ _ _ TB Hc) as (Z1 & Z2 & Z3).
    apply (meets_some a0 a1 (cells a) b0 b1); auto; qclra.
  - rewrite cells_eq by (intros; apply near_cells). split; [|reflexivity]. intros _. left.
    destruct (Qclt_le_dec b0 a1) as [L1|L1]; [|auto]. destruct (Qclt_le_dec a0 b1) as [L2|L2]; [|auto].
    exfalso. apply (meets_some a0 a1 (cells a) b0 b1); auto.
Qed.
Print Assumptions C92_check.

Example C92_check_example :
  check_intervals (regular_axis (q 0) (q 1) 3) (regular_axis (q 1) (q 1) 4) = true /\
  check_intervals (regular_axis (q 0) (q 1) 3) (regular_axis (q 1) (q 2) 2) = false /\
  check_intervals (regular_axis (q 0) (q 1) 3) (regular_axis (q 5) (q 2) 2) = true.
Proof. vm_compute. repeat split. Qed.
