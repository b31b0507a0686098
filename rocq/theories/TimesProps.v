(** Properties of the time slots that the reader of a measurement set delivers (steps/MsReader.cc). *)
From Coq Require Import QArith Qround Qcanon List Bool Arith ZArith Lia Sorted.
From Verif Require Import QcUtil AverageModel InfoModel TimesModel TimesSpec TimesProofs.
Import ListNotations.
Open Scope nat_scope.

Definition q (z : Z) : Qc := Q2Qc (inject_Z z).
(** casacore::near for positive numbers *)
Definition casacore_near (x y : Qc) : bool :=
  let m := if qltb x y then y else x in let d := if qltb x y then (y - x)%Qc else (x - y)%Qc in
  qleb d (Q2Qc (1 # 10000000000000) * m)%Qc.

(** * C39: time slots *)

(** A regular measurement set, of which time slots may be missing and the times may be off by less than half an interval:
    exactly the [n] time slots of the grid are delivered, with the data that is stored and inserted ones otherwise. *)
Theorem C39_regular : forall S (time : S -> Qc) near c index n prev l fuel,
  (0 < interval c)%Qc -> (0 <= tolerance c)%Qc -> (tolerance c + tolerance c < interval c)%Qc -> (0 < first c)%Qc ->
  on_grid time index (first c) (interval c) (tolerance c) l ->
  Forall (fun s => prev <= time s)%Qc l ->
  last c = (first c + qnat n * interval c)%Qc ->
  near (first c + qnat (n + 1) * interval c)%Qc (last c) = false ->
  n + 1 < fuel ->
  read_all time near c fuel (MkState 0 (first c) prev 0 l) =
    Some (map (fun k => (first c + qnat k * interval c, grid_slot index l k)%Qc) (seq 0 (n + 1))).
Proof.
  intros S time near c index n prev l fuel Hi Ht Hw Hf Hg Hp Hl Hn Hfuel.
  apply (read_grid S time near c Hi Ht index Hw (n + 1)); auto; try lia.
  - intros k Hk. unfold ended. pose proof (grid_time_le c Hi k n ltac:(lia)) as L. unfold grid_time in L |- *.
    replace (qltb (last c) (first c + qnat k * interval c)%Qc) with false by (symmetry; apply qltb_false; rewrite Hl; exact L).
    cbn [andb orb]. destruct (Qc_eq_bool _ 0) eqn:E; auto. exfalso. apply Qc_eq_bool_correct in E.
    pose proof (mult_nonneg _ _ (qnat_nonneg k) (Qclt_le_weak _ _ Hi)). revert E. generalize dependent (qnat k * interval c)%Qc.
    intros x _ H E. assert (0 < 0)%Qc by (rewrite <- E at 2; qclra). now apply Qclt_not_eq in H0.
  - unfold ended, grid_time. rewrite Hn.
    replace (qltb (last c) (first c + qnat (n + 1) * interval c)%Qc) with true; auto.
    symmetry. apply qltb_true. rewrite Hl, Nat.add_1_r, qnat_S.
    replace ((qnat n + 1) * interval c)%Qc with (qnat n * interval c + interval c)%Qc by ring.
    generalize (qnat n * interval c)%Qc. intros. qclra.
  - unfold at_grid. cbn [correction next count pending previous]. repeat split; auto; try apply Hg.
    + unfold grid_time. rewrite qnat_0. ring.
    + apply Forall_forall. intros; lia.
Qed.
Print Assumptions C39_regular.

(** Any measurement set in time order, regular or not.  [l] are the stored time slots, and those before the start are dropped. *)
Theorem C39_ordered : forall S (time : S -> Qc) near c prev l fuel outs,
  (0 < interval c)%Qc -> (0 <= tolerance c)%Qc -> (tolerance c + tolerance c < interval c)%Qc -> (0 < first c)%Qc ->
  ordered time (tolerance c) l -> Forall (fun s => prev <= time s)%Qc l ->
  read_all time near c fuel (MkState 0 (first c) prev 0 l) = Some outs ->
  let kept := filter (fun s => qleb (first c - tolerance c)%Qc (time s)) l in
  (* the times go up, from the first time *)
  increasing outs /\ match outs with [] => True | x :: _ => fst x = first c end /\
  (* the stored time slots come in their order, each one once, and none is missing before the end *)
  (exists m, stored outs = firstn m kept /\ Forall (fun s => last c - tolerance c < time s)%Qc (skipn m kept)) /\
  (* a stored time slot has its own time, within the tolerance, and others are inserted only where nothing is stored *)
  Forall (fun x => match snd x with
                   | Some s => within (tolerance c) (fst x) (time s)
                   | None => Forall (fun s => ~ within (tolerance c) (fst x) (time s)) kept
                   end) outs /\
  (* none is past the end *)
  Forall (fun x => fst x <= last c \/ near (fst x) (last c) = true)%Qc outs.
Proof.
  intros S time near c prev l fuel outs Hi Ht Hw Hf Ho Hp H kept.
  assert (I : inv S time c (MkState 0%Qc (first c) prev 0 l)).
  { unfold inv. cbn [next correction count pending previous]. rewrite qnat_0. repeat split; auto; try lia. ring. }
  destruct (read_ok S time near c Hi Ht Hf Hw fuel _ outs I H) as (G1 & G2 & G3 & G4 & G5 & G6).
  cbn [count pending next] in *. unfold kept_list in *. cbn [Nat.eqb] in *.
  split; auto. split; [now apply G3|]. split; auto. split.
  - eapply Forall_impl; [|exact G6]. cbn. intros x Hx. destruct (snd x); auto. apply Hx.
  - eapply Forall_impl; [|exact G4]. cbn. intros x Hx. unfold ended in Hx. apply orb_false_iff in Hx as [Hx _].
    destruct (qltb_spec (last c) (fst x)) as [L|L]; [|left; now apply Qcnot_lt_le].
    right. cbn [andb] in Hx. now apply negb_false_iff in Hx.
Qed.
Print Assumptions C39_ordered.

(** The reader ends. *)
Theorem C39_ends : forall S (time : S -> Qc) near c prev l,
  (0 < interval c)%Qc -> (0 <= tolerance c)%Qc -> (0 < first c)%Qc ->
  ordered time (tolerance c) l -> Forall (fun s => prev <= time s)%Qc l ->
  (forall x, (last c + interval c <= x)%Qc -> near x (last c) = false) ->
  exists fuel outs, read_all time near c fuel (MkState 0%Qc (first c) prev 0 l) = Some outs.
Proof.
  intros S time near c prev l Hi Ht Hf Ho Hp Hn.
  assert (I : inv S time c (MkState 0%Qc (first c) prev 0 l)).
  { unfold inv. cbn [next correction count pending previous]. rewrite qnat_0. repeat split; auto; try lia. ring. }
  destruct (archimedes (last c + interval c - first c) (interval c) Hi) as (m & Hm).
  apply (read_ends S time near c Hi Ht Hf Hn (length l) m); auto. cbn [next]. qclra.
Qed.
Print Assumptions C39_ends.

(** Three of five time slots are stored, one of them is a bit late. *)
Definition case_times : times := MkTimes (Q2Qc (1 # 100)) (q 100) (q 140) (q 10).
Definition case_slots : list (nat * Qc) := [(0, q 100); (1, Q2Qc (110005 # 1000)); (4, q 140)].
Lemma case_on_grid : on_grid snd fst (first case_times) (interval case_times) (tolerance case_times) case_slots.
Proof.
  split; [repeat constructor|]. repeat apply Forall_cons; try apply Forall_nil; split; apply qleb_true; vm_compute; reflexivity.
Qed.
Example C39_case : read_all snd casacore_near case_times 20 (MkState 0%Qc (q 100) 0%Qc 0 case_slots) =
  Some (map (fun k => (q 100 + qnat k * q 10, grid_slot fst case_slots k)%Qc) (seq 0 (4 + 1))).
Proof.
  apply (C39_regular _ snd casacore_near case_times fst 4 0%Qc case_slots 20); try reflexivity; try lia.
  - discriminate.
  - apply case_on_grid.
  - repeat constructor; apply qleb_true; vm_compute; reflexivity.
Qed.
Example C39_case_slots : map (grid_slot fst case_slots) (seq 0 5) = [Some (0, q 100); Some (1, Q2Qc (110005 # 1000)); None; None; Some (4, q 140)].
Proof. reflexivity. Qed.
(** An irregular one: after 103 the grid is shifted. *)
Definition shown (o : option (list (Qc * option (nat * Qc)))) : option (list (Q * option nat)) :=
  match o with Some l => Some (map (fun x => (this (fst x), match snd x with Some s => Some (fst s) | None => None end)) l) | None => None end.
Example C39_case_irregular : shown (read_all snd casacore_near (MkTimes (Q2Qc (1 # 100)) (q 100) (q 133) (q 10)) 20
    (MkState 0%Qc (q 100) 0%Qc 0 [(0, q 90); (1, q 100); (2, q 103); (3, q 133)])) =
  Some [((100 # 1)%Q, Some 1); ((103 # 1)%Q, Some 2); ((113 # 1)%Q, None); ((123 # 1)%Q, None); ((133 # 1)%Q, Some 3)].
Proof. vm_compute. reflexivity. Qed.

(** Within the tolerance the times may drift; the last time slot is then lost, though it is not after the last time: the end is
    tested with another tolerance than the time slots. *)
Theorem C39_last_lost_refuted : exists c (l : list (nat * Qc)) s outs,
  (0 < interval c)%Qc /\ (0 < first c)%Qc /\ (tolerance c + tolerance c < interval c)%Qc /\ ordered snd (tolerance c) l /\
  on_grid snd fst (first c) (interval c) (tolerance c) l /\
  In s l /\ (snd s <= last c)%Qc /\
  read_all snd casacore_near c 20 (MkState 0%Qc (first c) 0%Qc 0 l) = Some outs /\ ~ In s (stored outs).
Proof.
  exists (MkTimes (Q2Qc (1 # 100)) (q 100) (q 120) (Q2Qc (10001 # 1000))), [(0, q 100); (1, q 110); (2, q 120)], (2, q 120).
  eexists. split; [reflexivity|]. split; [reflexivity|]. split; [reflexivity|]. split; [|split; [|split; [|split; [|split]]]].
  - repeat constructor; apply qltb_true; vm_compute; reflexivity.
  - split; [repeat constructor|]. repeat apply Forall_cons; try apply Forall_nil; split; apply qleb_true; vm_compute; reflexivity.
  - cbn. auto.
  - apply Qcle_refl.
  - vm_compute. reflexivity.
  - vm_compute. intuition discriminate.
Qed.
Print Assumptions C39_last_lost_refuted.

(** Time slots out of order: one that is skipped makes an earlier time acceptable again, and the times do not go up. *)
Theorem C39_out_of_order_refuted : exists c (l : list (nat * Qc)) outs,
  (0 < interval c)%Qc /\ (0 < first c)%Qc /\ (tolerance c + tolerance c < interval c)%Qc /\
  read_all snd casacore_near c 20 (MkState 0%Qc (first c) 0%Qc 0 l) = Some outs /\ ~ increasing outs.
Proof.
  exists (MkTimes (Q2Qc (1 # 100)) (q 100) (q 140) (q 10)), [(0, q 100); (1, q 110); (2, q 120); (3, q 105); (4, q 115); (5, q 140)].
  eexists. split; [reflexivity|]. split; [reflexivity|]. split; [reflexivity|]. split; [vm_compute; reflexivity|].
  intros H. unfold increasing in H. inversion H as [|? ? H1 _]; subst. inversion H1 as [|? ? H2 _]; subst. inversion H2 as [|? ? _ H3]; subst.
  inversion H3 as [|? ? H4 _]; subst. vm_compute in H4. discriminate.
Qed.
Print Assumptions C39_out_of_order_refuted.

(** * C58: selection of times *)

(** The start time: time slots before it are skipped; if one is at it, or the first one after it is some whole intervals
    later, the delivered times are on the grid of the measurement set and start at it or less than an interval after it. *)
Theorem C58_start : forall S (time : S -> Qc) near want ival,
  (0 < ival)%Qc -> forall l prev first' prev' rest,
  ordered time 0 l -> Forall (fun s => prev <= time s)%Qc l ->
  skip_first_times time near want ival prev l = (first', prev', rest) ->
  (exists dropped, l = dropped ++ rest /\ Forall (fun s => time s <= want)%Qc dropped) /\
  Forall (fun s => prev' <= time s)%Qc rest /\
  match rest with
  | [] => first' = want
  | s :: _ =>
    (near (time s) want = true /\ first' = time s) \/
    (want < time s /\ exists k, time s = first' + qnat k * ival /\
       ((want <= first' /\ first' < want + ival) \/ (near want first' = true /\ want - ival <= first' /\ first' < want)))%Qc
  end.
Proof.
  intros S time near want ival Hi. induction l as [|s l IH]; intros prev first' prev' rest Ho Hp H; cbn [skip_first_times] in H.
  - injection H as <- <- <-. split; [exists []; auto|]. auto.
  - inversion Ho as [|? ? Ho1 Ho2]; subst. inversion Hp as [|? ? Hp1 Hp2]; subst.
    destruct (qltb_spec (time s) prev) as [X|_]; [exfalso; now apply Qcle_not_lt in Hp1|].
    destruct (near (time s) want) eqn:En.
    { injection H as <- <- <-. split; [exists []; auto|]. split; auto. }
    destruct (qltb_spec want (time s)) as [X|X].
    + apply pair_equal_spec in H as [H Er]. apply pair_equal_spec in H as [Ef Epr]. subst.
      split; [exists []; auto|]. split; auto. right. split; auto.
      set (y := ((time s - want) / ival)%Qc).
      assert (Ey : (time s - want = y * ival)%Qc). { unfold y. field. intros ->. now apply Qclt_not_eq in Hi. }
      assert (F1 : (Q2Qc (inject_Z (Qfloor (this y))) <= y)%Qc) by (unfold Qcle; rewrite this_Q2Qc; apply Qfloor_le).
      assert (F2 : (y < Q2Qc (inject_Z (Qfloor (this y))) + 1)%Qc).
      { unfold Qclt. rewrite this_plus, this_Q2Qc. pose proof (Qlt_floor (this y)) as L. rewrite inject_Z_plus in L. exact L. }
      assert (F0 : (0 <= Qfloor (this y))%Z).
      { assert (0 < y)%Qc. { unfold y. apply qc_mult_pos; [qclra|now apply qc_inv_pos]. }
        change 0%Z with (Qfloor 0). apply Qfloor_resp_le. apply Qclt_le_weak in H. exact H. }
      assert (K : exists k, qnat k = Q2Qc (inject_Z (Qfloor (this y)))).
      { exists (Z.to_nat (Qfloor (this y))). unfold qnat. now rewrite Z2Nat.id. }
      destruct K as (k & Ek). rewrite <- Ek in *. clear Ek F0.
      assert (G1 : (qnat k * ival <= y * ival)%Qc) by (apply Qcmult_le_compat_r; auto using Qclt_le_weak).
      assert (G2 : (y * ival < (qnat k + 1) * ival)%Qc) by (apply Qcmult_lt_compat_r; auto).
      replace ((qnat k + 1) * ival)%Qc with (qnat k * ival + ival)%Qc in G2 by ring.
      destruct (near want (time s - qnat k * ival - ival)%Qc) eqn:Ew.
      * exists (k + 1). rewrite Nat.add_1_r, qnat_S. split; [ring|]. right. split; auto.
        rewrite <- Ey in *. split; qclra.
      * exists k. split; [ring|]. left. rewrite <- Ey in *. split; qclra.
    + apply Qcnot_lt_le in X. apply IH in H; auto.
      * destruct H as ((d & -> & Hd) & H). split; auto. exists (s :: d). split; auto.
      * eapply Forall_impl; [|exact Ho2]. cbn. intros x Hx. qclra.
Qed.
Print Assumptions C58_start.

(** The number of time slots: so many are delivered. *)
Theorem C58_ntimes : forall S (time : S -> Qc) near sel tol ms_first ms_last ival l c st,
  end_time sel = None -> (0 < n_times sel < 2 ^ 32)%Z ->
  parse_times time near sel tol ms_first ms_last ival l = Ok (c, st) ->
  pending st <> [] ->
  next st = first c /\ interval c = ival /\ tolerance c = tol /\ count st = 0 /\ correction st = 0%Qc /\
  last c = (first c + qnat (Z.to_nat (n_times sel) - 1) * ival)%Qc.
Proof.
  intros S time near sel tol ms_first ms_last ival l c st He Hn H Hne. unfold parse_times in H. rewrite He in H.
  rewrite Z.mod_small in H by lia. replace (0 <? n_times sel)%Z with true in H by (symmetry; apply Z.ltb_lt; lia).
  destruct (match start_time sel with Some _ => _ | None => _ end) as [[[f p] rest]| |]; try discriminate.
  destruct rest as [|s rest].
  { destruct (qleb ival 0); [discriminate|]. injection H as <- <-. now cbn in Hne. }
  destruct (qltb _ f); [discriminate|]. destruct (qleb ival 0); [discriminate|]. injection H as <- <-.
  cbn. repeat split; auto. unfold qnat. do 4 f_equal. lia.
Qed.
Print Assumptions C58_ntimes.

(** The end time: the last time is on the grid, at the end time or less than an interval before it; a range without time
    slots is refused. *)
Theorem C58_end : forall S (time : S -> Qc) near sel tol ms_first ms_last ival l c st e,
  end_time sel = Some e ->
  parse_times time near sel tol ms_first ms_last ival l = Ok (c, st) ->
  pending st <> [] ->
  next st = first c /\ interval c = ival /\
  (exists k, last c = first c + qnat k * ival)%Qc /\ (last c <= e)%Qc /\ (e < last c + ival)%Qc.
Proof.
  intros S time near sel tol ms_first ms_last ival l c st e He H Hne. unfold parse_times in H. rewrite He in H.
  destruct (match start_time sel with Some _ => _ | None => _ end) as [[[f p] rest]| |]; try discriminate.
  destruct rest as [|s rest].
  { destruct (qleb ival 0); [discriminate|]. injection H as <- <-. now cbn in Hne. }
  destruct (0 <? _)%Z; [discriminate|]. destruct (qltb e _); [discriminate|].
  set (z := Qfloor (this ((e - f) / ival)%Qc)) in *.
  destruct (qltb_spec (f + Q2Qc (inject_Z z) * ival)%Qc f) as [|L]; [discriminate|].
  destruct (qleb_spec ival 0%Qc) as [|Hi]; [discriminate|].
  assert (E : forall A (a b : A), Ok a = Ok b -> a = b) by (intros A a b X; now injection X).
  apply E in H. clear E. apply pair_equal_spec in H as [Ec Es]. subst c st. cbn [next first interval last].
  apply Qcnot_le_lt in Hi. apply Qcnot_lt_le in L.
  set (y := ((e - f) / ival)%Qc) in *.
  assert (Ey : (e - f = y * ival)%Qc). { unfold y. field. intros ->. now apply Qclt_not_eq in Hi. }
  assert (F1 : (Q2Qc (inject_Z z) <= y)%Qc) by (unfold Qcle; rewrite this_Q2Qc; apply Qfloor_le).
  assert (F2 : (y < Q2Qc (inject_Z z) + 1)%Qc).
  { unfold Qclt. rewrite this_plus, this_Q2Qc. pose proof (Qlt_floor (this y)) as G. rewrite inject_Z_plus in G. exact G. }
  assert (Z0 : (0 <= z)%Z).
  { destruct (Z.le_gt_cases 0 z) as [|G]; auto. exfalso.
    assert (M : (Q2Qc (inject_Z z) * ival < 0 * ival)%Qc).
    { apply Qcmult_lt_compat_r; auto. unfold Qclt. rewrite this_Q2Qc, this_0. change 0%Q with (inject_Z 0). rewrite <- Zlt_Qlt. exact G. }
    generalize dependent (Q2Qc (inject_Z z) * ival)%Qc. intros. qclra. }
  split; auto. split; auto.
  assert (G1 : (Q2Qc (inject_Z z) * ival <= y * ival)%Qc) by (apply Qcmult_le_compat_r; auto using Qclt_le_weak).
  assert (G2 : (y * ival < (Q2Qc (inject_Z z) + 1) * ival)%Qc) by (apply Qcmult_lt_compat_r; auto).
  replace ((Q2Qc (inject_Z z) + 1) * ival)%Qc with (Q2Qc (inject_Z z) * ival + ival)%Qc in G2 by ring.
  split; [exists (Z.to_nat z); unfold qnat; now rewrite Z2Nat.id|]. rewrite <- Ey in *.
  generalize dependent (Q2Qc (inject_Z z) * ival)%Qc. intros. split; qclra.
Qed.
Print Assumptions C58_end.

(** The case: start between two time slots, and three time slots. *)
Definition case_parsed (sel : selection) : option (Q * Q * list nat) :=
  match parse_times snd casacore_near sel (Q2Qc (1 # 100)) (q 100) (q 140) (q 10) [(0, q 100); (1, q 110); (2, q 120); (4, q 140)] with
  | Ok (c, st) => Some (this (first c), this (last c), map fst (pending st))
  | _ => None
  end.
Example C58_case_start : case_parsed (MkSelection (Some (q 104)) 0 None 3) = Some ((110 # 1)%Q, (130 # 1)%Q, [1; 2; 4]).
Proof. vm_compute. reflexivity. Qed.
Example C58_case_gap : case_parsed (MkSelection (Some (q 123)) 0 None 0) = Some ((130 # 1)%Q, (140 # 1)%Q, [4]).
Proof. vm_compute. reflexivity. Qed.
Example C58_case_slot : case_parsed (MkSelection None 2 (Some (q 139)) 0) = Some ((120 # 1)%Q, (130 # 1)%Q, [2; 4]).
Proof. vm_compute. reflexivity. Qed.
Example C58_case_before : case_parsed (MkSelection None (-2) None 0) = Some ((80 # 1)%Q, (140 # 1)%Q, [0; 1; 2; 4]).
Proof. vm_compute. reflexivity. Qed.
Example C58_case_refused : case_parsed (MkSelection (Some (q 141)) 0 None 0) = None.
Proof. vm_compute. reflexivity. Qed.

(** What is refused: a start given twice, a start after the last time, an end given twice, an end before the first time, an
    end before the start, and an interval that is not positive. *)
Theorem C58_refused : forall S (time : S -> Qc) near sel tol ms_first ms_last ival l,
  ((exists want, start_time sel = Some want /\ ((0 < start_slot sel)%Z \/ (ms_last < want)%Qc)) \/ (ival <= 0)%Qc ->
    parse_times time near sel tol ms_first ms_last ival l = Throw) /\
  (forall c st, parse_times time near sel tol ms_first ms_last ival l = Ok (c, st) -> pending st <> [] ->
    (first c <= last c)%Qc /\ (0 < interval c)%Qc /\
    forall e, end_time sel = Some e -> ~ (0 < n_times sel < 2 ^ 32)%Z /\ (ms_first - half * ival <= e)%Qc).
Proof.
  intros S time near sel tol ms_first ms_last ival l. split.
  - intros [(want & E & H)|H]; unfold parse_times.
    + rewrite E. destruct (Z.ltb_spec 0 (start_slot sel)); [reflexivity|]. destruct H as [H|H]; [lia|].
      apply qltb_true in H. now rewrite H.
    + apply qleb_true in H. rewrite H.
      destruct (match start_time sel with Some _ => _ | None => _ end) as [[[f p] [|s rest]]| |] eqn:B; auto.
      2: { exfalso. destruct (start_time sel); repeat destruct (_ <? _)%Z; try destruct (qltb _ _); discriminate. }
      destruct (end_time sel) as [e|]; destruct (0 <? n_times sel mod 2 ^ 32)%Z; try reflexivity; try (now destruct (qltb _ f)).
      destruct (qltb e _); [reflexivity|]. now destruct (qltb _ f).
  - intros c st H Hne. unfold parse_times in H.
    destruct (match start_time sel with Some _ => _ | None => _ end) as [[[f p] [|s rest]]| |]; try discriminate.
    { destruct (qleb ival 0); [discriminate|]. injection H as <- <-. now cbn in Hne. }
    destruct (end_time sel) as [e|] eqn:Ee.
    + destruct (Z.ltb_spec 0 (n_times sel mod 2 ^ 32)) as [|N]; [discriminate|].
      destruct (qltb_spec e (ms_first - half * ival)%Qc) as [|Hl]; [discriminate|].
      match type of H with context [qltb ?a f] => destruct (qltb_spec a f) as [|L]; [discriminate|]; set (lst := a) in * end.
      destruct (qleb_spec ival 0%Qc) as [|Hi]; [discriminate|].
      assert (E : forall A (a b : A), Ok a = Ok b -> a = b) by (intros A a b X; now injection X).
      apply E in H. apply pair_equal_spec in H as [<- <-]. cbn [first last interval].
      split; [now apply Qcnot_lt_le|]. split; [now apply Qcnot_le_lt|]. intros e' [= <-].
      split; [|now apply Qcnot_lt_le]. intros R. rewrite Z.mod_small in N by lia. lia.
    + destruct (0 <? n_times sel mod 2 ^ 32)%Z;
      (match type of H with context [qltb ?a f] => destruct (qltb_spec a f) as [|L]; [discriminate|]; set (lst := a) in * end);
      (destruct (qleb_spec ival 0%Qc) as [|Hi]; [discriminate|]);
      (assert (E : forall A (a b : A), Ok a = Ok b -> a = b) by (intros A a b X; now injection X));
      apply E in H; apply pair_equal_spec in H as [<- <-]; cbn [first last interval];
      (split; [now apply Qcnot_lt_le|]); (split; [now apply Qcnot_le_lt|]); discriminate.
Qed.
Print Assumptions C58_refused.
Example C58_case_twice : case_parsed (MkSelection (Some (q 104)) 1 None 3) = None /\
  case_parsed (MkSelection None 0 (Some (q 130)) 3) = None.
Proof. vm_compute. auto. Qed.

(** A negative number of time slots is accepted, and is more than four thousand million. *)
Theorem C58_negative_ntimes_refuted : exists sel c st, (n_times sel < 0)%Z /\
  parse_times snd casacore_near sel (Q2Qc (1 # 100)) (q 100) (q 140) (q 10) case_slots = Ok (c, st) /\
  (first c + q 4294967294 * interval c <= last c)%Qc.
Proof.
  exists (MkSelection None 0 None (-1)). eexists _, _. split; [reflexivity|]. split; [vm_compute; reflexivity|].
  apply qleb_true. vm_compute. reflexivity.
Qed.
Print Assumptions C58_negative_ntimes_refuted.
