(** Properties of the splitting of baseline UVW coordinates. *)
From Coq Require Import List Bool Arith ZArith QArith Qcanon Lia ZifyBool Relations Permutation Sorted.
From Verif Require Import InfoModel InfoProofs QcUtil DdecalProofs UvwSplitModel UvwSplitSpec UvwSplitProofs.
Import ListNotations.
Open Scope nat_scope.

Lemma vec_laws : laws vec vadd vsub vzero.
Proof. repeat split; intros; repeat match goal with p : vec |- _ => destruct p as [[? ?] ?] end; unfold vadd, vsub, vzero; repeat apply (f_equal2 pair); ring. Qed.

(** C86: the coordinates of the stations that are found give back the coordinates of every baseline, whatever baselines there are and
    however the stations are connected by them *)
Theorem C86_split nant bls uvw : consistent vsub vzero bls uvw -> inside bls nant ->
  gives vsub vzero bls (split vec vadd vsub vzero nant (setup nant bls) bls uvw) uvw.
Proof. intros (x & Hx) Hi. apply setup_gives with (x := x); auto. apply vec_laws. Qed.

Lemma length_cross pos bls i : (forall a b, pos a = pos b -> a = b) -> cross bls i = true -> (0 < length_squared pos (nth i bls (0, 0)%nat))%Qc.
Proof.
  intros D. unfold cross. destruct (nth i bls (0, 0)%nat) as [a b]. intros C. apply negb_true_iff, Nat.eqb_neq in C. unfold length_squared. cbn [fst snd].
  assert (Sq : forall z : Qc, (0 <= z * z)%Qc).
  { intros z. destruct (Qclt_le_dec z 0) as [L|L].
    - replace (z * z)%Qc with ((- z) * (- z))%Qc by ring. apply Qclt_le_weak. apply qc_mult_pos; qclra.
    - apply Qcle_lt_or_eq in L as [L|L]; [apply Qclt_le_weak; now apply qc_mult_pos|]. rewrite <- L. rewrite Qcmult_0_l. apply Qcle_refl. }
  assert (Sp : forall z : Qc, z <> 0%Qc -> (0 < z * z)%Qc).
  { intros z N. specialize (Sq z). apply Qcle_lt_or_eq in Sq as [L|L]; auto. symmetry in L. apply Qcmult_integral in L. tauto. }
  assert (N : pos b <> pos a) by (intros E; apply C; symmetry; now apply D). clear C.
  destruct (pos b) as [[b1 b2] b3], (pos a) as [[a1 a2] a3]. cbn. pose proof (Sq (b1 - a1)%Qc). pose proof (Sq (b2 - a2)%Qc). pose proof (Sq (b3 - a3)%Qc).
  assert (Z : forall p q : Qc, (p - q)%Qc = 0%Qc -> p = q) by (intros p q E; replace p with (p - q + q)%Qc by ring; rewrite E; ring).
  destruct (Qc_eq_dec b1 a1) as [E1|E1]; [destruct (Qc_eq_dec b2 a2) as [E2|E2]; [destruct (Qc_eq_dec b3 a3) as [E3|E3]; [congruence|]|]|].
  - assert (0 < (b3 - a3) * (b3 - a3))%Qc by (apply Sp; auto). qclra.
  - assert (0 < (b2 - a2) * (b2 - a2))%Qc by (apply Sp; auto). qclra.
  - assert (0 < (b1 - a1) * (b1 - a1))%Qc by (apply Sp; auto). qclra.
Qed.
Lemma length_auto pos bls i : cross bls i = false -> length_squared pos (nth i bls (0, 0)%nat) = 0%Qc.
Proof.
  unfold cross. destruct (nth i bls (0, 0)%nat) as [a b]. intros C. apply negb_false_iff, Nat.eqb_eq in C. subst. unfold length_squared. cbn.
  destruct (pos b) as [[? ?] ?]. cbn. ring.
Qed.
Lemma sorted_before {T} (R : T -> T -> Prop) : forall l1 l2, StronglySorted R (l1 ++ l2) -> forall i j, In i l1 -> In j l2 -> R i j.
Proof.
  induction l1 as [|k l1 IH]; intros l2 S i j I J; [destruct I|]. cbn in S. apply StronglySorted_inv in S as [S F].
  destruct I as [<-|I]; [|now apply (IH l2)]. rewrite Forall_forall in F. apply F. apply in_app_iff. auto.
Qed.
Lemma autos_last pos bls order : (forall a b, pos a = pos b -> a = b) ->
  StronglySorted (fun i j => ~ (length_squared pos (nth i bls (0, 0)%nat) < length_squared pos (nth j bls (0, 0)%nat))%Qc) order ->
  forall l1 l2, order = l1 ++ l2 -> forall i j, In i l1 -> In j l2 -> cross bls j = true -> cross bls i = true.
Proof.
  intros D S l1 l2 -> i j I J C. destruct (cross bls i) eqn:Ci; auto. exfalso. apply (sorted_before _ _ _ S i j I J).
  rewrite (length_auto pos bls i Ci). now apply length_cross.
Qed.

(** C86: the same holds if only the longest baselines that connect the stations are used, for every order in which the baselines are
    sorted by length, if no two antennas are at the same position *)
Theorem C86_split_longest nant bls uvw pos order : consistent vsub vzero bls uvw -> inside bls nant -> (forall a b, pos a = pos b -> a = b) ->
  longest_first Qclt (fun i => length_squared pos (nth i bls (0, 0)%nat)) (length bls) order ->
  gives vsub vzero bls (split vec vadd vsub vzero nant (setup_selected nant bls order) bls uvw) uvw.
Proof.
  intros (x & Hx) Hi D (P & S). apply selected_gives with (x := x); auto.
  - apply vec_laws.
  - intros i. split; intros H.
    + apply (Permutation_in _ P) in H. apply in_seq in H. lia.
    + apply (Permutation_in _ (Permutation_sym P)). apply in_seq. lia.
  - now apply autos_last with pos.
Qed.

(** C86: the baselines that are used are the longest ones: the antennas of any baseline are connected by used ones that are not shorter
    than it, and there are fewer of them between different antennas than there are antennas *)
Theorem C86_longest nant bls pos order : inside bls nant -> (forall a b, pos a = pos b -> a = b) ->
  longest_first Qclt (fun i => length_squared pos (nth i bls (0, 0)%nat)) (length bls) order ->
  (forall i a b, nth_error bls i = Some (a, b) ->
     exists c, linked bls c a b /\ forall j, In j c -> In j (select nant bls order) /\ ~ (length_squared pos (nth j bls (0, 0)%nat) < length_squared pos (a, b))%Qc) /\
  (0 < nant -> length (filter (fun i => let '(a, b) := nth i bls (0, 0) in negb (a =? b)) (select nant bls order)) < nant).
Proof.
  intros Hi D (P & S). assert (V : forall i, In i order -> i < length bls) by (intros i H; apply (Permutation_in _ P) in H; apply in_seq in H; lia). split.
  - intros i a b E. assert (I : In i order). { apply (Permutation_in _ (Permutation_sym P)). apply in_seq. assert (i < length bls) by (apply nth_error_Some; congruence). lia. }
    apply in_split in I as (l1 & l2 & Eo). destruct (select_path nant bls Hi order V (autos_last pos bls order D S) l1 i l2 a b Eo E) as (c & Lc & Hc).
    exists c. split; auto. intros j J. destruct (Hc j J) as [J1 J2]. split; auto. pose proof (nth_error_nth _ _ (0, 0) E) as En.
    apply in_app_iff in J2 as [J2|[<-|[]]].
    + rewrite <- En. rewrite Eo in S. apply (sorted_before _ _ _ S j i); auto. now left.
    + rewrite En. apply Qcle_not_lt. apply Qcle_refl.
  - intros H0. apply (select_few nant bls Hi order H0 V).
Qed.

(** C86: with two antennas at the same position the autocorrelation of one of them may be counted as a baseline that connects; the one between
    the two is then not used, and the station coordinates do not give its coordinates *)
Theorem C86_same_position_refuted : exists nant bls uvw pos order, consistent vsub vzero bls uvw /\ inside bls nant /\
  longest_first Qclt (fun i => length_squared pos (nth i bls (0, 0)%nat)) (length bls) order /\
  ~ gives vsub vzero bls (split vec vadd vsub vzero nant (setup_selected nant bls order) bls uvw) uvw.
Proof.
  exists 3, [(0, 1); (2, 2); (1, 2)], [(1, 0, 0)%Qc; vzero; vzero], (fun a => if a =? 0 then vzero else (1, 0, 0)%Qc), [0; 1; 2].
  split; [|split; [|split]].
  - exists (fun a => if a =? 0 then vzero else (1, 0, 0)%Qc). intros [|[|[|i]]] a b E; try (destruct i; discriminate); injection E as <- <-; cbn; unfold vzero; repeat f_equal; apply Qc_is_canon; reflexivity.
  - intros [|[|[|i]]] a b E; try (destruct i; discriminate); injection E as <- <-; lia.
  - split; [reflexivity|]. repeat constructor; apply Qcle_not_lt; apply qleb_true; vm_compute; reflexivity.
  - intros G. specialize (G 2 1 2 eq_refl). vm_compute in G. discriminate.
Qed.

(** Four antennas; the last is only connected by a baseline with the antennas the other way round *)
Example split_example : let bls := [(0, 0); (0, 1); (2, 1); (3, 2); (3, 3)] in
  let v k : vec := (qn k, 0, qn (2 * k))%Qc in
  let uvw := [vzero; v 3; v 1; v 2; vzero] in
  setup 4 bls = [1; -3; -4]%Z /\
  split vec vadd vsub vzero 4 (setup 4 bls) bls uvw = [vzero; v 3; v 2; vzero] /\
  consistent vsub vzero bls uvw /\ inside bls 4.
Proof.
  cbv zeta. split; [reflexivity|]. split; [|split].
  - vm_compute. repeat f_equal; apply Qc_is_canon; reflexivity.
  - exists (fun a => nth a [vzero; (qn 3, 0, qn 6)%Qc; (qn 2, 0, qn 4)%Qc; vzero] vzero).
    intros [|[|[|[|[|i]]]]] a b E; try (destruct i; discriminate); injection E as <- <-; cbn; unfold vzero; repeat f_equal; apply Qc_is_canon; vm_compute; reflexivity.
  - intros [|[|[|[|[|i]]]]] a b E; try (destruct i; discriminate); injection E as <- <-; lia.
Qed.
(** A triangle: the two longest baselines are used *)
Example select_example : let bls := [(0, 0); (0, 1); (0, 2); (1, 2)] in
  let pos a : vec := (qn (nth a [0; 1; 5] (a + 10))%nat, 0, 0)%Qc in
  longest_first Qclt (fun i => length_squared pos (nth i bls (0, 0)%nat)) (length bls) [2; 3; 1; 0] /\
  select 3 bls [2; 3; 1; 0] = [2; 3] /\ setup_selected 3 bls [2; 3; 1; 0] = [2; -4]%Z.
Proof.
  cbv zeta. split; [|split; reflexivity]. split.
  - change (seq 0 4) with [0; 1; 2; 3]. apply NoDup_Permutation; [repeat constructor; cbn; lia|repeat constructor; cbn; lia|]. intros i. cbn. lia.
  - repeat constructor; apply Qcle_not_lt; apply qleb_true; vm_compute; reflexivity.
Qed.
Print Assumptions C86_split.
Print Assumptions C86_split_longest.
Print Assumptions C86_longest.
Print Assumptions C86_same_position_refuted.
