(** C97: the constraints of DDECal on antennas, intervals and frequencies. *)
From Coq Require Import Reals List Arith Bool Lia Lra.
From Verif Require Import RealCplx AverageModel ConstrModel ConstrSpec ConstrProofs.
Import ListNotations.
Open Scope R_scope.

(** C97, groups of antennas (antennaconstraint and coreconstraint): with groups that have no antenna in common, every antenna of a group gets, in every channel block and for every sub-solution and polarization, the mean of the finite solutions of its group before; so antennas of a group get the same solution.  Antennas in no group keep their solutions. *)
Theorem C97_antenna : forall n_ch groups s, ForallOrdPairs disjoint groups ->
  let s' := antenna_constraint n_ch groups s in
  forall ch d p, (ch < n_ch)%nat ->
  (forall g a, In g groups -> In a g -> is_mean (map (fun b => s ch b d p) g) (s' ch a d p)) /\
  (forall g a b, In g groups -> In a g -> In b g -> s' ch a d p = s' ch b d p) /\
  (forall a, (forall g, In g groups -> ~ In a g) -> s' ch a d p = s ch a d p).
Proof.
  intros n_ch groups s D s' ch d p L. unfold s'. split; [|split].
  - intros g a I J. rewrite antenna_constraint_at, (proj2 (Nat.ltb_lt ch n_ch)), (average_sets_in ch groups D s a d p g I J) by assumption. apply mean_ok.
  - intros g a b I J K. rewrite !antenna_constraint_at, (proj2 (Nat.ltb_lt ch n_ch)) by assumption.
    now rewrite (average_sets_in ch groups D s a d p g I J), (average_sets_in ch groups D s b d p g I K).
  - intros a N. rewrite antenna_constraint_at, (proj2 (Nat.ltb_lt ch n_ch)) by assumption. apply average_sets_other. now right.
Qed.
Print Assumptions C97_antenna.
Example C97_antenna_example : ForallOrdPairs disjoint [[0;2]; [1;4;5]]%nat.
Proof. repeat constructor; intros x I J; cbn in *; lia. Qed.

(** C97, solutions that are the same already: antenna groups, also groups that have antennas in common, do not change solutions that are equal within every group. *)
Theorem C97_antenna_fixed : forall n_ch groups s,
  (forall ch d p g a b, (ch < n_ch)%nat -> In g groups -> In a g -> In b g -> s ch a d p = s ch b d p) ->
  forall ch a d p, antenna_constraint n_ch groups s ch a d p = s ch a d p.
Proof.
  intros n_ch groups s H ch a d p. rewrite antenna_constraint_at. destruct (Nat.ltb_spec ch n_ch) as [L|]; [|reflexivity].
  assert (G : forall gs t, incl gs groups -> (forall a d p, t ch a d p = s ch a d p) -> fold_left (fun s set => average_set s ch set) gs t ch a d p = s ch a d p).
  { induction gs as [|g gs IH]; intros t I E; [apply E|]. cbn [fold_left]. apply IH; [intros x X; apply I; now right|].
    intros b d' p'. unfold average_set. rewrite Nat.eqb_refl. cbn [andb]. destruct (existsb (Nat.eqb b) g) eqn:B; [|apply E]. apply in_existsb in B.
    apply mean_const; [destruct g; easy|]. intros x X. apply in_map_iff in X as (b' & <- & B'). rewrite E. apply (H ch d' p' g); auto. apply I. now left. }
  apply G; [apply incl_refl|reflexivity].
Qed.
Print Assumptions C97_antenna_fixed.
Example C97_antenna_fixed_example : forall d p : nat, antenna_constraint 2 [[0;1]; [1;2]]%nat (fun _ a _ _ => if (a <? 3)%nat then Some rc1 else None) 1%nat 2%nat d p = Some rc1.
Proof.
  intros d p. rewrite C97_antenna_fixed; [reflexivity|]. intros ch d' p' g a b _ I J K. cbn in I. destruct I as [<-|[<-|[]]]; cbn in J, K.
  - destruct J as [<-|[<-|[]]], K as [<-|[<-|[]]]; reflexivity.
  - destruct J as [<-|[<-|[]]], K as [<-|[<-|[]]]; reflexivity.
Qed.

(** Refutes for C97 that antennas of a group always get the same solution: antennaconstraint=[[A,B],[B,C]] is accepted, and the groups are handled one after the other, so that A and B, of the first group, end up with different solutions. *)
Theorem C97_antenna_refuted : exists n_ch groups s ch d p g a b,
  (ch < n_ch)%nat /\ In g groups /\ In a g /\ In b g /\ antenna_constraint n_ch groups s ch a d p <> antenna_constraint n_ch groups s ch b d p.
Proof.
  exists 1%nat, [[0;1]; [1;2]]%nat, (fun _ a _ _ => Some (RC (if (a =? 2)%nat then 1 else 0) 0)), 0%nat, 0%nat, 0%nat, [0;1]%nat, 0%nat, 1%nat.
  split; [lia|]. split; [now left|]. split; [now left|]. split; [now right; left|].
  cbn. intros E. inversion E as [[A B]]. lra.
Qed.
Print Assumptions C97_antenna_refuted.

(** C97, intervals of antennas (antenna_averaging_factors): settings are accepted if there is a factor for every antenna, none is zero and none is above the largest number of sub-solutions of a direction.  Then sub-solution j of a direction gets, for every antenna, the mean of the finite solutions of its block of as many sub-solutions of the same direction as the factor of the antenna says (the last block may be smaller).  Nothing else changes. *)
Theorem C97_interval : forall factors n_ant subs s, check_factors factors n_ant subs = Ok tt ->
  let s' := interval_constraint factors subs s in
  (length factors = n_ant /\ forall f, In f factors -> (1 <= f)%nat /\ exists n, In n subs /\ (f <= n)%nat) /\
  (forall c a k j p, (a < n_ant)%nat -> (k < length subs)%nat -> (j < nth k subs 0)%nat ->
   is_mean (map (fun i => s c a (offset subs k + i)%nat p) (same_block (nth a factors 0%nat) (nth k subs 0%nat) j)) (s' c a (offset subs k + j)%nat p)) /\
  (forall c a d p, (n_ant <= a)%nat \/ (fold_right plus 0%nat subs <= d)%nat -> s' c a d p = s c a d p).
Proof.
  intros factors n_ant subs s H s'. unfold check_factors in H. destruct (Nat.eqb_spec (length factors) n_ant) as [L|]; [|discriminate]. cbn [negb] in H.
  destruct (Nat.eqb_spec (fold_right Nat.min (hd 0%nat factors) factors) 0) as [|Z]; [discriminate|].
  destruct (Nat.ltb_spec (fold_right Nat.max 0%nat subs) (fold_right Nat.max 0%nat factors)) as [|M]; [discriminate|]. clear H.
  assert (F : forall f, In f factors -> (1 <= f)%nat).
  { clear M L. intros f I. revert Z. generalize (hd 0%nat factors). intros h Z. assert (fold_right Nat.min h factors <= f)%nat; [|lia].
    clear Z. induction factors as [|x l IH]; [easy|]. cbn [fold_right]. destruct I as [->|I]; [lia|]. specialize (IH I). lia. }
  split; [|split].
  - split; [assumption|]. intros f I. split; [now apply F|].
    assert (f <= fold_right Nat.max 0%nat factors)%nat.
    { clear - I. induction factors as [|x l IH]; [easy|]. cbn [fold_right]. destruct I as [->|I]; [lia|]. specialize (IH I). lia. }
    assert (X : (fold_right Nat.max 0%nat subs = 0 \/ In (fold_right Nat.max 0%nat subs) subs)%nat).
    { clear. induction subs as [|x l IH]; [now left|]. right. cbn [fold_right]. destruct (Nat.max_spec x (fold_right Nat.max 0%nat l)) as [[P ->]|[P ->]]; [|now left].
      right. destruct IH as [E|E]; [lia|assumption]. }
    specialize (F f I). destruct X as [X|X]; [lia|]. exists (fold_right Nat.max 0%nat subs). split; [assumption|lia].
  - intros c a k j p A K J. unfold s'. rewrite (proj2 (interval_constraint_at factors subs s c a (offset subs k + j) p F) k j) by (auto; lia). apply mean_ok.
  - intros c a d p N. apply (proj1 (interval_constraint_at factors subs s c a d p F)). lia.
Qed.
Print Assumptions C97_interval.
(** the example of the documentation: factors 3, 6 and 1, and 6, 6, 1 and 1 sub-solutions *)
Example C97_interval_example : check_factors [3;6;1]%nat 3 [6;6;1;1]%nat = Ok tt /\ offset [6;6;1;1]%nat 1 = 6%nat /\ same_block 3 6 4 = [3;4;5]%nat.
Proof. repeat split. Qed.
Example C97_interval_rejects : check_factors [3;0]%nat 2 [6]%nat = Throw /\ check_factors [3;7]%nat 2 [6;6]%nat = Throw.
Proof. split; reflexivity. Qed.

(** C97, reference antenna (used by the constraints on phases, e.g. TEC): for every polarization the reference is the first antenna with solutions in more than 20% of the channel blocks, for the first direction.  In a channel block and sub-solution where the solution y of the reference is finite and not zero, every other antenna with solution x gets x / y, and the reference gets 1; so ratios of antennas are kept.  Solutions that are not finite remain so for the other antennas. *)
Theorem C97_reference : forall n_ch n_ant n_pol s p, (p < n_pol)%nat -> exists ref,
  is_reference n_ch n_ant (fun a ch => s ch a 0%nat p) ref /\
  let s' := apply_reference n_ch n_ant n_pol s in
  forall ch a d, (ch < n_ch)%nat -> (a < n_ant)%nat ->
  (a = ref -> s' ch a d p = Some rc1) /\
  (a <> ref -> forall x y, s ch a d p = Some x -> s ch ref d p = Some y -> y <> rc0 -> exists z, s' ch a d p = Some z /\ rmul z y = x) /\
  (a <> ref -> s ch a d p = None -> s' ch a d p = None).
Proof.
  intros n_ch n_ant n_pol s p P. exists (reference n_ch n_ant s p). split; [apply reference_ok|]. intros s' ch a d C A.
  assert (E : s' ch a d p = if (a =? reference n_ch n_ant s p)%nat then Some rc1 else quotient (s ch a d p) (s ch (reference n_ch n_ant s p) d p)).
  { unfold s', apply_reference. rewrite refer_fold. cbn [Nat.leb Nat.add andb]. rewrite (proj2 (Nat.ltb_lt p n_pol)) by assumption.
    unfold refer_pol. rewrite Nat.eqb_refl, (proj2 (Nat.ltb_lt ch n_ch)), (proj2 (Nat.ltb_lt a n_ant)) by assumption. reflexivity. }
  rewrite E. split; [intros ->; now rewrite Nat.eqb_refl|]. split.
  - intros N x y -> -> Y. rewrite (proj2 (Nat.eqb_neq _ _) N). cbn [quotient]. destruct (Req_EM_T (rnorm y) 0) as [Z|Z]; [elim Y; now apply rnorm_0|].
    eexists. split; [reflexivity|]. transitivity (rmul x (rmul y (rinv y))); [ring|]. rewrite rinv_spec by assumption. ring.
  - intros N ->. now rewrite (proj2 (Nat.eqb_neq _ _) N).
Qed.
Print Assumptions C97_reference.
(** antenna 0 has no solutions, so antenna 1 is the reference *)
Example C97_reference_example : is_reference 3 2 (fun a _ => if (a =? 0)%nat then None else Some (RC 0 2)) 1.
Proof.
  left. split; [lia|]. split.
  - apply finite_count. cbn. lia.
  - intros a L H. apply finite_count in H. assert (a = 0)%nat by lia. subst. cbn in H. lia.
Qed.

(** Refutes for C97 that only antennas without a solution end up without one, and that they do: in a channel block where the reference antenna has no solution (which may be up to 80% of them) all other antennas lose theirs, and the reference antenna gets 1 as if it had one. *)
Theorem C97_reference_refuted : exists n_ch n_ant n_pol s ch a ref d p,
  (ch < n_ch)%nat /\ (a < n_ant)%nat /\ (ref < n_ant)%nat /\ (p < n_pol)%nat /\
  s ch a d p <> None /\ s ch ref d p = None /\
  apply_reference n_ch n_ant n_pol s ch a d p = None /\ apply_reference n_ch n_ant n_pol s ch ref d p <> None.
Proof.
  set (s := (fun c a _ _ => if ((c =? 0) && (a =? 0))%nat%bool then None else Some rc1) : solutions).
  exists 2%nat, 2%nat, 1%nat, s, 0%nat, 1%nat, 0%nat, 0%nat, 0%nat.
  assert (R : reference 2 2 s 0 = 0%nat).
  { unfold reference. cbn [seq find]. replace (enough 2 s 0 0) with true; [reflexivity|]. symmetry. apply rltb_true. cbn. lra. }
  unfold apply_reference. cbn [seq fold_left]. unfold refer_pol. rewrite R. cbn.
  repeat split; try lia; discriminate.
Qed.
Print Assumptions C97_reference_refuted.

(** * Smoothing *)
Lemma value_ok n freq bw ref expo trunc (s : nat -> option rc) (w : nat -> R) factor i b :
  let K j := kernel bw trunc ((freq i - freq j) * (Rpower (local_bandwidth freq bw ref i / bw) expo * factor)) in
  good n freq bw ref trunc i b ->
  (forall j, (j < n)%nat -> (j < fst (window n trunc b) \/ snd (window n trunc b) <= j)%nat -> K j = 0) ->
  is_smoothed n s K w (smooth_value n freq bw ref expo trunc (fun j => match s j with Some z => z | None => rc0 end) (fun j => match s j with Some _ => w j | None => 0 end) factor i b).
Proof.
  intros K G Z. pose proof (window_ok n freq bw ref trunc i b G) as (A & B & C). cbn zeta in A, B, C. unfold smooth_value, is_smoothed. destruct (window n trunc b) as [first last]. cbn [fst snd] in *.
  rewrite fold_left_rsum, fold_left_csum.
  rewrite (rsum_window _ first last n), (csum_window _ first last n); try lia.
  2, 3: intros j L H; destruct (s j); [rewrite (Z j L H)|reflexivity]; try (apply rc_eq; cbn); ring.
  rewrite (fold_ext_r (fun j => kernel bw trunc ((freq i - freq j) * (Rpower (local_bandwidth freq bw ref i / bw) expo * factor)) * match s j with Some _ => w j | None => 0 end) (fun j => match s j with Some _ => K j * w j | None => 0 end)).
  2: intros j _; unfold K; destruct (s j); ring.
  rewrite (fold_ext_c (fun j => rscale (kernel bw trunc ((freq i - freq j) * (Rpower (local_bandwidth freq bw ref i / bw) expo * factor)) * match s j with Some _ => w j | None => 0 end) match s j with Some z => z | None => rc0 end) (fun j => match s j with Some z => rscale (K j * w j) z | None => rc0 end)).
  2: intros j _; unfold K; destruct (s j); [reflexivity|apply rc_eq; cbn; ring].
  set (W := fold_right _ 0 _). set (S := fold_right _ rc0 _). replace (0 + W) with W by ring.
  destruct (Req_EM_T W 0) as [E|E]; [left; auto|]. right. split; [assumption|]. eexists. split; [reflexivity|].
  apply rc_eq; cbn [rscale radd rc0 re im]; field; assumption.
Qed.

(** the factor of a direction, which is 1 if there are no factors *)
Definition dd_factor (dd : list R) (d : nat) : R := match dd with [] => 1 | _ => nth d dd 0 end.
(** the weights of a sub-solution, which are the same for all if there are none for sub-solutions *)
Definition weights_of (weights : list R) (sub : list (list R)) (d : nat) : list R := match sub with [] => weights | _ => nth d sub [] end.

Lemma Rpower_flip x y e : 0 < x -> 0 < y -> Rpower (x / y) e = / Rpower (y / x) e.
Proof.
  intros X Y. unfold Rpower. rewrite <- exp_Ropp. f_equal. unfold Rdiv. rewrite !ln_mult, !ln_Rinv by (auto using Rinv_0_lt_compat). ring.
Qed.
Lemma kernel_doc freq bw ref expo trunc i j ant dd : 0 < bw -> 0 <= ref -> 0 < freq i -> 0 < ant -> 0 < dd ->
  kernel bw trunc ((freq i - freq j) * (Rpower (local_bandwidth freq bw ref i / bw) expo * (1 / dd / ant))) =
  gaussian trunc (kernel_size bw ref expo (freq i) ant dd) (freq i - freq j).
Proof.
  intros B R F A D. set (x := freq i - freq j).
  assert (P : exists q, 0 < q /\ (if Req_EM_T ref 0 then 1 else Rpower (ref / freq i) expo) = q /\ Rpower (local_bandwidth freq bw ref i / bw) expo = / q).
  { unfold local_bandwidth. destruct (Req_EM_T ref 0) as [E|E].
    - exists 1. split; [lra|]. split; [reflexivity|]. replace (bw / bw) with 1 by (field; lra). unfold Rpower. rewrite ln_1, Rmult_0_r, exp_0. field.
    - exists (Rpower (ref / freq i) expo). split; [apply exp_pos|]. split; [reflexivity|]. replace (bw * freq i / ref / bw) with (freq i / ref) by (field; lra). apply Rpower_flip; lra. }
  destruct P as (q & Q & E1 & E2). unfold kernel_size. rewrite E1, E2.
  set (size := bw * q * ant * dd). assert (S : 0 < size) by (unfold size; repeat apply Rmult_lt_0_compat; assumption).
  assert (X : x * (/ q * (1 / dd / ant)) / bw = x / size) by (unfold size; field; repeat split; lra).
  unfold kernel, gaussian. rewrite X.
  replace (- (x / size) * (x / size) * 9) with (- (9 * (x / size * (x / size)))) by ring.
  destruct trunc; [|reflexivity]. cbn [andb].
  assert (T : (rltb (x / size) (-1) || rltb 1 (x / size))%bool = if Rlt_dec size (Rabs x) then true else false).
  { assert (M : x = x / size * size) by (field; lra). destruct (Rlt_dec size (Rabs x)) as [L|L].
    - apply orb_true_iff. rewrite !rltb_true. unfold Rabs in L. destruct (Rcase_abs x); [left|right]; set (y := x / size) in *; nra.
    - apply orb_false_iff. rewrite !rltb_false. pose proof (Rle_abs x). pose proof (Rle_abs (- x)). rewrite Rabs_Ropp in *. set (y := x / size) in *. split; nra. }
  rewrite T. destruct (Rlt_dec size (Rabs x)); reflexivity.
Qed.

(** Smoothing is done with frequencies that increase, a kernel of positive size and positive factors *)
Definition proper (freq : nat -> R) (bw ref : R) (ant dd : list R) (a d : nat) : Prop :=
  (forall i j, (i < j)%nat -> freq i < freq j) /\ 0 < freq 0%nat /\ 0 < bw /\ 0 <= ref /\ 0 < nth a ant 0 /\ 0 < dd_factor dd d.

Lemma smoothness_at n freq bw ref expo trunc n_ant n_sub n_pol weights sub_weights ant dd s c a d p : proper freq bw ref ant dd a d -> (c < n)%nat -> (a < n_ant)%nat -> (d < n_sub)%nat -> (p < n_pol)%nat ->
  exists b, good n freq bw ref trunc c b /\
  smoothness_constraint n freq bw ref expo trunc n_ant n_sub n_pol weights sub_weights ant dd s c a d p =
  smooth_value n freq bw ref expo trunc (fun ch => match s ch a d p with Some z => z | None => rc0 end) (fun ch => match s ch a d p with Some _ => nth (a * n + ch) (weights_of weights sub_weights d) 0 | None => 0 end) (1 / dd_factor dd d / nth a ant 0) c b.
Proof.
  intros (I & F & B & R & A & D) C1 A1 D1 P1. unfold smoothness_constraint.
  rewrite (proj2 (Nat.ltb_lt c n) C1), (proj2 (Nat.ltb_lt a n_ant) A1), (proj2 (Nat.ltb_lt d n_sub) D1), (proj2 (Nat.ltb_lt p n_pol) P1). cbn [andb].
  fold (weights_of weights sub_weights d).
  replace (match dd with [] => 1 | _ :: _ => 1 / nth d dd 0 end) with (1 / dd_factor dd d) by (unfold dd_factor; destruct dd; [field|reflexivity]).
  apply smooth_at; assumption.
Qed.

(** C97, smoothness without truncation (smoothness_kernel_truncation=false): every solution becomes the mean of the finite solutions of all channel blocks of the same antenna, sub-solution and polarization, weighted with their weights and with a Gaussian of the documented size, which varies with frequency, antenna and direction. *)
Theorem C97_smooth : forall n freq bw ref expo n_ant n_sub n_pol weights sub_weights ant dd s c a d p,
  proper freq bw ref ant dd a d -> (c < n)%nat -> (a < n_ant)%nat -> (d < n_sub)%nat -> (p < n_pol)%nat ->
  is_smoothed n (fun ch => s ch a d p) (fun j => gaussian false (kernel_size bw ref expo (freq c) (nth a ant 0) (dd_factor dd d)) (freq c - freq j))
    (fun j => nth (a * n + j) (weights_of weights sub_weights d) 0)
    (smoothness_constraint n freq bw ref expo false n_ant n_sub n_pol weights sub_weights ant dd s c a d p).
Proof.
  intros n freq bw ref expo n_ant n_sub n_pol weights sub_weights ant dd s c a d p H C1 A1 D1 P1.
  destruct (smoothness_at n freq bw ref expo false n_ant n_sub n_pol weights sub_weights ant dd s c a d p H C1 A1 D1 P1) as (b & G & ->).
  destruct H as (I & F & B & R & A & D).
  assert (X := value_ok n freq bw ref expo false (fun ch => s ch a d p) (fun j => nth (a * n + j) (weights_of weights sub_weights d) 0) (1 / dd_factor dd d / nth a ant 0) c b G).
  cbn zeta in X. unfold is_smoothed in *. cbn zeta in *.
  assert (K : forall j, kernel bw false ((freq c - freq j) * (Rpower (local_bandwidth freq bw ref c / bw) expo * (1 / dd_factor dd d / nth a ant 0))) = gaussian false (kernel_size bw ref expo (freq c) (nth a ant 0) (dd_factor dd d)) (freq c - freq j)).
  { intros j. apply kernel_doc; auto. now apply freq_pos. }
  unfold rsum, csum in *.
  erewrite fold_ext_r in X by (intros j _; rewrite K; reflexivity). erewrite fold_ext_c in X by (intros j _; rewrite K; reflexivity).
  apply X. intros j L [Q|Q]; cbn in Q; lia.
Qed.
Print Assumptions C97_smooth.
Example C97_smooth_example : proper (fun j => 100 + INR j) 2 150 [1; 3 / 2] [1; 1 / 4] 1 1.
Proof.
  unfold proper, dd_factor. repeat split; cbn [nth]; try lra.
  - intros i j L. apply lt_INR in L. lra.
  - cbn. lra.
Qed.

(** C97, smoothness with truncation, for kernels that are made smaller: without a reference frequency, and with factors of antenna and direction that together make the size of the kernel at most half of smoothnessconstraint, the mean is that with the Gaussian that is cut off at its size.  Missing: larger kernels and reference frequencies, for which the window of channel blocks is too small, see C97_smooth_refuted. *)
Theorem C97_smooth_truncated_partial : forall n freq bw expo n_ant n_sub n_pol weights sub_weights ant dd s c a d p,
  proper freq bw 0 ant dd a d -> nth a ant 0 * dd_factor dd d <= / 2 -> (c < n)%nat -> (a < n_ant)%nat -> (d < n_sub)%nat -> (p < n_pol)%nat ->
  is_smoothed n (fun ch => s ch a d p) (fun j => gaussian true (kernel_size bw 0 expo (freq c) (nth a ant 0) (dd_factor dd d)) (freq c - freq j))
    (fun j => nth (a * n + j) (weights_of weights sub_weights d) 0)
    (smoothness_constraint n freq bw 0 expo true n_ant n_sub n_pol weights sub_weights ant dd s c a d p).
Proof.
  intros n freq bw expo n_ant n_sub n_pol weights sub_weights ant dd s c a d p H Half C1 A1 D1 P1.
  destruct (smoothness_at n freq bw 0 expo true n_ant n_sub n_pol weights sub_weights ant dd s c a d p H C1 A1 D1 P1) as (b & G & ->).
  destruct H as (I & F & B & R & A & D).
  assert (X := value_ok n freq bw 0 expo true (fun ch => s ch a d p) (fun j => nth (a * n + j) (weights_of weights sub_weights d) 0) (1 / dd_factor dd d / nth a ant 0) c b G).
  cbn zeta in X. unfold is_smoothed in *. cbn zeta in *.
  assert (K : forall j, kernel bw true ((freq c - freq j) * (Rpower (local_bandwidth freq bw 0 c / bw) expo * (1 / dd_factor dd d / nth a ant 0))) = gaussian true (kernel_size bw 0 expo (freq c) (nth a ant 0) (dd_factor dd d)) (freq c - freq j)).
  { intros j. apply kernel_doc; auto. now apply freq_pos. }
  unfold rsum, csum in *.
  erewrite fold_ext_r in X by (intros j _; rewrite K; reflexivity). erewrite fold_ext_c in X by (intros j _; rewrite K; reflexivity).
  apply X. intros j L Q. rewrite K. assert (Z := window_far n freq bw 0 true I B c b j G eq_refl L Q).
  unfold gaussian, kernel_size. destruct (Req_EM_T 0 0) as [_|]; [|lra].
  destruct (Rlt_dec (bw * 1 * nth a ant 0 * dd_factor dd d) (Rabs (freq c - freq j))) as [_|N]; [reflexivity|]. elim N.
  set (y := nth a ant 0) in *. set (t := dd_factor dd d) in *. replace (bw * 1 * y * t) with (bw * (y * t)) by ring. nra.
Qed.
Print Assumptions C97_smooth_truncated_partial.
Example C97_smooth_truncated_example : proper (fun j => 100 + INR j) 6 0 [1] [1 / 2] 0 0 /\ nth 0 [1] 0 * dd_factor [1 / 2] 0 <= / 2.
Proof.
  unfold proper, dd_factor. repeat split; cbn [nth]; try lra.
  - intros i j L. apply lt_INR in L. lra.
  - cbn. lra.
Qed.

(** C97, smoothing of a constant: if all finite solutions of an antenna, sub-solution and polarization are the same and weights are not negative, smoothing, truncated or not, gives this solution or none; and it does give it where there was a solution with positive weight. *)
Theorem C97_smooth_constant : forall n freq bw ref expo trunc n_ant n_sub n_pol weights sub_weights ant dd s c a d p z,
  proper freq bw ref ant dd a d -> (c < n)%nat -> (a < n_ant)%nat -> (d < n_sub)%nat -> (p < n_pol)%nat ->
  (forall ch, (ch < n)%nat -> s ch a d p = None \/ s ch a d p = Some z) -> (forall ch, (ch < n)%nat -> 0 <= nth (a * n + ch) (weights_of weights sub_weights d) 0) ->
  let s' := smoothness_constraint n freq bw ref expo trunc n_ant n_sub n_pol weights sub_weights ant dd s in
  (s' c a d p = None \/ s' c a d p = Some z) /\
  (s c a d p <> None -> 0 < nth (a * n + c) (weights_of weights sub_weights d) 0 -> s' c a d p = Some z).
Proof.
  intros n freq bw ref expo trunc n_ant n_sub n_pol weights sub_weights ant dd s c a d p z H C1 A1 D1 P1 Hs Hw s'.
  destruct (smoothness_at n freq bw ref expo trunc n_ant n_sub n_pol weights sub_weights ant dd s c a d p H C1 A1 D1 P1) as (b & G & E). unfold s'. rewrite E. clear E s'.
  destruct (window_ok n freq bw ref trunc c b G) as (W1 & W2 & W3). unfold smooth_value. destruct (window n trunc b) as [first last]. cbn [fst snd] in *.
  rewrite fold_left_rsum, fold_left_csum.
  set (f := (1 / dd_factor dd d / nth a ant 0)). set (u := Rpower (local_bandwidth freq bw ref c / bw) expo * f).
  set (w := fun j => kernel bw trunc ((freq c - freq j) * u) * match s j a d p with Some _ => nth (a * n + j) (weights_of weights sub_weights d) 0 | None => 0 end).
  rewrite (fold_ext_c (fun j => rscale (kernel bw trunc ((freq c - freq j) * u) * match s j a d p with Some _ => nth (a * n + j) (weights_of weights sub_weights d) 0 | None => 0 end) match s j a d p with Some z => z | None => rc0 end) (fun j => rscale (w j) z)).
  2: { intros j J. apply in_seq in J. unfold w. destruct (Hs j) as [->| ->]; [lia| |reflexivity]. apply rc_eq; cbn; ring. }
  rewrite fold_scale_const. fold w. set (t := fold_right (fun j acc => kernel bw trunc ((freq c - freq j) * u) * match s j a d p with Some _ => _ | None => 0 end + acc) 0 _).
  change (fold_right (fun j acc => w j + acc) 0 (seq first (last - first))) with t. replace (0 + t) with t by ring.
  assert (V : t <> 0 -> rscale (/ t) (radd rc0 (rscale t z)) = z) by (intros T; apply rc_eq; cbn; field; assumption).
  split.
  - destruct (Req_EM_T t 0) as [T|T]; [now left|]. right. now rewrite V.
  - intros N P. assert (T : 0 < t).
    { unfold t. apply (fold_pos w _ c).
      - intros j J. apply in_seq in J. unfold w. assert (0 <= kernel bw trunc ((freq c - freq j) * u)).
        { unfold kernel. destruct (_ && _)%bool; [lra|]. left. apply exp_pos. }
        destruct (s j a d p); [|lra]. apply Rmult_le_pos; [assumption|]. apply Hw. lia.
      - apply in_seq. lia.
      - unfold w. destruct (s c a d p); [|easy]. apply Rmult_lt_0_compat; [|assumption].
        replace ((freq c - freq c) * u) with 0 by ring. unfold kernel. replace (0 / bw) with 0 by (unfold Rdiv; ring).
        rewrite (proj2 (rltb_false 0 (-1))), (proj2 (rltb_false 1 0)) by lra. rewrite andb_false_r. apply exp_pos. }
    destruct (Req_EM_T t 0) as [Q|Q]; [lra|]. now rewrite V.
Qed.
Print Assumptions C97_smooth_constant.
Example C97_smooth_constant_example : forall ch : nat, (ch < 2)%nat -> (0 <= nth (1 * 2 + ch) (weights_of [1; 1; 0; 2] [] 5) 0 /\ 0 < nth (1 * 2 + 1) (weights_of [1; 1; 0; 2] [] 5) 0).
Proof. intros ch L. cbn [weights_of Nat.mul Nat.add]. destruct ch as [|[|ch]]; cbn; [lra|lra|lia]. Qed.

(** C97, what does not count in smoothing: the solutions of other antennas, sub-solutions and polarizations, and those with weight zero, truncated or not. *)
Theorem C97_smooth_ignores : forall n freq bw ref expo trunc n_ant n_sub n_pol weights sub_weights ant dd s1 s2 c a d p,
  proper freq bw ref ant dd a d -> (c < n)%nat -> (a < n_ant)%nat -> (d < n_sub)%nat -> (p < n_pol)%nat ->
  (forall ch, (ch < n)%nat -> s1 ch a d p = s2 ch a d p \/ nth (a * n + ch) (weights_of weights sub_weights d) 0 = 0) ->
  smoothness_constraint n freq bw ref expo trunc n_ant n_sub n_pol weights sub_weights ant dd s1 c a d p =
  smoothness_constraint n freq bw ref expo trunc n_ant n_sub n_pol weights sub_weights ant dd s2 c a d p.
Proof.
  intros n freq bw ref expo trunc n_ant n_sub n_pol weights sub_weights ant dd s1 s2 c a d p H C1 A1 D1 P1 E.
  unfold smoothness_constraint.
  rewrite (proj2 (Nat.ltb_lt c n) C1), (proj2 (Nat.ltb_lt a n_ant) A1), (proj2 (Nat.ltb_lt d n_sub) D1), (proj2 (Nat.ltb_lt p n_pol) P1). cbn [andb].
  fold (weights_of weights sub_weights d). f_equal. unfold smooth.
  destruct H as (I & F & B & R & A & D).
  assert (X : forall todo i b, (i + todo <= n)%nat -> before n freq bw ref i b \/ (trunc = false /\ snd b <= n /\ fst b <= i)%nat ->
    smooth_from n freq bw ref expo trunc (fun ch => match s1 ch a d p with Some z => z | None => rc0 end) (fun ch => match s1 ch a d p with Some _ => nth (a * n + ch) (weights_of weights sub_weights d) 0 | None => 0 end) (match dd with [] => 1 | _ :: _ => 1 / nth d dd 0 end / nth a ant 0) todo i b =
    smooth_from n freq bw ref expo trunc (fun ch => match s2 ch a d p with Some z => z | None => rc0 end) (fun ch => match s2 ch a d p with Some _ => nth (a * n + ch) (weights_of weights sub_weights d) 0 | None => 0 end) (match dd with [] => 1 | _ :: _ => 1 / nth d dd 0 end / nth a ant 0) todo i b).
  { induction todo as [|todo IH]; intros i b L Q; [reflexivity|]. cbn [smooth_from].
    assert (G : good n freq bw ref trunc i (move n freq bw ref trunc i b)).
    { destruct Q as [Q|(T & Q & V)]; [apply move_good; auto; lia|]. unfold move, good. rewrite T. repeat match goal with |- _ /\ _ => split end; try lia; discriminate. }
    f_equal.
    - destruct (window_ok n freq bw ref trunc i _ G) as (W1 & W2 & W3). unfold smooth_value. destruct (window n trunc (move n freq bw ref trunc i b)) as [first last]. cbn [fst snd] in *.
      rewrite !fold_left_rsum, !fold_left_csum.
      match goal with |- (if Req_EM_T (0 + ?W1) 0 then _ else Some (rscale _ (radd rc0 ?S1))) = (if Req_EM_T (0 + ?W2) 0 then _ else Some (rscale _ (radd rc0 ?S2))) => assert (EW : W1 = W2); [|assert (ES : S1 = S2)] end.
      + apply fold_ext_r. intros j J. apply in_seq in J. destruct (E j) as [-> |Z]; [lia|reflexivity|]. rewrite Z. destruct (s1 j a d p), (s2 j a d p); ring.
      + apply fold_ext_c. intros j J. apply in_seq in J. destruct (E j) as [-> |Z]; [lia|reflexivity|]. rewrite Z. destruct (s1 j a d p), (s2 j a d p); apply rc_eq; cbn; ring.
      + now rewrite EW, ES.
    - apply IH; [lia|]. destruct (Bool.bool_dec trunc true) as [T|T].
      + left. apply good_before with (trunc := trunc); auto.
      + right. destruct G as (G1 & _ & G3 & _). split; [now destruct trunc|]. split; lia. }
  apply X; [lia|]. left. split; [cbn; lia|]. split; [cbn; lia|]. cbn. intros; lia.
Qed.
Print Assumptions C97_smooth_ignores.
Example C97_smooth_ignores_example : forall ch : nat, (ch < 2)%nat -> (if (ch =? 0)%nat then Some rc1 else None) = Some rc1 \/ nth (0 * 2 + ch) (weights_of [1; 0] [] 0) 0 = 0.
Proof. intros ch L. destruct ch as [|[|ch]]; [now left|right; reflexivity|lia]. Qed.

(** Refutes for C97 that the truncated kernel covers the channels within its size.  This is the example of the documentation, a kernel of 2 MHz with channels of 1 MHz, of which the documentation says that 2 channels on both sides are covered, 5 in total.  The window extends to half of the size, plus one channel: below the centre that is 2 channels, but above the centre only 1, so that the solution of the second channel above is not used.  With narrower channels the window leaves out about half of the kernel on both sides. *)
Theorem C97_smooth_refuted : exists n freq bw expo weights ant dd s c a d p,
  proper freq bw 0 ant dd a d /\ (c < n)%nat /\ (forall j, freq (S j) - freq j = 1) /\ bw = 2 /\
  ~ is_smoothed n (fun ch => s ch a d p) (fun j => gaussian true (kernel_size bw 0 expo (freq c) (nth a ant 0) (dd_factor dd d)) (freq c - freq j))
    (fun j => nth (a * n + j) (weights_of weights [] d) 0)
    (smoothness_constraint n freq bw 0 expo true 1 1 1 weights [] ant dd s c a d p).
Proof.
  exists 5%nat, (fun j => 1 + INR j), 2, (-1), [1;1;1;1;1], [1], [], (fun ch _ _ _ => Some (if (ch =? 4)%nat then rc1 else rc0)), 2%nat, 0%nat, 0%nat, 0%nat.
  split; [|split; [lia|split; [|split; [reflexivity|]]]].
  - unfold proper, dd_factor. repeat split; cbn [nth]; try lra.
    + intros i j L. apply lt_INR in L. lra.
    + cbn. lra.
  - intros j. rewrite S_INR. ring.
  - set (freq := fun j => 1 + INR j). set (s := fun ch _ _ _ => _).
    assert (V : smoothness_constraint 5 freq 2 0 (-1) true 1 1 1 [1;1;1;1;1] [] [1] [] s 2%nat 0%nat 0%nat 0%nat = Some rc0 \/ smoothness_constraint 5 freq 2 0 (-1) true 1 1 1 [1;1;1;1;1] [] [1] [] s 2%nat 0%nat 0%nat 0%nat = None).
    { unfold smoothness_constraint. cbn [Nat.ltb Nat.leb andb weights_of nth].
      unfold smooth. cbn [smooth_from nth].
      assert (L : forall i, local_bandwidth freq 2 0 i = 2) by (intros i; unfold local_bandwidth; destruct (Req_EM_T 0 0); [reflexivity|lra]).
      assert (M : forall i b, move 5 freq 2 0 true i b = (advance freq 5 5 (INR i) (fst b), advance freq 5 5 (INR i + 2) (snd b))).
      { intros i b. unfold move. rewrite L. unfold freq. do 2 f_equal; lra. }
      assert (T : forall j x, 1 + INR j < x -> rltb (freq j) x = true) by (intros; now apply rltb_true).
      assert (U : forall j x, x <= 1 + INR j -> rltb (freq j) x = false) by (intros; now apply rltb_false).
      rewrite !M. cbn [fst snd advance Nat.eqb negb andb].
      replace (freq 0%nat + 2 * / 2) with 2 by (unfold freq; cbn; lra).
      repeat (match goal with |- context[rltb (freq ?j) ?x] => first [rewrite (T j x) by (cbn; lra) | rewrite (U j x) by (cbn; lra)] end; cbn [advance Nat.eqb negb andb Nat.add Nat.min]).
      unfold smooth_value. cbn [window fst snd Nat.ltb Nat.leb Nat.sub Nat.add seq fold_left].
      match goal with |- context[Req_EM_T ?W 0] => destruct (Req_EM_T W 0) end; [now right|left].
      f_equal. unfold s. cbn [Nat.eqb]. apply rc_eq; cbn; ring. }
    intros [[W _]|[_ (z & E & Z)]].
    + revert W. apply Rgt_not_eq. unfold rsum. apply (fold_pos _ _ 2%nat).
      * intros j J. unfold s. apply Rmult_le_pos; [unfold gaussian; destruct (if Rlt_dec _ _ then _ else _); [lra|left; apply exp_pos]|].
        cbn [weights_of Nat.mul Nat.add]. apply in_seq in J. destruct j as [|[|[|[|[|j]]]]]; cbn; lra || lia.
      * apply in_seq. lia.
      * unfold s. cbv beta. replace (nth (0 * 5 + 2) (weights_of [1; 1; 1; 1; 1] [] 0) 0) with 1 by reflexivity. rewrite Rmult_1_r. unfold gaussian.
        replace (1 + INR 2 - (1 + INR 2)) with 0 by ring. rewrite Rabs_R0. unfold kernel_size. destruct (Req_EM_T 0 0); [|lra]. cbn [nth dd_factor].
        destruct (Rlt_dec (2 * 1 * 1 * 1) 0); [lra|]. apply exp_pos.
    + destruct V as [V|V]; rewrite V in E; [|discriminate]. inversion E; subst z. clear E V.
      apply (f_equal re) in Z. match type of Z with _ = ?r => assert (Q : r = exp (-9)) end.
      { unfold csum, s. cbn [seq fold_right Nat.eqb]. unfold gaussian, kernel_size. destruct (Req_EM_T 0 0); [|lra]. cbn [nth dd_factor weights_of Nat.mul Nat.add radd rscale re rc0 rc1].
        replace (1 + INR 2 - (1 + INR 4)) with (-2) by (cbn; lra). rewrite (Rabs_left (-2)) by lra.
        destruct (Rlt_dec (2 * 1 * 1 * 1) (- -2)); [lra|]. replace (- (9 * (-2 / (2 * 1 * 1 * 1) * (-2 / (2 * 1 * 1 * 1))))) with (-9) by field. ring. }
      rewrite <- Z in Q. cbn [rscale re rc0] in Q. rewrite Rmult_0_r in Q. pose proof (exp_pos (-9)). lra.
Qed.
Print Assumptions C97_smooth_refuted.
