(** C90: the prediction is the sum over the sources seen through their beams, and is put where the operation says *)
From Coq Require Import String List Bool Arith QArith Qcanon Permutation Sorted Lia.
From Verif Require Import QcUtil Cplx InfoModel InfoProofs AverageModel GainModel DdecalProofs BeamModel BeamProofs PredictModel PredictSpec PredictProofs.
Import ListNotations.
Open Scope nat_scope.

Lemma perm_flat_map {T U} (f : T -> list U) l m : Permutation l m -> Permutation (flat_map f l) (flat_map f m).
Proof. induction 1; cbn; [constructor|now apply Permutation_app_head| |econstructor; eauto]. rewrite !app_assoc. apply Permutation_app_tail, Permutation_app_comm. Qed.
Lemma qabs_le a b : (b <= a)%Qc -> qabs (a - b)%Qc = (a - b)%Qc.
Proof. intros H. unfold qabs. destruct (qltb (a - b)%Qc 0%Qc) eqn:E; [|reflexivity]. apply qltb_true in E. exfalso. qclra. Qed.

Section Sum.
Context {V B S : Type}.
Variables (v0 : V) (vadd : V -> V -> V) (seen : B -> V -> B -> V) (antennas : nat -> nat * nat) (response : Qc -> nat -> nat -> nat -> B) (use_beam : bool) (interval : Qc) (sources : list (S * nat)).
Let all_good (te : Qc) (ranges : list (nat * nat * nat)) (buffers : list (@beams B)) := use_beam = true -> forall r b, In r ranges -> nth_error buffers (snd r) = Some b -> holds response sources te r b.
Let right_value (slot : Qc * (S -> @values V) * list (nat * nat * nat)) (v : @values V) :=
  exists te, near interval (fst (fst slot)) te /\ forall bl ch, v bl ch = total v0 vadd seen antennas response use_beam (snd (fst slot)) te sources bl ch.

Lemma predict_ok n ranges previous buffers time sim order : additive v0 vadd seen -> StronglySorted le (map snd sources) -> tiles sources n ranges -> (0 <= interval)%Qc -> (previous <= time)%Qc -> Permutation order ranges ->
  length buffers = n -> (use_beam = true -> (previous + interval <= time)%Qc \/ all_good (previous + half * interval)%Qc ranges buffers) ->
  exists previous' buffers' v, predict v0 vadd seen antennas response use_beam interval sources (previous, buffers) time sim order = Ok (previous', buffers', v) /\ length buffers' = n /\ (previous' <= time)%Qc /\
    all_good (previous' + half * interval)%Qc ranges buffers' /\ right_value (time, sim, order) v.
Proof.
  intros Ha Hs (Tc & Tf & Td) Hi Hp Ho L G. unfold predict.
  assert (Fo : Forall (fun r => 0 < snd (fst r) /\ fst (fst r) < length sources /\ snd r < n) order). { apply Forall_forall. intros r Hr. rewrite Forall_forall in Tf. apply Tf. eapply Permutation_in; eauto. }
  assert (Do : NoDup (map snd order)). { eapply Permutation_NoDup; [|exact Td]. apply Permutation_map, Permutation_sym, Ho. }
  assert (Pc : Permutation (flat_map (fun r => source_range sources (fst (fst r)) (snd (fst r))) order) sources). { eapply Permutation_trans; [apply perm_flat_map, Ho|]. unfold source_range. rewrite Tc. apply Permutation_refl. }
  assert (H2 : forall x : Qc, (half * x + half * x = x)%Qc). { intros x. rewrite <- Qcmult_plus_distr_l. replace (half + half)%Qc with 1%Qc by (apply Qc_is_canon; vm_compute; reflexivity). ring. }
  pose proof (H2 interval) as Hh.
  unfold beam_time. destruct (use_beam && negb (qltb (qabs (time - previous)%Qc) interval)) eqn:E.
  - destruct (ranges_ok v0 vadd seen antennas response Ha use_beam sources Hs sim (Some (time + half * interval)%Qc) (time + half * interval)%Qc n order Fo Do buffers (fun _ _ => v0) L eq_refl) as (bs & v & -> & Lb & Gb & _ & Hv).
    cbn [bind]. exists time, bs, v. split; [reflexivity|]. split; [exact Lb|]. split; [apply Qcle_refl|]. split.
    + intros U r b Hr Hb. apply (Gb U r b); [eapply Permutation_in; [apply Permutation_sym; exact Ho|exact Hr]|exact Hb].
    + exists (time + half * interval)%Qc. cbn [fst snd]. split; [split; clear - Hh Hi; qclra|]. intros bl ch. rewrite Hv, (add_0l v0 vadd seen Ha). now apply (total_perm v0 vadd seen antennas response Ha).
  - destruct (ranges_ok v0 vadd seen antennas response Ha use_beam sources Hs sim None (previous + half * interval)%Qc n order Fo Do buffers (fun _ _ => v0) L) as (bs & v & -> & Lb & Gb & _ & Hv).
    { intros U r b Hr Hb. destruct (G U) as [G1|G1].
      - exfalso. rewrite U in E. cbn in E. apply negb_false_iff, qltb_true in E. rewrite qabs_le in E by exact Hp. clear - G1 E. qclra.
      - apply (G1 U); [eapply Permutation_in; eauto|exact Hb]. }
    cbn [bind]. exists previous, bs, v. split; [reflexivity|]. split; [exact Lb|]. split; [exact Hp|]. split.
    + intros U r b Hr Hb. apply (Gb U r b); [eapply Permutation_in; [apply Permutation_sym; exact Ho|exact Hr]|exact Hb].
    + destruct (use_beam) eqn:U.
      * exists (previous + half * interval)%Qc. cbn [fst snd]. cbn in E. apply negb_false_iff, qltb_true in E. rewrite qabs_le in E by exact Hp.
        split; [split; clear - Hh Hi E Hp; qclra|]. intros bl ch. rewrite Hv, (add_0l v0 vadd seen Ha). now apply (total_perm v0 vadd seen antennas response Ha).
      * exists time. cbn [fst snd]. split; [split; clear - Hi; qclra|]. intros bl ch. rewrite Hv, (add_0l v0 vadd seen Ha). etransitivity; [apply (total_perm v0 vadd seen antennas response Ha); exact Pc|reflexivity].
Qed.

Lemma predict_all_cons st time sim r slots p b v l : predict v0 vadd seen antennas response use_beam interval sources st time sim r = Ok (p, b, v) ->
  predict_all v0 vadd seen antennas response use_beam interval sources (p, b) slots = Ok l -> predict_all v0 vadd seen antennas response use_beam interval sources st ((time, sim, r) :: slots) = Ok (v :: l).
Proof. intros E1 E2. cbn [predict_all]. rewrite E1. cbn [bind]. rewrite E2. reflexivity. Qed.
(** Every time slot gets the sum over all sources, each with the beam of its patch at a time at most half the interval away, whatever the ranges of the threads and the order in which these finish.
    (The times are those of a measurement set: they do not decrease, and the first is far after zero.) *)
Theorem C90_sum n ranges slots : additive v0 vadd seen -> StronglySorted le (map snd sources) -> tiles sources n ranges -> (0 <= interval)%Qc -> ascending interval (map (fun x => fst (fst x)) slots) ->
  Forall (fun slot => Permutation (snd slot) ranges) slots ->
  exists l, predict_all v0 vadd seen antennas response use_beam interval sources (0%Qc, @repeat (@beams B) [] n) slots = Ok l /\
    Forall2 (fun slot v => exists te, near interval (fst (fst slot)) te /\ forall bl ch, v bl ch = total v0 vadd seen antennas response use_beam (snd (fst slot)) te sources bl ch) slots l.
Proof.
  intros Ha Hs Ht Hi.
  assert (Rest : forall slots previous buffers, length buffers = n -> ascending previous (map (fun x => fst (fst x)) slots) -> all_good (previous + half * interval)%Qc ranges buffers ->
    Forall (fun slot => Permutation (snd slot) ranges) slots -> exists l, predict_all v0 vadd seen antennas response use_beam interval sources (previous, buffers) slots = Ok l /\ Forall2 right_value slots l).
  { clear slots. induction slots as [|[[time sim] order] slots IH]; intros previous buffers L As G F; [exists []; split; [reflexivity|constructor]|].
    apply Forall_cons_iff in F as [F1 F]. cbn in F1. destruct As as [A1 As]. cbn [fst] in A1, As.
    destruct (predict_ok n ranges previous buffers time sim order Ha Hs Ht Hi A1 F1 L) as (p' & b' & v & E & L' & P' & G' & R); [intros _; now right|].
    cbn [predict_all]. rewrite E. cbn [bind]. destruct (IH p' b' L') as (l & El & Fl); [|exact G'|exact F|].
    { destruct slots as [|s slots]; [exact I|]. destruct As as [A2 As]. split; [eapply Qcle_trans; eauto|exact As]. }
    rewrite El. cbn [bind]. exists (v :: l). split; [reflexivity|]. constructor; assumption. }
  destruct slots as [|[[time sim] order] slots]; intros As F; [exists []; split; [reflexivity|constructor]|].
  apply Forall_cons_iff in F as [F1 F]. cbn in F1. destruct As as [A1 As]. cbn [fst] in A1, As.
  destruct (predict_ok n ranges 0%Qc (@repeat (@beams B) [] n) time sim order Ha Hs Ht Hi) as (p' & b' & v & E & L' & P' & G' & R); [eapply Qcle_trans; eauto|exact F1|apply repeat_length|intros _; left; clear - A1; qclra|].
  destruct (Rest slots p' b' L') as (l & El & Fl); [|exact G'|exact F|].
  { destruct slots as [|s slots]; [exact I|]. destruct As as [A2 As]. split; [eapply Qcle_trans; eauto|exact As]. }
  exists (v :: l). split; [eapply predict_all_cons; [exact E|exact El]|]. constructor; assumption.
Qed.
End Sum.
Print Assumptions C90_sum.

(** ** What is added *)

(** steps/ApplyBeam.cc:499-532 (ApplyArrayFactorAndAdd) and 171-206 (ApplyBeamToDataAndAdd): what is added for a visibility *)
Definition seen_scalar (l v r : cplx) : cplx := cmul (cmul l v) (conj r).
Definition seen_matrix (l v r : mat) : mat := mmul (mmul l v) (mherm r).
(** Both kinds of beam are additive *)
Theorem C90_additive : additive c0 cadd seen_scalar /\ additive mzero madd seen_matrix.
Proof.
  split; (split; [|split; [|split; [|split]]]); unfold seen_scalar, seen_matrix.
  - intros a b. ring. - intros a b c. ring. - intros a. ring. - intros l r a b. ring. - intros l r. ring.
  - intros [] []. mring. - intros [] [] []. mring. - intros []. mring. - intros [] [] [] []. mring. - intros [] []. mring.
Qed.
(** With unpolarized sources and the array factor only, one number per visibility gives the same as four *)
Theorem C90_unpolarized {S} antennas response use_beam (sim : S -> nat -> nat -> cplx) te sources bl ch :
  total mzero madd seen_matrix antennas (fun t p a c => mdiag (response t p a c) (response t p a c)) use_beam (fun s b c => Mat (sim s b c) c0 c0 (sim s b c)) te sources bl ch =
  unpolarized (total c0 cadd seen_scalar antennas response use_beam sim te sources bl ch).
Proof.
  unfold total. induction sources as [|x l IH]; [reflexivity|]. cbn [map fold_right]. rewrite IH. unfold contribution, seen_matrix, seen_scalar, unpolarized. destruct use_beam; mring.
Qed.
Print Assumptions C90_additive. Print Assumptions C90_unpolarized.

(** ** Where it goes *)

Lemma nth_combine {T U} (l : list T) (m : list U) k : nth_error (combine l m) k = match nth_error l k, nth_error m k with Some x, Some y => Some (x, y) | _, _ => None end.
Proof. revert m k. induction l as [|x l IH]; intros [|y m] [|k]; cbn; try reflexivity; [now destruct (nth_error l k)|apply IH]. Qed.
Lemma nth_number {T} (l : list T) k : nth_error (combine (seq 0 (length l)) l) k = match nth_error l k with Some x => Some (k, x) | None => None end.
Proof.
  rewrite nth_combine. destruct (nth_error l k) eqn:E; [|now destruct (nth_error (seq 0 (length l)) k)].
  assert (k < length l) by (apply nth_error_Some; congruence). rewrite (nth_error_nth' _ 0) by (rewrite seq_length; lia). now rewrite seq_nth by lia.
Qed.
Lemma at_op f a b i k : at_ (cube_op f a b) i k = match at_ a i k, at_ b i k with Some x, Some y => Some (f x y) | _, _ => None end.
Proof.
  unfold at_, cube_op. rewrite nth_error_map, nth_combine. destruct (nth_error a i) as [r|]; [|reflexivity]. destruct (nth_error b i) as [q|]; cbn [option_map fst snd]; [|now destruct (nth_error r k)].
  rewrite nth_error_map, nth_combine. destruct (nth_error r k), (nth_error q k); reflexivity.
Qed.
Lemma shaped_op nb nc f a b : shaped nb nc a -> shaped nb nc b -> shaped nb nc (cube_op f a b).
Proof.
  intros [La Fa] [Lb Fb]. split; [unfold cube_op; rewrite map_length, combine_length; lia|]. apply Forall_map, Forall_forall. intros [r q] H.
  pose proof (in_combine_l _ _ _ _ H) as H1. pose proof (in_combine_r _ _ _ _ H) as H2. rewrite Forall_forall in Fa, Fb. rewrite map_length, combine_length. cbn [fst snd]. rewrite (Fa _ H1), (Fb _ H2). lia.
Qed.
Lemma at_correct f b i k : at_ (b_main (correct_main f b)) i k = option_map (f i k) (at_ (b_main b) i k).
Proof.
  unfold at_, correct_main. cbn [b_main]. rewrite nth_error_map, nth_number. destruct (nth_error (b_main b) i) as [r|]; cbn [option_map fst snd]; [|reflexivity].
  rewrite nth_error_map, nth_number. destruct (nth_error r k); reflexivity.
Qed.
Lemma shaped_correct nb nc f b : shaped nb nc (b_main b) -> shaped nb nc (b_main (correct_main f b)).
Proof.
  intros [L F]. unfold correct_main. cbn [b_main]. split; [rewrite map_length, combine_length, seq_length; lia|]. apply Forall_map, Forall_forall. intros [n r] H.
  pose proof (in_combine_r _ _ _ _ H) as H2. rewrite Forall_forall in F. rewrite map_length, combine_length, seq_length. cbn [fst snd]. rewrite (F _ H2). lia.
Qed.
Lemma madd_comm a b : madd a b = madd b a. Proof. destruct a, b. mring. Qed.

(** Without a name: the main visibilities become those of the operation, with the corrections applied to the prediction only; named visibilities stay as they are *)
Theorem C90_operation nb nc op cal predicted b : shaped nb nc predicted -> shaped nb nc (b_main b) ->
  let b' := one_predict op "" cal predicted b in
  shaped nb nc (b_main b') /\ b_named b' = b_named b /\
  forall i k x p, at_ (b_main b) i k = Some x -> at_ predicted i k = Some p -> at_ (b_main b') i k = Some (expected op x (match cal with Some f => f i k p | None => p end)).
Proof.
  intros Sp Sb. cbv zeta. set (q := match cal with Some f => b_main (correct_main f (Buf predicted [])) | None => predicted end).
  assert (E : one_predict op "" cal predicted b = Buf (match op with ReplaceBy => q | Add => cube_op madd q (b_main b) | Subtract => cube_op msub (b_main b) q end) (b_named b)).
  { unfold one_predict, q. destruct op, cal; reflexivity. }
  assert (Sq : shaped nb nc q). { unfold q. destruct cal; [apply shaped_correct; exact Sp|exact Sp]. }
  rewrite E. cbn [b_main b_named]. split; [destruct op; [exact Sq|now apply shaped_op|now apply shaped_op]|]. split; [reflexivity|].
  intros i k x p Hx Hp. assert (Hq : at_ q i k = Some (match cal with Some f => f i k p | None => p end)). { unfold q. destruct cal; [rewrite at_correct; cbn [b_main]; now rewrite Hp|exact Hp]. }
  destruct op; rewrite ?at_op, Hq, ?Hx; cbn [expected]; [reflexivity|now rewrite madd_comm|reflexivity].
Qed.
Lemma take_put name c b : name <> ""%string -> take name (put name c b) = c.
Proof. intros N. unfold take, put. destruct (String.eqb_spec name ""); [contradiction|]. cbn. now rewrite String.eqb_refl. Qed.
Lemma take_put_other name other c b : other <> name -> take other (put name c b) = take other b.
Proof.
  intros N. unfold take, put. destruct (String.eqb_spec other ""); [reflexivity|]. cbn. destruct (String.eqb_spec name other); [congruence|].
  induction (b_named b) as [|[nm d] l IH]; cbn; [reflexivity|]. destruct (String.eqb_spec nm name); cbn; [destruct (String.eqb_spec nm other); [congruence|exact IH]|]. destruct (String.eqb nm other); [reflexivity|exact IH].
Qed.
Lemma take_main name m b : name <> ""%string -> take name (Buf m (b_named b)) = take name b.
Proof. intros N. unfold take. destruct (String.eqb_spec name ""); [contradiction|reflexivity]. Qed.
(** With a name, and no corrections: the main visibilities and those with other names stay as they are *)
Theorem C90_named nb nc op name predicted b : name <> ""%string -> shaped nb nc predicted -> shaped nb nc (b_main b) ->
  let b' := one_predict op name None predicted b in
  b_main b' = b_main b /\ shaped nb nc (take name b') /\ (forall other, other <> ""%string -> other <> name -> take other b' = take other b) /\
  forall i k x p, at_ (b_main b) i k = Some x -> at_ predicted i k = Some p -> at_ (take name b') i k = Some (expected op x p).
Proof.
  intros N Sp Sb. cbv zeta.
  assert (E : one_predict op name None predicted b = Buf (b_main b) (b_named (put name (match op with ReplaceBy => predicted | Add => cube_op madd predicted (b_main b) | Subtract => cube_op msub (b_main b) predicted end) (put name predicted (Buf [] (b_named b)))))).
  { unfold one_predict. destruct (String.eqb_spec name ""); [contradiction|]. cbn [negb]. destruct op; rewrite take_put by exact N; reflexivity. }
  rewrite E. split; [reflexivity|]. rewrite take_main, take_put by exact N. split; [destruct op; [exact Sp|now apply shaped_op|now apply shaped_op]|]. split.
  - intros other N1 N2. rewrite take_main by exact N1. rewrite !take_put_other by exact N2. now apply take_main.
  - intros i k x p Hx Hp. destruct op; rewrite ?at_op, Hp, ?Hx; cbn [expected]; [reflexivity|now rewrite madd_comm|reflexivity].
Qed.
(** The corrections of the parameter applycal are not applied to a prediction with a name: the step applycal corrects the main visibilities, which are taken out of the buffer before *)
Theorem C90_named_applycal_refuted : exists op name f predicted b i k p, name <> ""%string /\ shaped 1 1 predicted /\ shaped 1 1 (b_main b) /\ at_ predicted i k = Some p /\ f i k p <> p /\
  at_ (take name (one_predict op name (Some f) predicted b)) i k = Some p.
Proof.
  exists ReplaceBy, "model"%string, (fun _ _ m => madd m m), [[unity]], (Buf [[mzero]] []), 0, 0, unity. split; [discriminate|]. split; [repeat constructor|]. split; [repeat constructor|]. split; [reflexivity|].
  split; [intros H; apply (f_equal (fun m => re (m0 m))) in H; vm_compute in H; discriminate|reflexivity].
Qed.
(** In general: with a name, the corrections do not matter at all *)
Theorem C90_named_applycal_ignored op name f predicted b : name <> ""%string -> one_predict op name (Some f) predicted b = one_predict op name None predicted b.
Proof. intros N. unfold one_predict. destruct (String.eqb_spec name ""); [contradiction|]. cbn [negb]. destruct op; reflexivity. Qed.
Print Assumptions C90_operation. Print Assumptions C90_named. Print Assumptions C90_named_applycal_refuted. Print Assumptions C90_named_applycal_ignored.

(** ** Several directions *)

Lemma h5_aux nb nc op l : forall n b, (op = ReplaceBy -> 0 < n) -> shaped nb nc (b_main b) -> Forall (fun x => shaped nb nc (snd x)) l -> let b' := h5_predict op n "" l b in
  shaped nb nc (b_main b') /\ b_named b' = b_named b /\ forall i k x, at_ (b_main b) i k = Some x -> at_ (b_main b') i k = Some (match op with Subtract => msub x (directions_sum l i k) | _ => madd x (directions_sum l i k) end).
Proof.
  induction l as [|[f p] l IH]; intros n b Hn Sb F; cbv zeta.
  - split; [exact Sb|]. split; [reflexivity|]. intros i k x Hx. cbn [h5_predict]. rewrite Hx. unfold directions_sum. cbn. f_equal. destruct op, x; mring.
  - apply Forall_cons_iff in F as [Sp F]. cbn [snd] in Sp. cbn [h5_predict]. destruct (C90_operation nb nc (direction_operation op n) (Some f) p b Sp Sb) as (S1 & N1 & A1).
    assert (D : direction_operation op n = match op with Subtract => Subtract | _ => Add end). { unfold direction_operation. destruct op; [|reflexivity|reflexivity]. destruct (Nat.ltb_spec 0 n); [reflexivity|]. specialize (Hn eq_refl). lia. }
    rewrite D in *. destruct (IH (Datatypes.S n) _ ltac:(lia) S1 F) as (S2 & N2 & A2). split; [exact S2|]. split; [congruence|].
    intros i k x Hx. assert (exists q, at_ p i k = Some q) as [q Hq].
    { unfold at_ in *. destruct Sb as [Lb Fb], Sp as [Lp Fp]. destruct (nth_error (b_main b) i) as [r|] eqn:E; [|discriminate].
      assert (Hi : i < length p) by (rewrite Lp, <- Lb; apply nth_error_Some; congruence). destruct (nth_error p i) as [r'|] eqn:E'; [|apply nth_error_None in E'; lia].
      assert (Hk : k < length r') by (rewrite (proj1 (Forall_forall _ _) Fp _ (nth_error_In _ _ E')), <- (proj1 (Forall_forall _ _) Fb _ (nth_error_In _ _ E)); apply nth_error_Some; congruence).
      destruct (nth_error r' k) eqn:E2; [eauto|apply nth_error_None in E2; lia]. }
    rewrite (A2 i k _ (A1 i k x q Hx Hq)). unfold directions_sum. cbn [map fold_right fst snd]. rewrite Hq. f_equal.
    generalize (fold_right madd mzero (map (fun x0 => match at_ (snd x0) i k with Some p0 => fst x0 i k p0 | None => mzero end) l)). intros s. generalize (f i k q). intros y. destruct op; cbn [expected]; destruct x, s, y; mring.
Qed.
(** The sum over the directions, each with its own corrections, takes the place of the input, or is added to it or subtracted from it *)
Theorem C90_directions nb nc op l b : l <> [] -> shaped nb nc (b_main b) -> Forall (fun x => shaped nb nc (snd x)) l -> let b' := h5_predict op 0 "" l b in
  shaped nb nc (b_main b') /\ b_named b' = b_named b /\ forall i k x, at_ (b_main b) i k = Some x -> at_ (b_main b') i k = Some (expected op x (directions_sum l i k)).
Proof.
  intros Nl Sb F. cbv zeta. destruct op; [|apply (h5_aux nb nc Add l 0 b); [discriminate|exact Sb|exact F]|apply (h5_aux nb nc Subtract l 0 b); [discriminate|exact Sb|exact F]].
  destruct l as [|[f p] l]; [contradiction|]. apply Forall_cons_iff in F as [Sp F]. cbn [snd] in Sp. cbn [h5_predict direction_operation Nat.ltb Nat.leb].
  destruct (C90_operation nb nc ReplaceBy (Some f) p b Sp Sb) as (S1 & N1 & A1). destruct (h5_aux nb nc ReplaceBy l 1 _ ltac:(lia) S1 F) as (S2 & N2 & A2).
  split; [exact S2|]. split; [congruence|]. intros i k x Hx. assert (exists q, at_ p i k = Some q) as [q Hq].
  { unfold at_ in *. destruct Sb as [Lb Fb], Sp as [Lp Fp]. destruct (nth_error (b_main b) i) as [r|] eqn:E; [|discriminate].
    assert (Hi : i < length p) by (rewrite Lp, <- Lb; apply nth_error_Some; congruence). destruct (nth_error p i) as [r'|] eqn:E'; [|apply nth_error_None in E'; lia].
    assert (Hk : k < length r') by (rewrite (proj1 (Forall_forall _ _) Fp _ (nth_error_In _ _ E')), <- (proj1 (Forall_forall _ _) Fb _ (nth_error_In _ _ E)); apply nth_error_Some; congruence).
    destruct (nth_error r' k) eqn:E2; [eauto|apply nth_error_None in E2; lia]. }
  rewrite (A2 i k _ (A1 i k x q Hx Hq)). unfold directions_sum. cbn [map fold_right fst snd expected]. now rewrite Hq.
Qed.
(** With a name, only the last direction is there, with the input added, and no corrections *)
Theorem C90_named_directions_refuted : exists name l b, name <> ""%string /\ shaped 1 1 (b_main b) /\ Forall (fun x => shaped 1 1 (snd x)) l /\
  at_ (take name (h5_predict ReplaceBy 0 name l b)) 0 0 <> Some (directions_sum l 0 0).
Proof.
  exists "model"%string, [(fun _ _ m => m, [[unity]]); (fun _ _ m => m, [[unity]])], (Buf [[mzero]] []). split; [discriminate|]. split; [repeat constructor|]. split; [repeat constructor|].
  intros H. apply (f_equal (fun o => match o with Some m => re (m0 m) | None => 0%Qc end)) in H. vm_compute in H. discriminate.
Qed.
(** The directions are those asked for, or all those of the file; there is an exception if there are none in the file or one of those asked for is not in it *)
Theorem C90_which in_file asked : (h5_directions in_file asked = Throw <-> in_file = [] \/ exists d, In d asked /\ ~ In d in_file) /\
  forall l, h5_directions in_file asked = Ok l -> (asked <> [] -> l = asked) /\ (asked = [] -> l = in_file).
Proof.
  unfold h5_directions. destruct in_file as [|f in_file]; [split; [tauto|discriminate]|]. set (file := f :: in_file). destruct asked as [|a asked].
  - split; [split; [discriminate|intros [H|(d & [] & _)]; discriminate]|]. intros l [= <-]. split; congruence.
  - set (l0 := a :: asked). destruct (forallb (fun d => existsb (String.eqb d) file) l0) eqn:E.
    + split; [|intros l [= <-]; split; [reflexivity|discriminate]]. split; [discriminate|]. intros [H|(d & Hd & Nd)]; [discriminate|]. exfalso. apply Nd. rewrite forallb_forall in E.
      apply E, existsb_exists in Hd as (x & Hx & Ex). apply String.eqb_eq in Ex. now subst x.
    + split; [|discriminate]. split; [|reflexivity]. intros _. right. clearbody l0 file. clear a asked. induction l0 as [|d l0 IH]; cbn in E; [discriminate|]. apply andb_false_iff in E as [E|E].
      * exists d. split; [now left|]. intros H. assert (existsb (String.eqb d) file = true) by (apply existsb_exists; exists d; split; [exact H|apply String.eqb_refl]). congruence.
      * destruct (IH E) as (x & Hx & Nx). exists x. split; [now right|exact Nx].
Qed.
(** Only three words name an operation *)
Theorem C90_parse s op : parse_operation s = Ok op <-> (s = "replace"%string /\ op = ReplaceBy) \/ (s = "add"%string /\ op = Add) \/ (s = "subtract"%string /\ op = Subtract).
Proof.
  unfold parse_operation. split.
  - destruct (String.eqb_spec s "replace"); [intros [= <-]; auto|]. destruct (String.eqb_spec s "add"); [intros [= <-]; auto|]. destruct (String.eqb_spec s "subtract"); [intros [= <-]; auto|discriminate].
  - intros [[-> ->]|[[-> ->]|[-> ->]]]; reflexivity.
Qed.
(** The weights are updated with the operations add and subtract too, though this is to be refused: the check looks for "applycal.applycal.updateweights" *)
Theorem C90_updateweights_refuted : exists p prefix op, op <> ReplaceBy /\ updates_weights p prefix = true /\ refuses_weights p prefix op = false.
Proof. exists (fun k => if String.eqb k "predict.applycal.updateweights" then Some true else None), "predict."%string, Add. split; [discriminate|]. split; reflexivity. Qed.
Print Assumptions C90_directions. Print Assumptions C90_named_directions_refuted. Print Assumptions C90_which. Print Assumptions C90_parse. Print Assumptions C90_updateweights_refuted.

(** ** A case: three sources in two patches, two threads, two time slots *)

Definition ex_sources : list (nat * nat) := [(1, 0); (2, 1); (3, 1)].
Definition ex_response (t : Qc) (p a c : nat) : cplx := C (qn (p + a + 1)) t.
Definition ex_sim (s b c : nat) : cplx := C (qn s) (qn c).
Example C90_sum_case : tiles ex_sources 2 [(0, 2, 0); (2, 1, 1)] /\ StronglySorted le (map snd ex_sources) /\ ascending (qn 4) [qn 10; qn 12; qn 14] /\
  match predict_all c0 cadd seen_scalar (fun _ => (0, 1)) ex_response true (qn 4) ex_sources (0%Qc, repeat [] 2)
          [(qn 10, ex_sim, [(0, 2, 0); (2, 1, 1)]); (qn 12, ex_sim, [(2, 1, 1); (0, 2, 0)]); (qn 14, ex_sim, [(0, 2, 0); (2, 1, 1)])] with
  | Ok [a; b; c] => a 0 1 = total c0 cadd seen_scalar (fun _ => (0, 1)) ex_response true ex_sim (qn 12) ex_sources 0 1 /\ b 0 1 = a 0 1 /\
      c 0 1 = total c0 cadd seen_scalar (fun _ => (0, 1)) ex_response true ex_sim (qn 16) ex_sources 0 1
  | _ => False
  end.
Proof.
  split; [split; [reflexivity|split; [repeat constructor|repeat constructor; cbn; lia]]|]. split; [repeat constructor|]. split; [repeat split; apply qleb_true; vm_compute; reflexivity|].
  vm_compute. repeat split; reflexivity.
Qed.
Example C90_operation_case : one_predict Subtract "" (Some (fun _ _ m => madd m m)) [[unity]] (Buf [[madd unity (madd unity unity)]] [("m"%string, [[mzero]])]) = Buf [[unity]] [("m"%string, [[mzero]])].
Proof. vm_compute. reflexivity. Qed.
Example C90_named_case : one_predict Add "m" None [[unity]] (Buf [[unity]] [("n"%string, [[mzero]])]) = Buf [[unity]] [("m"%string, [[madd unity unity]]); ("n"%string, [[mzero]])].
Proof. vm_compute. reflexivity. Qed.
Example C90_directions_case : h5_predict ReplaceBy 0 "" [(fun _ _ m => madd m m, [[unity]]); (fun _ _ m => m, [[unity]])] (Buf [[mzero]] []) = Buf [[madd (madd unity unity) unity]] [].
Proof. vm_compute. reflexivity. Qed.
Example C90_which_case : h5_directions ["[a]"; "[b]"]%string ["[b]"]%string = Ok ["[b]"]%string /\ h5_directions ["[a]"]%string ["[c]"]%string = Throw.
Proof. split; reflexivity. Qed.
Example C90_unpolarized_case : total c0 cadd seen_scalar (fun _ => (0, 1)) ex_response true ex_sim (qn 1) ex_sources 0 1 <> c0.
Proof. intros H. apply (f_equal re) in H. vm_compute in H. discriminate. Qed.
