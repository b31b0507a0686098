(** Properties of the sums that DDECal makes of the slots of its intervals. *)
From Coq Require Import List Bool Arith QArith Qcanon Lia ZifyBool ZifyNat.
From Verif Require Import QcUtil AverageModel GainModel SumsModel SumsSpec.
Import ListNotations.
Open Scope nat_scope.

Section Blocks.
Variables (n_chan nb : nat).
Hypotheses (Hb : 0 < nb) (Hc : nb <= n_chan).
Notation start k := (k * n_chan / nb).

Lemma starts_get k : k <= nb -> get (block_starts n_chan nb) k = Ok (start k).
Proof.
  intros H. unfold get, block_starts. destruct k as [|k]; [cbn [nth_error Nat.mul]; now rewrite Nat.div_0_l by lia|]. cbn [nth_error].
  rewrite (map_nth_error _ k (seq 0 nb) (d := k)); [do 2 f_equal; lia|]. rewrite (nth_error_nth' _ 0) by (rewrite seq_length; lia). now rewrite seq_nth by lia.
Qed.
Lemma start_S k : start k < start (k + 1).
Proof.
  assert (H : start k + 1 = (k * n_chan + 1 * nb) / nb) by (rewrite Nat.div_add; lia).
  assert (start k + 1 <= start (k + 1)); [|lia]. rewrite H. apply Nat.div_le_mono; [lia|]. nia.
Qed.
Lemma start_le a b : a <= b -> start a <= start b.
Proof. intros H. apply Nat.div_le_mono; [lia|]. nia. Qed.
Lemma start_last : start nb = n_chan.
Proof. rewrite Nat.mul_comm. apply Nat.div_mul. lia. Qed.
Lemma in_block_unique ch a b : in_block n_chan nb ch a = true -> in_block n_chan nb ch b = true -> a = b.
Proof.
  unfold in_block. intros H1 H2. destruct (Nat.lt_trichotomy a b) as [L|[L|L]]; [|exact L|].
  - pose proof (start_le (a + 1) b ltac:(lia)). lia.
  - pose proof (start_le (b + 1) a ltac:(lia)). lia.
Qed.

(** What samples do to the sums *)
Definition effect (a1 a2 : nat) (smp : nat -> list (Qc * bool)) (acc acc' : sums) : Prop := forall cb, cb < nb ->
  (forall a, weights acc' (a * nb + cb) =
     weights acc (a * nb + cb) + qn ((if a =? a1 then 1 else 0) + (if a =? a2 then 1 else 0)) * qsum (map used_weight (smp cb)))%Qc /\
  good acc' cb = good acc cb + length (filter is_good (smp cb)) /\ total acc' cb = total acc cb + length (smp cb).
Lemma effect_none a1 a2 acc : effect a1 a2 (fun _ => []) acc acc.
Proof. intros cb _. cbn [map filter length]. repeat split; try lia. intros a. rewrite qsum_nil. ring. Qed.
Lemma effect_trans a1 a2 s1 s2 x y z : effect a1 a2 s1 x y -> effect a1 a2 s2 y z -> effect a1 a2 (fun cb => s1 cb ++ s2 cb) x z.
Proof.
  intros H1 H2 cb Hcb. destruct (H1 cb Hcb) as (A1 & A2 & A3), (H2 cb Hcb) as (B1 & B2 & B3). repeat split.
  - intros a. rewrite B1, A1, map_app, qsum_app. ring.
  - rewrite B2, A2, filter_app, app_length. lia.
  - rewrite B3, A3, app_length. lia.
Qed.
Lemma effect_ext a1 a2 s1 s2 x y : (forall cb, cb < nb -> s1 cb = s2 cb) -> effect a1 a2 s1 x y -> effect a1 a2 s2 x y.
Proof. intros E H cb Hcb. rewrite <- E by assumption. now apply H. Qed.
Lemma index_eq a b c d : c < nb -> d < nb -> (a * nb + c =? b * nb + d) = (a =? b) && (c =? d).
Proof.
  intros H1 H2. destruct (Nat.eqb_spec a b) as [->|N]; cbn [andb].
  - destruct (Nat.eqb_spec c d); [apply Nat.eqb_eq|apply Nat.eqb_neq]; lia.
  - apply Nat.eqb_neq. intros E. apply N. nia.
Qed.
Lemma sample_effect a1 a2 cb0 x acc : cb0 < nb -> effect a1 a2 (fun cb => if cb =? cb0 then [x] else []) acc (sample nb a1 a2 cb0 acc x).
Proof.
  intros H0 cb Hcb. unfold sample. cbn [weights good total]. fold (used_weight x). split; [|split].
  - intros a. rewrite !index_eq by assumption. destruct (cb =? cb0).
    + cbn [map]. rewrite qsum_cons, qsum_nil. destruct (a =? a1), (a =? a2); cbn [andb Nat.add]; rewrite ?qn_S, ?qn_0; ring.
    + rewrite !andb_false_r. cbn [map]. rewrite qsum_nil. ring.
  - destruct (cb =? cb0); [|cbn; lia]. cbn [filter]. unfold is_good. destruct (qltb 0 (used_weight x)); reflexivity.
  - destruct (cb =? cb0); cbn [length]; lia.
Qed.
Lemma samples_effect a1 a2 cb0 l : forall acc, cb0 < nb -> effect a1 a2 (fun cb => if cb =? cb0 then l else []) acc (fold_left (sample nb a1 a2 cb0) l acc).
Proof.
  induction l as [|x l IH]; intros acc H0; cbn [fold_left].
  - apply (effect_ext _ _ (fun _ => [])); [|apply effect_none]. intros cb _. cbv beta. now destruct (cb =? cb0).
  - eapply effect_ext; [|exact (effect_trans _ _ _ _ _ _ _ (sample_effect a1 a2 cb0 x acc H0) (IH _ H0))]. intros cb _. cbv beta. now destruct (cb =? cb0).
Qed.
Definition smp_from (ch : nat) (chans : list (list (Qc * bool))) (cb : nat) : list (Qc * bool) :=
  concat (map snd (filter (fun p => in_block n_chan nb (fst p) cb) (combine (seq ch (length chans)) chans))).
Lemma walk_effect a1 a2 chans : forall cb ch acc, ch + length chans <= n_chan -> cb < nb -> start cb <= ch -> ch <= start (cb + 1) ->
  exists acc', walk (block_starts n_chan nb) nb a1 a2 cb ch chans acc = Ok acc' /\ effect a1 a2 (smp_from ch chans) acc acc'.
Proof.
  induction chans as [|c chans IH]; intros cb ch acc Hl Hcb H1 H2.
  - exists acc. split; [reflexivity|]. apply effect_none.
  - cbn [length] in Hl. cbn [walk]. rewrite starts_get by lia. cbn [bind].
    set (cb' := if ch =? start (cb + 1) then cb + 1 else cb).
    assert (B : in_block n_chan nb ch cb' = true /\ cb' < nb).
    { unfold cb', in_block. destruct (Nat.eqb_spec ch (start (cb + 1))) as [E|E].
      - assert (cb + 1 < nb). { destruct (Nat.eq_dec (cb + 1) nb) as [F|F]; [|lia]. rewrite F, start_last in E. lia. }
        split; [|assumption]. pose proof (start_S (cb + 1)). lia.
      - split; [lia|assumption]. }
    destruct B as [B B'].
    assert (I : in_block n_chan nb ch cb' = true) by exact B. unfold in_block in I. apply andb_true_iff in I as [I1 I2]. apply Nat.leb_le in I1. apply Nat.ltb_lt in I2.
    destruct (IH cb' (S ch) (fold_left (sample nb a1 a2 cb') c acc)) as (acc' & E & Ef); [lia|assumption|lia|lia|].
    exists acc'. split; [exact E|]. eapply effect_ext; [|exact (effect_trans _ _ _ _ _ _ _ (samples_effect a1 a2 cb' c acc B') Ef)].
    intros k Hk. unfold smp_from. cbn [length seq combine filter fst]. destruct (Nat.eqb_spec k cb') as [->|N].
    + rewrite B. reflexivity.
    + destruct (in_block n_chan nb ch k) eqn:Ek; [|reflexivity]. exfalso. apply N. now apply (in_block_unique ch).
Qed.

Notation slot := (list (nat * nat * list (list (Qc * bool)))).
Lemma baselines_effect (l : slot) : forall acc, Forall (fun b => length (snd b) = n_chan) l ->
  exists acc', baselines (block_starts n_chan nb) nb l acc = Ok acc' /\ forall cb, cb < nb ->
    (forall a, weights acc' (a * nb + cb) = weights acc (a * nb + cb) + antenna_weight n_chan nb a cb l)%Qc /\
    good acc' cb = good acc cb + length (filter is_good (all_samples n_chan nb cb l)) /\ total acc' cb = total acc cb + length (all_samples n_chan nb cb l).
Proof.
  induction l as [|[[a1 a2] chans] l IH]; intros acc F.
  - exists acc. split; [reflexivity|]. intros cb _. cbn. repeat split; try lia. intros a. ring.
  - apply Forall_cons_iff in F as [L F]. cbn [snd] in L. cbn [baselines].
    destruct (walk_effect a1 a2 chans 0 0 acc) as (acc1 & E1 & Ef); [lia|lia|cbn; rewrite Nat.div_0_l; lia|lia|]. rewrite E1. cbn [bind].
    destruct (IH acc1 F) as (acc2 & E2 & H2). exists acc2. split; [exact E2|]. intros cb Hcb.
    destruct (Ef cb Hcb) as (A1 & A2 & A3), (H2 cb Hcb) as (B1 & B2 & B3).
    change (smp_from 0 chans cb) with (block_samples n_chan nb cb chans) in *. split; [|split].
    + intros a. rewrite B1, A1. unfold antenna_weight. cbn [map]. rewrite qsum_cons. ring.
    + rewrite B2, A2. unfold all_samples. cbn [map concat snd]. rewrite filter_app, app_length. lia.
    + rewrite B3, A3. unfold all_samples. cbn [map concat snd]. rewrite app_length. lia.
Qed.
Lemma slots_effect factor (l : list slot) : forall acc, Forall (Forall (fun b => length (snd b) = n_chan)) l ->
  exists acc', add_slots (block_starts n_chan nb) nb factor acc l = Ok acc' /\ forall cb, cb < nb ->
    (forall a, weights acc' (a * nb + cb) = factor ^ length l * weights acc (a * nb + cb) +
       qsum (map (fun t => factor ^ (length l - t) * antenna_weight n_chan nb a cb (nth t l [])) (seq 0 (length l))))%Qc /\
    good acc' cb = good acc cb + length (filter is_good (concat (map (all_samples n_chan nb cb) l))) /\
    total acc' cb = total acc cb + length (concat (map (all_samples n_chan nb cb) l)).
Proof.
  induction l as [|x l IH]; intros acc F.
  - exists acc. split; [reflexivity|]. intros cb _. cbn. repeat split; try lia. intros a. ring.
  - apply Forall_cons_iff in F as [L F]. cbn [add_slots]. unfold add_slot at 1.
    destruct (baselines_effect x acc L) as (acc1 & E1 & H1). rewrite E1. cbn [bind].
    set (acc1' := Sums _ _ _). destruct (IH acc1' F) as (acc2 & E2 & H2). exists acc2. split; [exact E2|]. intros cb Hcb.
    destruct (H1 cb Hcb) as (A1 & A2 & A3), (H2 cb Hcb) as (B1 & B2 & B3). unfold acc1' in B1, B2, B3. cbn [weights good total] in B1, B2, B3. split; [|split].
    + intros a. rewrite B1, A1. cbn [length seq map]. rewrite qsum_cons. rewrite <- seq_shift, map_map. cbn [nth Nat.sub]. cbn [Qcpower]. ring.
    + rewrite B2, A2. cbn [map concat]. rewrite filter_app, app_length. lia.
    + rewrite B3, A3. cbn [map concat]. rewrite app_length. lia.
Qed.
End Blocks.

(** The channels are divided over the blocks: every channel is in exactly one, and every block has as many channels as were asked for, or more, but less than twice as many *)
Theorem C75_blocks n_chan requested ch : 0 < requested -> requested <= n_chan -> ch < n_chan ->
  let nb := n_blocks n_chan requested in
  (exists cb, cb < nb /\ in_block n_chan nb ch cb = true /\ forall cb', in_block n_chan nb ch cb' = true -> cb' = cb) /\
  (forall cb, cb < nb -> exists b e, get (block_starts n_chan nb) cb = Ok b /\ get (block_starts n_chan nb) (cb + 1) = Ok e /\ b + requested <= e /\ e < b + 2 * requested /\
     forall c, in_block n_chan nb c cb = true <-> b <= c < e).
Proof.
  intros H1 H2 H3 nb.
  assert (En : nb = n_chan / requested).
  { unfold nb, n_blocks. replace (requested =? 0) with false by (symmetry; apply Nat.eqb_neq; lia). replace (n_chan <? requested) with false by (symmetry; apply Nat.ltb_ge; lia). reflexivity. }
  assert (Hb : 0 < nb) by (rewrite En; apply Nat.div_str_pos; lia).
  assert (Q : nb * requested <= n_chan < (nb + 1) * requested).
  { rewrite En. pose proof (Nat.div_mod n_chan requested ltac:(lia)). pose proof (Nat.mod_upper_bound n_chan requested ltac:(lia)). nia. }
  assert (Hc : nb <= n_chan) by nia. clearbody nb. clear En. split.
  - set (cb := ((ch + 1) * nb - 1) / n_chan).
    assert (D : cb * n_chan < (ch + 1) * nb <= (cb + 1) * n_chan).
    { pose proof (Nat.div_mod ((ch + 1) * nb - 1) n_chan ltac:(lia)) as E. pose proof (Nat.mod_upper_bound ((ch + 1) * nb - 1) n_chan ltac:(lia)) as U. fold cb in E. nia. }
    assert (I : in_block n_chan nb ch cb = true).
    { unfold in_block. apply andb_true_iff. split.
      - apply Nat.leb_le. assert (cb * n_chan / nb < ch + 1) by (apply Nat.div_lt_upper_bound; lia). lia.
      - apply Nat.ltb_lt. assert (ch + 1 <= (cb + 1) * n_chan / nb) by (apply Nat.div_le_lower_bound; lia). lia. }
    exists cb. split; [|split; [exact I|intros cb' I'; now apply (in_block_unique n_chan nb Hb Hc ch)]].
    apply Nat.nle_gt. intros C. nia.
  - intros cb Hcb. exists (cb * n_chan / nb), ((cb + 1) * n_chan / nb). rewrite !starts_get by (assumption || lia). split; [reflexivity|]. split; [reflexivity|].
    pose proof (Nat.div_mod (cb * n_chan) nb ltac:(lia)) as E1. pose proof (Nat.mod_upper_bound (cb * n_chan) nb ltac:(lia)) as U1.
    pose proof (Nat.div_mod ((cb + 1) * n_chan) nb ltac:(lia)) as E2. pose proof (Nat.mod_upper_bound ((cb + 1) * n_chan) nb ltac:(lia)) as U2.
    set (b := cb * n_chan / nb) in *. set (e := (cb + 1) * n_chan / nb) in *. split; [|split].
    + apply Nat.nlt_ge. intros C. assert (nb * e <= nb * (b + requested - 1)) by (apply Nat.mul_le_mono_l; lia). nia.
    + apply Nat.nle_gt. intros C. assert (nb * (b + 2 * requested) <= nb * e) by (apply Nat.mul_le_mono_l; lia).
      assert (K1 : requested * nb + 1 >= requested + nb) by (clear - H1 Hb; nia).
      assert (K2 : requested * nb + requested * nb < n_chan + nb) by (clear Q; lia). clear - K1 K2 Q. lia.
    + intros c. unfold in_block. fold b e. lia.
Qed.
Print Assumptions C75_blocks.
Example C75_blocks_example : n_blocks 11 4 = 2 /\ block_starts 11 2 = [0; 5; 11].
Proof. split; reflexivity. Qed.

(** The sums after the slots of [l]: the weights of earlier slots are multiplied more often by the factor.  The numbers of correlations are right. *)
Theorem C75_sums n_chan nb factor (l : list (list (nat * nat * list (list (Qc * bool))))) : 0 < nb -> nb <= n_chan ->
  Forall (Forall (fun b => length (snd b) = n_chan)) l ->
  exists acc, add_slots (block_starts n_chan nb) nb factor no_sums l = Ok acc /\ forall cb, cb < nb ->
    (forall a, weights acc (a * nb + cb) = qsum (map (fun t => factor ^ (length l - t) * antenna_weight n_chan nb a cb (nth t l [])) (seq 0 (length l))))%Qc /\
    good acc cb = length (filter is_good (concat (map (all_samples n_chan nb cb) l))) /\
    total acc cb = length (concat (map (all_samples n_chan nb cb) l)).
Proof.
  intros Hb Hc F. destruct (slots_effect n_chan nb Hb Hc factor l no_sums F) as (acc & E & H). exists acc. split; [exact E|]. intros cb Hcb.
  destruct (H cb Hcb) as (A & B & C). cbn [no_sums weights good total] in A, B, C. split; [|split; assumption]. intros a. rewrite A. ring.
Qed.
Print Assumptions C75_sums.
(** With one slot in an interval, the weight of an antenna is its share of the weights *)
Theorem C75_weights_partial n_chan nb factor slot : 0 < nb -> nb <= n_chan -> Forall (fun b => length (snd b) = n_chan) slot ->
  exists acc, add_slots (block_starts n_chan nb) nb factor no_sums [slot] = Ok acc /\
    forall a cb, cb < nb -> weights acc (a * nb + cb) = (factor * antenna_weight n_chan nb a cb slot)%Qc.
Proof.
  intros Hb Hc F. destruct (C75_sums n_chan nb factor [slot] Hb Hc ltac:(now constructor)) as (acc & E & H). exists acc. split; [exact E|]. intros a cb Hcb.
  destruct (H cb Hcb) as (A & _). rewrite A. cbn [length seq map nth Nat.sub]. rewrite qsum_cons, qsum_nil. cbn [Qcpower]. ring.
Qed.
Print Assumptions C75_weights_partial.
(** One channel with one correlation *)
Definition ex_slot (w01 w02 : Qc) : list (nat * nat * list (list (Qc * bool))) := [(0, 1, [[(w01, false)]]); (0, 2, [[(w02, false)]])].
Example C75_sums_example : match add_slots (block_starts 1 1) 1 half no_sums [ex_slot (qn 8) (qn 2); ex_slot (qn 4) 0] with
  | Ok acc => map (fun i => this (weights acc i)) [0; 1; 2] = [(9#2)%Q; (4#1)%Q; (1#2)%Q] /\ good acc 0 = 3 /\ total acc 0 = 4
  | _ => False end.
Proof. vm_compute. repeat split. Qed.

(** With more slots, the weight is not the mean: all weights of earlier slots are multiplied again by the factor at every slot.  In this interval of two slots, antenna 1 has
    four times the weight of antenna 2, and gets the smaller weight for the constraints. *)
Theorem C75_weights_refuted : exists slots acc, let factor := weight_factor 1 3 2 in length slots = 2 /\
  add_slots (block_starts 1 1) 1 factor no_sums slots = Ok acc /\
  let sum a := qsum (map (antenna_weight 1 1 a 0) slots) in
  sum 1 = (qn 4 * sum 2%nat)%Qc /\ (weights acc 1%nat < weights acc 2%nat)%Qc.
Proof.
  exists [ex_slot (qn 4) 0; ex_slot 0 1]. eexists. cbv zeta. split; [reflexivity|]. split; [reflexivity|]. split; [apply Qc_is_canon; vm_compute; reflexivity|].
  apply qltb_true. vm_compute. reflexivity.
Qed.
Print Assumptions C75_weights_refuted.

(** A sample is flagged for the solver if it was flagged, or if its channel block has too few visibilities in the slots that are held *)
Theorem C75_min_vis n_chan nb factor (l : list (list (nat * nat * list (list (Qc * bool))))) ratio acc ch cb f : 0 < nb -> nb <= n_chan ->
  Forall (Forall (fun b => length (snd b) = n_chan)) l -> add_slots (block_starts n_chan nb) nb factor no_sums l = Ok acc -> cb < nb -> in_block n_chan nb ch cb = true ->
  let samples := concat (map (all_samples n_chan nb cb) l) in
  exists f', check (block_starts n_chan nb) nb acc ratio ch f = Ok f' /\
    (f' = true <-> f = true \/ (qn (length (filter is_good samples)) / qn (length samples) < ratio)%Qc).
Proof.
  intros Hb Hc F E Hcb I samples. destruct (C75_sums n_chan nb factor l Hb Hc F) as (acc' & E' & H). assert (acc' = acc) by congruence. subst acc'.
  destruct (H cb Hcb) as (_ & G & T). fold samples in G, T. rewrite <- G, <- T. clear samples G T.
  assert (K : forall n k f, k + n = nb -> exists f', check_from (block_starts n_chan nb) acc ratio ch k n f = Ok f' /\
    (f' = true <-> f = true \/ k <= cb /\ (qn (good acc cb) / qn (total acc cb) < ratio)%Qc)).
  { induction n as [|n IH]; intros k f0 Hk.
    - exists f0. split; [reflexivity|]. split; [auto|]. intros [A|[A _]]; [exact A|lia].
    - cbn [check_from]. destruct (qltb_spec (qn (good acc k) / qn (total acc k)) ratio) as [L|L].
      + unfold flag_block. rewrite !starts_get by (assumption || lia). cbn [bind]. fold (in_block n_chan nb ch k).
        destruct (IH (S k) (f0 || in_block n_chan nb ch k)) as (f' & E1 & E2); [lia|]. exists f'. split; [exact E1|]. rewrite E2. split.
        * intros [A|[A B]]; [|right; split; [lia|exact B]]. apply orb_true_iff in A as [A|A]; [now left|]. right.
          assert (k = cb) by now apply (in_block_unique n_chan nb Hb Hc ch). subst k. split; [lia|exact L].
        * intros [A|[A B]]; [left; now rewrite A|]. destruct (Nat.eq_dec k cb) as [->|N]; [left; now rewrite I, orb_true_r|]. right. split; [lia|exact B].
      + cbn [bind]. destruct (IH (S k) f0) as (f' & E1 & E2); [lia|]. exists f'. split; [exact E1|]. rewrite E2. split.
        * intros [A|[A B]]; [now left|]. right. split; [lia|exact B].
        * intros [A|[A B]]; [now left|]. destruct (Nat.eq_dec k cb) as [->|N]; [now elim L|]. right. split; [lia|exact B]. }
  destruct (K nb 0 f) as (f' & E1 & E2); [lia|]. exists f'. split; [exact E1|]. rewrite E2. split; [intros [A|[_ A]]; auto|].
  intros [A|A]; [now left|]. right. split; [lia|exact A].
Qed.
Print Assumptions C75_min_vis.
(** The slots that are held are those of several intervals, if IDG predicts the model data.  An interval without any visibility is then not flagged if another that is
    handled at the same time has enough. *)
Theorem C75_min_vis_refuted : exists first second ratio acc, add_slots (block_starts 1 1) 1 1%Qc no_sums [first; second] = Ok acc /\
  filter is_good (all_samples 1 1 0 second) = [] /\ all_samples 1 1 0 second <> [] /\ (0 < ratio)%Qc /\ check (block_starts 1 1) 1 acc ratio 0 false = Ok false.
Proof.
  exists (ex_slot 1 1), (ex_slot 0 0), half. eexists. split; [reflexivity|]. split; [reflexivity|]. split; [discriminate|]. split; [apply qltb_true; vm_compute; reflexivity|].
  vm_compute. reflexivity.
Qed.
Print Assumptions C75_min_vis_refuted.
Example C75_min_vis_example : match add_slots (block_starts 4 2) 2 1%Qc no_sums [[(0, 1, [[(1%Qc, false)]; [(1%Qc, true)]; [(1%Qc, true)]; [(1%Qc, true)]])]] with
  | Ok acc => map (fun ch => check (block_starts 4 2) 2 acc half ch false) [0; 1; 2; 3] = [Ok false; Ok false; Ok true; Ok true]
  | _ => False end.
Proof. vm_compute. reflexivity. Qed.

(** The time that is given to the solver for an interval of more slots is not in the interval: the sum of earlier slots is added again at every slot *)
Theorem C75_time_refuted : exists times, length times = 2 /\ forall t, In t times -> (t < solver_time 2 times)%Qc.
Proof.
  exists [qn 10; qn 11]. split; [reflexivity|]. intros t [<-|[<-|[]]]; apply qltb_true; vm_compute; reflexivity.
Qed.
Print Assumptions C75_time_refuted.
(** It is right with one slot *)
Theorem C75_time_partial t : solver_time 1 [t] = t.
Proof. unfold solver_time. cbn [fold_left]. unfold add_time. rewrite qn_S, qn_0. field. vm_compute. discriminate. Qed.
Print Assumptions C75_time_partial.
