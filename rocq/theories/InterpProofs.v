From Coq Require Import List Bool Arith ZArith Permutation Lia.
From Verif Require Import InfoModel InfoProofs InterpModel InterpSpec.
Import ListNotations.
Open Scope nat_scope.

(** * Folds *)
Lemma fold_left_ext_in {X Y} (f g : X -> Y -> X) l a :
  (forall a y, In y l -> f a y = g a y) -> fold_left f l a = fold_left g l a.
Proof.
  revert a. induction l as [|y l IH]; intros a H; [reflexivity|]. cbn. rewrite H by now left. apply IH. intros. apply H. now right.
Qed.
Lemma fold_left_id {X Y} (f : X -> Y -> X) l a : (forall a y, In y l -> f a y = a) -> fold_left f l a = a.
Proof. revert a. induction l as [|y l IH]; intros a H; [reflexivity|]. cbn. rewrite H by now left. apply IH. intros. apply H. now right. Qed.
Lemma fold_left_filter {X Y} (f : X -> Y -> X) p l a :
  fold_left f (filter p l) a = fold_left (fun a y => if p y then f a y else a) l a.
Proof. revert a. induction l as [|y l IH]; intros a; [reflexivity|]. cbn. destruct (p y); cbn; apply IH. Qed.
Lemma fold_left_map {X Y Z'} (f : X -> Y -> X) (g : Z' -> Y) l a : fold_left f (map g l) a = fold_left (fun a z => f a (g z)) l a.
Proof. revert a. induction l as [|z l IH]; intros a; [reflexivity|]. cbn. apply IH. Qed.
Lemma fold_left_prod {X Y Z'} (f : X -> Y * Z' -> X) l l' a :
  fold_left f (list_prod l l') a = fold_left (fun a y => fold_left (fun a z => f a (y, z)) l' a) l a.
Proof.
  revert a. induction l as [|y l IH]; intros a; [reflexivity|]. cbn. rewrite fold_left_app, fold_left_map. apply IH.
Qed.
Lemma fold_range {X} (f : X -> nat -> X) a n lo k : lo + k <= n ->
  (forall a x, x < n -> x < lo \/ lo + k <= x -> f a x = a) -> fold_left f (seq 0 n) a = fold_left f (seq lo k) a.
Proof.
  intros L H. replace n with (lo + (k + (n - lo - k))) by lia. rewrite !seq_app, !fold_left_app. cbn [Nat.add].
  rewrite (fold_left_id f (seq 0 lo)) by (intros a' x Hx; apply in_seq in Hx; apply H; lia).
  apply fold_left_id. intros a' x Hx. apply in_seq in Hx. apply H; lia.
Qed.
Lemma seq_shift_add a b n : seq (a + b) n = map (Nat.add a) (seq b n).
Proof. revert b. induction n as [|n IH]; intros b; [reflexivity|]. cbn. f_equal. rewrite <- IH. f_equal. lia. Qed.
Lemma nth_flat_const {X} (f : nat -> list X) n d : forall m s a b, (forall x, length (f x) = n) -> a < m -> b < n ->
  nth (n * a + b) (flat_map f (seq s m)) d = nth b (f (s + a)) d.
Proof.
  induction m as [|m IH]; intros s a b H Ha Hb; [lia|]. cbn [seq flat_map]. destruct a as [|a].
  - rewrite app_nth1 by (rewrite H; lia). f_equal; [lia|f_equal; lia].
  - rewrite app_nth2 by (rewrite H; nia). rewrite H. replace (n * S a + b - n) with (n * a + b) by nia.
    rewrite IH by (auto; lia). f_equal. f_equal. lia.
Qed.

Section Proofs.
Context {V W M : Type} (A : arith V W) (G : shape) (sched : list (buf V M) -> list sample -> list sample) (m0 : M) (h : nat).
Hypothesis Hw : window G = 2 * h + 1.
Hypothesis Hs : forall l s, Permutation (sched l s) s.
Notation buf := (buf V M).
Notation N := (nbl G * nch G * npol G).
Notation at' := (at_ m0).
Notation flag_at' := (flag_at (nch G) (npol G) m0).
Notation data_at' := (data_at A (nch G) (npol G) m0).
Notation wf' := (wf (V := V) (M := M) (nbl G) (nch G) (npol G)).
Notation weighted' := (weighted A (nch G) (npol G) h m0).
Notation filled' := (filled A (nch G) (npol G) h m0).

Lemma half : window G / 2 = h.
Proof. rewrite Hw. replace (2 * h + 1) with (1 + h * 2) by lia. rewrite Nat.div_add by lia. reflexivity. Qed.

Lemma kernel_at a b : a < window G -> b < window G ->
  nth (window G * a + b) (kernel_lookup A G) (wzero A)
  = gauss A ((Z.of_nat b - Z.of_nat h) * (Z.of_nat b - Z.of_nat h) + (Z.of_nat a - Z.of_nat h) * (Z.of_nat a - Z.of_nat h))%Z.
Proof.
  intros Ha Hb. unfold kernel_lookup. rewrite nth_flat_const; [|intros; now rewrite map_length, seq_length|exact Ha|exact Hb].
  cbv zeta. rewrite half. cbn [Nat.add].
  assert (E : forall (f : nat -> W) d, nth b (map f (seq 0 (window G))) d = f b).
  { intros f d. rewrite (nth_indep _ d (f 0)) by (rewrite map_length, seq_length; exact Hb). rewrite map_nth, seq_nth by exact Hb. reflexivity. }
  rewrite E. reflexivity.
Qed.

Definition compat (full : list buf) (t : nat) (x : buf) : Prop :=
  flags x = flags (at' full t) /\
  forall b c p, flag_at' full t b c p = false -> nth (index G b c p) (data x) (vzero A) = data_at' full t b c p.

Lemma window_sums_spec full l base i b c p :
  (forall j, j < length l -> compat full (base + j) (nth j l (no_buf m0))) -> i < length l -> c < nch G ->
  (base = 0 \/ h <= i) -> base + length l <= length full -> (base + length l = length full \/ i + h < length l) ->
  window_sums A G m0 l i b c p = weighted' full (base + i) b c p.
Proof.
  intros HC Hi Hc H1 H2 H3. unfold window_sums, weighted, neighbours. cbv zeta. symmetry.
  rewrite fold_left_filter, fold_left_prod.
  set (tb := w_begin G i). set (te := w_end G i (length l)).
  assert (Tb : tb = i - h) by (unfold tb, w_begin; rewrite half; destruct (Nat.ltb_spec h i); lia).
  assert (Te : te = Nat.min (i + h + 1) (length l)) by (unfold te, w_end; rewrite half; reflexivity).
  rewrite (fold_range _ _ (length full) (base + tb) (te - tb)).
  2:{ lia. }
  2:{ intros a t Ht Hout. apply fold_left_id. intros a' c' Hc'. cbn [fst snd].
      replace (near h (base + i) t) with false; [reflexivity|]. symmetry. unfold near. apply andb_false_iff.
      rewrite !Nat.leb_gt. lia. }
  rewrite seq_shift_add, fold_left_map. apply fold_left_ext_in. intros a t Ht. apply in_seq in Ht.
  set (cb := w_begin G c). set (ce := w_end G c (nch G)).
  assert (Cb : cb = c - h) by (unfold cb, w_begin; rewrite half; destruct (Nat.ltb_spec h c); lia).
  assert (Ce : ce = Nat.min (c + h + 1) (nch G)) by (unfold ce, w_end; rewrite half; reflexivity).
  rewrite (fold_range _ _ (nch G) cb (ce - cb)).
  2:{ lia. }
  2:{ intros a' c' Hc' Hout. cbn [fst snd].
      replace (near h c c') with false; [now rewrite andb_false_r|]. symmetry. unfold near. apply andb_false_iff.
      rewrite !Nat.leb_gt. lia. }
  apply fold_left_ext_in. intros a' c' Hc'. apply in_seq in Hc'. cbn [fst snd].
  assert (Nt : near h (base + i) (base + t) = true) by (unfold near; apply andb_true_iff; rewrite !Nat.leb_le; lia).
  assert (Nc : near h c c' = true) by (unfold near; apply andb_true_iff; rewrite !Nat.leb_le; lia).
  rewrite Nt, Nc. cbn [andb].
  destruct (HC t ltac:(lia)) as [F D]. unfold accumulate. cbv zeta. rewrite F. unfold index at 1.
  change (nth ((b * nch G + c') * npol G + p) (flags (at' full (base + t))) true) with (flag_at' full (base + t) b c' p).
  destruct (flag_at' full (base + t) b c' p) eqn:E; cbn [negb]; [reflexivity|].
  rewrite D by exact E. rewrite half. rewrite kernel_at by lia.
  assert (Q : sqdist (base + i) c (base + t) c' =
    ((Z.of_nat (c' + h - c) - Z.of_nat h) * (Z.of_nat (c' + h - c) - Z.of_nat h) +
     (Z.of_nat (t + h - i) - Z.of_nat h) * (Z.of_nat (t + h - i) - Z.of_nat h))%Z).
  { unfold sqdist. replace (Z.of_nat (c' + h - c) - Z.of_nat h)%Z with (Z.of_nat c' - Z.of_nat c)%Z by lia.
    replace (Z.of_nat (t + h - i) - Z.of_nat h)%Z with (Z.of_nat (base + t) - Z.of_nat (base + i))%Z by lia. lia. }
  rewrite Q. reflexivity.
Qed.

(** * One time slot *)
Lemma index_lt b c p : b < nbl G -> c < nch G -> p < npol G -> index G b c p < N.
Proof.
  intros. unfold index. assert (b * nch G + c + 1 <= nbl G * nch G) by nia.
  assert ((b * nch G + c + 1) * npol G <= nbl G * nch G * npol G) by (apply Nat.mul_le_mono_r; assumption). lia.
Qed.
Lemma index_inj b c p b' c' p' : c < nch G -> p < npol G -> c' < nch G -> p' < npol G ->
  index G b c p = index G b' c' p' -> b = b' /\ c = c' /\ p = p'.
Proof.
  unfold index. intros H1 H2 H3 H4 E.
  assert (E1 : b * nch G + c = b' * nch G + c' /\ p = p').
  { rewrite (Nat.mul_comm (b * nch G + c)), (Nat.mul_comm (b' * nch G + c')) in E.
    apply (Nat.div_mod_unique (npol G)); assumption. }
  destruct E1 as [E1 ->]. rewrite (Nat.mul_comm b), (Nat.mul_comm b') in E1.
  destruct (Nat.div_mod_unique (nch G) b b' c c' H1 H3 E1). auto.
Qed.

Lemma in_flagged (x : buf) s : In s (flagged_samples G x) <->
  bl s < nbl G /\ ch s < nch G /\ pol s < npol G /\ nth (index G (bl s) (ch s) (pol s)) (flags x) false = true.
Proof.
  unfold flagged_samples. rewrite in_flat_map. split.
  - intros (b & Hb & H). apply in_flat_map in H as (c & Hc & H). apply in_flat_map in H as (p & Hp & H).
    apply in_seq in Hb, Hc, Hp. destruct (nth _ _ _) eqn:E; [|destruct H]. destruct H as [<-|[]]. cbn. repeat split; auto; lia.
  - intros (Hb & Hc & Hp & E). exists (bl s). split; [apply in_seq; lia|]. apply in_flat_map. exists (ch s). split; [apply in_seq; lia|].
    apply in_flat_map. exists (pol s). split; [apply in_seq; lia|]. rewrite E. left. now destruct s.
Qed.

Lemma flag_default (full : list buf) t (x : buf) b c p : flags x = flags (at' full t) -> index G b c p < length (flags x) ->
  nth (index G b c p) (flags x) false = flag_at' full t b c p.
Proof. intros F L. unfold flag_at. rewrite <- F. apply nth_indep. exact L. Qed.

Definition is_filled (full : list buf) (t : nat) (x : buf) : Prop :=
  wf' x /\ flags x = flags (at' full t) /\ meta x = meta (at' full t) /\
  forall b c p, b < nbl G -> c < nch G -> p < npol G -> nth (index G b c p) (data x) (vzero A) = filled' full t b c p.

(** Part way through a slot: the samples [done] have been replaced *)
Definition part (full : list buf) (t : nat) (done : list sample) (x : buf) : Prop :=
  wf' x /\ flags x = flags (at' full t) /\ meta x = meta (at' full t) /\
  (forall i, (forall s, In s done -> index G (bl s) (ch s) (pol s) <> i) -> nth i (data x) (vzero A) = nth i (data (at' full t)) (vzero A)) /\
  (forall s, In s done -> nth (index G (bl s) (ch s) (pol s)) (data x) (vzero A) = filled' full t (bl s) (ch s) (pol s)).

Lemma part_compat full t done x : (forall s, In s done -> In s (flagged_samples G (at' full t))) ->
  wf' (at' full t) -> part full t done x -> compat full t x.
Proof.
  intros HD [_ WF] (W1 & F & _ & P1 & _). split; [exact F|]. intros b c p E. unfold data_at. apply P1.
  intros s Hs' Ei. apply HD in Hs'. apply in_flagged in Hs' as (_ & _ & _ & Hf). rewrite Ei in Hf.
  unfold flag_at in E. destruct (le_lt_dec (length (flags (at' full t))) (index G b c p)) as [L|L].
  - rewrite nth_overflow in Hf by exact L. discriminate.
  - rewrite (nth_indep _ _ true) in Hf by exact L. unfold index in Hf. congruence.
Qed.

Lemma slot_fold full l0 base i todo : forall done l,
  (forall s, In s (done ++ todo) -> In s (flagged_samples G (at' full (base + i)))) -> wf' (at' full (base + i)) ->
  length l = length l0 -> i < length l -> (forall j, j <> i -> nth j l (no_buf m0) = nth j l0 (no_buf m0)) ->
  (forall j, j < length l -> j <> i -> compat full (base + j) (nth j l0 (no_buf m0))) ->
  part full (base + i) done (nth i l (no_buf m0)) ->
  (base = 0 \/ h <= i) -> base + length l <= length full -> (base + length l = length full \/ i + h < length l) ->
  let r := fold_left (interpolate_sample A G m0 i) todo l in
  length r = length l0 /\ (forall j, j <> i -> nth j r (no_buf m0) = nth j l0 (no_buf m0)) /\
  part full (base + i) (done ++ todo) (nth i r (no_buf m0)).
Proof.
  induction todo as [|s todo IH]; intros done l HD WF HL Hi Ho HC HP H1 H2 H3 r.
  - subst r. cbn [fold_left]. rewrite app_nil_r. auto.
  - subst r. cbn [fold_left]. replace (done ++ s :: todo) with ((done ++ [s]) ++ todo) by (rewrite <- app_assoc; reflexivity).
    assert (IN : In s (flagged_samples G (at' full (base + i)))) by (apply HD, in_app_iff; right; now left).
    apply in_flagged in IN as IN'. destruct IN' as (Sb & Sc & Sp & Sf).
    set (l' := interpolate_sample A G m0 i l s).
    assert (L' : length l' = length l) by apply set_nth_length.
    apply IH; try (rewrite L'; assumption); auto.
    + intros s' Hs'. apply HD. rewrite <- app_assoc in Hs'. exact Hs'.
    + intros j Hj. unfold l', interpolate_sample. cbv zeta. rewrite set_nth_other by congruence. auto.
    + unfold l', interpolate_sample. cbv zeta. rewrite set_nth_same by exact Hi.
      assert (C : forall j, j < length l -> compat full (base + j) (nth j l (no_buf m0))).
      { intros j Hj. destruct (Nat.eq_dec j i) as [->|Nj].
        - eapply part_compat; [|exact WF|exact HP]. intros s' Hs'. apply HD, in_app_iff. now left.
        - rewrite Ho by exact Nj. now apply HC. }
      rewrite (window_sums_spec full l base i) by assumption.
      destruct HP as ([W1 W2] & F & Me & P1 & P2).
      split; [split; cbn; [rewrite set_nth_length|]; assumption|]. split; [exact F|]. split; [exact Me|]. cbn [data].
      assert (Lt : index G (bl s) (ch s) (pol s) < length (data (nth i l (no_buf m0)))) by (rewrite W1; now apply index_lt).
      split.
      * intros k Hk. rewrite set_nth_other by (apply Hk, in_app_iff; right; now left).
        apply P1. intros s' Hs'. apply Hk, in_app_iff. now left.
      * assert (V1 : new_value A (weighted' full (base + i) (bl s) (ch s) (pol s)) = filled' full (base + i) (bl s) (ch s) (pol s)).
        { unfold filled. replace (flag_at' full (base + i) (bl s) (ch s) (pol s)) with true; [reflexivity|].
          rewrite <- (flag_default full (base + i) (at' full (base + i))); [symmetry; exact Sf|reflexivity|].
          destruct WF as [_ ->]. now apply index_lt. }
        intros s' Hs'. apply in_app_iff in Hs' as [Hs'|[<-|[]]].
        -- destruct (Nat.eq_dec (index G (bl s) (ch s) (pol s)) (index G (bl s') (ch s') (pol s'))) as [E|E].
           ++ assert (IN2 : In s' (flagged_samples G (at' full (base + i)))) by (apply HD, in_app_iff; now left).
              apply in_flagged in IN2 as (Tb & Tc & Tp & _).
              destruct (index_inj _ _ _ _ _ _ Sc Sp Tc Tp E) as (E1 & E2 & E3). rewrite <- E1, <- E2, <- E3.
              rewrite set_nth_same by exact Lt. exact V1.
           ++ rewrite set_nth_other by exact E. now apply P2.
        -- rewrite set_nth_same by exact Lt. exact V1.
Qed.


Lemma timestep_spec (full : list buf) l base i :
  Forall wf' full -> i < length l ->
  nth i l (no_buf m0) = at' full (base + i) ->
  (forall j, j < length l -> compat full (base + j) (nth j l (no_buf m0))) ->
  (base = 0 \/ h <= i) -> base + length l <= length full -> (base + length l = length full \/ i + h < length l) ->
  let r := interpolate_timestep A G sched m0 l i in
  length r = length l /\ (forall j, j <> i -> nth j r (no_buf m0) = nth j l (no_buf m0)) /\ is_filled full (base + i) (nth i r (no_buf m0)).
Proof.
  intros WF Hi Hx HC H1 H2 H3 r. subst r. unfold interpolate_timestep. rewrite Hx.
  assert (WFt : wf' (at' full (base + i))).
  { rewrite Forall_forall in WF. apply WF. unfold at_. apply nth_In. lia. }
  set (todo := sched l (flagged_samples G (at' full (base + i)))).
  assert (P : Permutation todo (flagged_samples G (at' full (base + i)))) by apply Hs.
  assert (K := slot_fold full l base i todo [] l). cbv zeta in K. cbn [app] in K.
  destruct K as (K1 & K2 & K3); auto.
  - intros s Hs'. eapply Permutation_in; eassumption.
  - rewrite Hx. repeat split; try apply WFt; [intros ? []].
  - split; [exact K1|]. split; [exact K2|]. destruct K3 as (Q1 & Q2 & Q3 & Q4 & Q5). split; [exact Q1|]. split; [exact Q2|]. split; [exact Q3|].
    intros b c p Hb Hc Hp. destruct (flag_at' full (base + i) b c p) eqn:E.
    + specialize (Q5 {| bl := b; ch := c; pol := p |}). cbn [bl ch pol] in Q5. apply Q5.
      eapply Permutation_in; [apply Permutation_sym; exact P|]. apply in_flagged. cbn [bl ch pol]. repeat split; auto.
      rewrite (flag_default full (base + i)); [exact E|reflexivity|]. destruct WFt as [_ ->]. now apply index_lt.
    + unfold filled. rewrite E. unfold data_at. apply Q4. intros s Hs' Ei.
      assert (IN : In s (flagged_samples G (at' full (base + i)))) by (eapply Permutation_in; eassumption).
      apply in_flagged in IN as (Tb & Tc & Tp & Tf). destruct (index_inj _ _ _ _ _ _ Tc Tp Hc Hp Ei) as (E1 & E2 & E3).
      rewrite (flag_default full (base + i)) in Tf; [|reflexivity|destruct WFt as [_ ->]; now apply index_lt].
      rewrite E1, E2, E3 in Tf. congruence.
Qed.

Lemma filled_compat (full : list buf) t x : t < length full -> Forall wf' full -> is_filled full t x -> compat full t x.
Proof.
  intros Ht WF (W1 & F & _ & D). split; [exact F|]. intros b c p E.
  rewrite Forall_forall in WF. assert (WFt : wf' (at' full t)) by (apply WF; unfold at_; now apply nth_In).
  (* any index below the size is that of some sample *)
  unfold flag_at in E. destruct (le_lt_dec (length (flags (at' full t))) (index G b c p)) as [L|L].
  { rewrite nth_overflow in E by exact L. discriminate. }
  destruct WFt as [_ WL]. rewrite WL in L.
  assert (Pp : 0 < npol G) by (destruct (npol G); lia). assert (Pc : 0 < nch G) by (destruct (nch G); lia).
  set (k := index G b c p) in *.
  set (p' := k mod npol G). set (c' := (k / npol G) mod nch G). set (b' := (k / npol G) / nch G).
  assert (Hp' : p' < npol G) by (apply Nat.mod_upper_bound; lia).
  assert (Hc' : c' < nch G) by (apply Nat.mod_upper_bound; lia).
  assert (Hk : index G b' c' p' = k).
  { unfold index, p', c', b'. rewrite (Nat.div_mod k (npol G)) at 4 by lia.
    rewrite (Nat.mul_comm (k / npol G / nch G)), <- Nat.div_mod by lia. lia. }
  assert (Hb' : b' < nbl G) by (unfold b'; apply Nat.div_lt_upper_bound; [lia|]; apply Nat.div_lt_upper_bound; [lia|]; lia).
  rewrite <- Hk. rewrite D by assumption. unfold filled.
  replace (flag_at' full t b' c' p') with false.
  - unfold data_at. change ((b' * nch G + c') * npol G + p') with (index G b' c' p'). rewrite Hk. reflexivity.
  - symmetry. unfold flag_at. change ((b' * nch G + c') * npol G + p') with (index G b' c' p'). rewrite Hk. exact E.
Qed.

Lemma raw_compat (full : list buf) t : compat full t (at' full t).
Proof. split; [reflexivity|]. intros b c p _. reflexivity. Qed.

(** * Several time slots *)
Definition kept (full : list buf) (base d : nat) (l : list buf) : Prop :=
  forall i, i < length l -> if i <? d then is_filled full (base + i) (nth i l (no_buf m0)) else nth i l (no_buf m0) = at' full (base + i).

Lemma kept_compat (full : list buf) base d l : Forall wf' full -> base + length l <= length full -> kept full base d l ->
  forall j, j < length l -> compat full (base + j) (nth j l (no_buf m0)).
Proof.
  intros WF L K j Hj. specialize (K j Hj). destruct (j <? d).
  - apply filled_compat; [lia|assumption|assumption].
  - rewrite K. apply raw_compat.
Qed.

Lemma from_spec (full : list buf) base : forall n d l, Forall wf' full -> kept full base d l -> d + n <= length l ->
  (base = 0 \/ h <= d) -> base + length l <= length full -> (base + length l = length full \/ d + n + h <= length l) ->
  length (interpolate_from A G sched m0 l d n) = length l /\ kept full base (d + n) (interpolate_from A G sched m0 l d n).
Proof.
  unfold interpolate_from. induction n as [|n IH]; intros d l WF K Hd H1 H2 H3.
  - cbn. rewrite Nat.add_0_r. auto.
  - cbn [seq fold_left]. destruct (timestep_spec full l base d) as (T1 & T2 & T3); auto; try lia.
    + specialize (K d ltac:(lia)). rewrite Nat.ltb_irrefl in K. exact K.
    + intros j Hj. eapply kept_compat; eauto.
    + set (r := interpolate_timestep A G sched m0 l d) in *.
      replace (d + S n) with (S d + n) by lia. rewrite <- T1. apply IH; rewrite ?T1; auto; try lia.
      intros i Hi. rewrite T1 in Hi. destruct (Nat.eq_dec i d) as [->|Ni].
      * replace (d <? S d) with true by (symmetry; apply Nat.ltb_lt; lia). exact T3.
      * rewrite T2 by exact Ni. specialize (K i Hi). destruct (Nat.ltb_spec i d), (Nat.ltb_spec i (S d)); try lia; exact K.
Qed.

Definition sent_ok (full : list buf) (n : nat) (out : list buf) : Prop :=
  length out = n /\ forall t, t < n -> exists x, is_filled full t x /\ nth t out (no_buf m0) = clean A x.

Lemma sent_step (full : list buf) n out x : sent_ok full n out -> is_filled full n x -> sent_ok full (S n) (out ++ [clean A x]).
Proof.
  intros [L H] F. split; [rewrite app_length; cbn; lia|]. intros t Ht. destruct (Nat.eq_dec t n) as [->|Nt].
  - exists x. split; [exact F|]. rewrite app_nth2 by lia. rewrite L, Nat.sub_diag. reflexivity.
  - destruct (H t ltac:(lia)) as (y & Fy & E). exists y. split; [exact Fy|]. rewrite app_nth1 by lia. exact E.
Qed.

Definition inv (full : list buf) (n : nat) (s : state (V := V) (M := M)) : Prop :=
  length (bufs s) = n - (n - 2 * h) /\ pos s = (if n <? window G then 0 else h) /\
  kept full (n - 2 * h) (pos s) (bufs s) /\ sent_ok full (n - 2 * h) (sent s).

Lemma process_inv (full : list buf) n s : Forall wf' full -> n < length full -> inv full n s ->
  inv full (S n) (process A G sched m0 s (at' full n)).
Proof.
  intros WF Hn (I1 & I2 & I3 & I4). unfold process. cbv zeta. rewrite app_length. cbn [length]. rewrite I1.
  assert (K' : kept full (n - 2 * h) (pos s) (bufs s ++ [at' full n])).
  { intros i Hi. rewrite app_length in Hi. cbn in Hi. destruct (Nat.eq_dec i (length (bufs s))) as [->|Ni].
    - rewrite app_nth2, Nat.sub_diag by lia. cbn [nth]. destruct (Nat.ltb_spec (length (bufs s)) (pos s)) as [L|L].
      + exfalso. rewrite I1, I2 in L. destruct (n <? window G) eqn:E; [lia|]. apply Nat.ltb_ge in E. lia.
      + f_equal. rewrite I1. lia.
    - rewrite app_nth1 by lia. apply I3. lia. }
  assert (WL : window G <= S (n - (n - 2 * h)) <-> 2 * h <= n) by (rewrite Hw; lia).
  destruct (Nat.leb_spec (window G) (n - (n - 2 * h) + 1)) as [L|L].
  - assert (Hn2 : 2 * h <= n) by (apply WL; lia). rewrite half.
    assert (P : pos s <= h) by (rewrite I2; destruct (n <? window G); lia).
    set (l := bufs s ++ [at' full n]) in *.
    assert (Ll : length l = 2 * h + 1) by (unfold l; rewrite app_length; cbn; lia).
    destruct (from_spec full (n - 2 * h) (h + 1 - pos s) (pos s) l) as (F1 & F2); auto; try lia.
    + rewrite I2. destruct (Nat.ltb_spec n (window G)); lia.
    + replace (pos s + (h + 1 - pos s)) with (h + 1) in * by lia.
      set (r := interpolate_from A G sched m0 l (pos s) (h + 1 - pos s)) in *. unfold send_front. cbn [bufs pos sent].
      destruct r as [|x r]; [cbn in F1; lia|]. unfold inv. cbn [bufs pos sent length] in *.
      split; [lia|]. split; [destruct (Nat.ltb_spec (S n) (window G)); lia|].
      replace (S n - 2 * h) with (S (n - 2 * h)) by lia. split.
      * intros i Hi. specialize (F2 (S i) ltac:(cbn; lia)). cbn [nth] in F2. replace (n - 2 * h + S i) with (S (n - 2 * h) + i) in F2 by lia.
        replace (h + 1 - 1) with h by lia. destruct (Nat.ltb_spec i h), (Nat.ltb_spec (S i) (h + 1)); try lia; exact F2.
      * apply sent_step; [exact I4|]. specialize (F2 0 ltac:(cbn; lia)). cbn [nth] in F2.
        replace (0 <? h + 1) with true in F2 by (symmetry; apply Nat.ltb_lt; lia). rewrite Nat.add_0_r in F2. exact F2.
  - assert (Hn2 : n < 2 * h) by lia. unfold inv. cbn [bufs pos sent]. rewrite app_length. cbn [length].
    replace (S n - 2 * h) with (n - 2 * h) by lia. split; [lia|]. split; [|split; assumption].
    rewrite I2. destruct (Nat.ltb_spec n (window G)), (Nat.ltb_spec (S n) (window G)); lia.
Qed.

Lemma all_inv (full : list buf) : Forall wf' full -> forall n, n <= length full ->
  inv full n (fold_left (process A G sched m0) (firstn n full) init).
Proof.
  intros WF. induction n as [|n IH]; intros Hn.
  - cbn. split; [reflexivity|]. split; [now rewrite Hw, Nat.add_1_r|]. split; [intros i Hi; cbn in Hi; lia|].
    split; [reflexivity|intros t Ht; lia].
  - assert (E : firstn (S n) full = firstn n full ++ [at' full n]).
    { clear - Hn. revert n Hn. induction full as [|x full IH]; intros n Hn; [cbn in Hn; lia|]. destruct n as [|n]; [reflexivity|].
      cbn [length] in Hn. cbn [firstn] in *. rewrite <- app_comm_cons. f_equal. exact (IH n ltac:(lia)). }
    rewrite E, fold_left_app. cbn [fold_left]. apply process_inv; [assumption|lia|]. apply IH. lia.
Qed.

Lemma flush (full : list buf) : forall k base d s, length (bufs s) = k -> d = k -> kept full base d (bufs s) -> sent_ok full base (sent s) ->
  sent_ok full (base + k) (sent (Nat.iter k (send_front A) s)).
Proof.
  assert (IT : forall k (s : state (V := V) (M := M)), Nat.iter (S k) (send_front A) s = Nat.iter k (send_front A) (send_front A s)).
  { intros k s. unfold Nat.iter. induction k as [|k IH]; [reflexivity|]. cbn [nat_rect] in *. now rewrite IH. }
  induction k as [|k IH]; intros base d s L Hd K S.
  - cbn. now rewrite Nat.add_0_r.
  - rewrite IT. replace (base + Datatypes.S k) with (Datatypes.S base + k) by lia.
    destruct (bufs s) as [|x r] eqn:E; [cbn in L; lia|]. cbn [length] in L.
    unfold send_front at 2. rewrite E. apply (IH _ k).
    + cbn. lia.
    + reflexivity.
    + cbn [bufs]. intros i Hi. specialize (K (Datatypes.S i) ltac:(cbn; lia)). cbn [nth] in K.
      replace (base + Datatypes.S i) with (Datatypes.S base + i) in K by lia.
      destruct (Nat.ltb_spec i k), (Nat.ltb_spec (Datatypes.S i) d); try lia; exact K.
    + cbn [sent]. apply sent_step; [exact S|]. specialize (K 0 ltac:(cbn; lia)). cbn [nth] in K. rewrite Nat.add_0_r in K.
      destruct (Nat.ltb_spec 0 d); [exact K|lia].
Qed.

Lemma run_spec (full : list buf) : Forall wf' full -> sent_ok full (length full) (run A G sched m0 full).
Proof.
  intros WF. unfold run. pose proof (all_inv full WF (length full) ltac:(lia)) as (I1 & I2 & I3 & I4). rewrite firstn_all in *.
  set (s := fold_left (process A G sched m0) full init) in *. unfold finish. cbv zeta. set (n := length full) in *.
  destruct (from_spec full (n - 2 * h) (length (bufs s) - pos s) (pos s) (bufs s)) as (F1 & F2); auto.
  - rewrite I1, I2. destruct (Nat.ltb_spec n (window G)); lia.
  - rewrite I2. destruct (Nat.ltb_spec n (window G)); lia.
  - fold n. lia.
  - fold n. lia.
  - cbn [bufs].
    set (s1 := {| bufs := interpolate_from A G sched m0 (bufs s) (pos s) (length (bufs s) - pos s); pos := pos s + (length (bufs s) - pos s); sent := sent s |}).
    replace n with ((n - 2 * h) + length (interpolate_from A G sched m0 (bufs s) (pos s) (length (bufs s) - pos s))) at 1 by lia.
    apply (flush full _ _ (length (bufs s1))); cbn [bufs s1]; auto.
    intros i Hi. specialize (F2 i Hi).
    destruct (Nat.ltb_spec i (pos s + (length (bufs s) - pos s))); [|rewrite F1 in Hi; lia].
    destruct (Nat.ltb_spec i (length (interpolate_from A G sched m0 (bufs s) (pos s) (length (bufs s) - pos s)))); [exact F2|lia].
Qed.
End Proofs.
