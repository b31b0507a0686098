(** Proofs about the chunks of the Demixer. *)
From Coq Require Import List Arith Bool Lia.
From Verif Require Import DemixTimeModel DemixTimeSpec.
Import ListNotations.

Lemma seq_shift_map a : forall n s, seq (a + s) n = map (fun k => a + k) (seq s n).
Proof. induction n as [|n IH]; intros s; [reflexivity|]. cbn [seq map]. f_equal. rewrite <- IH. f_equal. lia. Qed.
Lemma dm r w : 0 < w -> r = r / w * w + r mod w.
Proof. intros W. rewrite (Nat.mul_comm _ w). apply Nat.div_mod. lia. Qed.
Lemma div_succ r w : 0 < w -> ((r + 1) mod w = 0 /\ (r + 1) / w = r / w + 1 /\ r mod w + 1 = w) \/ ((r + 1) mod w = r mod w + 1 /\ (r + 1) / w = r / w /\ r mod w + 1 < w).
Proof.
  intros W. pose proof (Nat.div_mod r w ltac:(lia)) as E. pose proof (Nat.mod_upper_bound r w ltac:(lia)) as B.
  destruct (Nat.eq_dec (r mod w + 1) w) as [D|D].
  - left. assert (X : r + 1 = w * (r / w + 1) + 0) by (rewrite Nat.mul_add_distr_l; lia).
    pose proof (Nat.div_unique (r + 1) w (r / w + 1) 0 ltac:(lia) X). pose proof (Nat.mod_unique (r + 1) w (r / w + 1) 0 ltac:(lia) X). lia.
  - right. assert (X : r + 1 = w * (r / w) + (r mod w + 1)) by lia.
    pose proof (Nat.div_unique (r + 1) w (r / w) (r mod w + 1) ltac:(lia) X). pose proof (Nat.mod_unique (r + 1) w (r / w) (r mod w + 1) ltac:(lia) X). lia.
Qed.
Lemma groups_ceil w r : 0 < w -> (r mod w = 0 /\ groups w r = r / w) \/ (r mod w <> 0 /\ groups w r = r / w + 1).
Proof.
  intros W. unfold groups. pose proof (dm r (w) ltac:(lia)) as E. pose proof (Nat.mod_upper_bound r w ltac:(lia)) as B.
  destruct (Nat.eq_dec (r mod w) 0) as [D|D]; [left|right]; (split; [exact D|]).
  - symmetry. apply (Nat.div_unique _ w _ (w - 1)); lia.
  - symmetry. apply (Nat.div_unique _ w _ (r mod w - 1)); lia.
Qed.
Lemma groups_mul w m : 0 < w -> groups w (m * w) = m.
Proof. intros W. unfold groups. symmetry. apply (Nat.div_unique _ w _ (w - 1)); lia. Qed.
Lemma groups_add w m r : 0 < w -> groups w (m * w + r) = m + groups w r.
Proof. intros W. unfold groups. replace (m * w + r + w - 1) with (m * w + (r + w - 1)) by lia. rewrite Nat.div_add_l by lia. reflexivity. Qed.

(** Averages *)
Lemma push_spec {A} w size (mk : list nat -> A) b r : 0 < w -> (r + 1) / w <= size ->
  push w size mk (seq (b + r / w * w) (r mod w)) (map (fun k => mk (seq (b + k * w) w)) (seq 0 (r / w))) (b + r) =
  Some (seq (b + (r + 1) / w * w) ((r + 1) mod w), map (fun k => mk (seq (b + k * w) w)) (seq 0 ((r + 1) / w))).
Proof.
  intros W L. unfold push. pose proof (dm r (w) ltac:(lia)) as E.
  replace (seq (b + r / w * w) (r mod w) ++ [b + r]) with (seq (b + r / w * w) (r mod w + 1)).
  2: { rewrite seq_app. cbn [seq]. do 2 f_equal. lia. }
  rewrite seq_length. destruct (div_succ r w W) as [(M & D & R)|(M & D & R)].
  - rewrite M, D, R, Nat.leb_refl. unfold store. rewrite map_length, seq_length. replace (r / w <? size) with true by (symmetry; apply Nat.ltb_lt; lia).
    rewrite seq_app, map_app. reflexivity.
  - rewrite M, D. replace (w <=? r mod w + 1) with false by (symmetry; apply Nat.leb_gt; lia). reflexivity.
Qed.
(** The averages of r slots that start at b, complete or not *)
Definition cells {A} (mk : list nat -> A) (b w r : nat) : list A := map (fun k => mk (seq (b + k * w) (Nat.min w (r - k * w)))) (seq 0 (groups w r)).
Lemma cells_complete {A} (mk : list nat -> A) b w r : 0 < w -> r mod w = 0 -> map (fun k => mk (seq (b + k * w) w)) (seq 0 (r / w)) = cells mk b w r.
Proof.
  intros W M. destruct (groups_ceil w r W) as [[_ G]|[N _]]; [|contradiction]. unfold cells. rewrite G. apply map_ext_in. intros k K. apply in_seq in K.
  pose proof (dm r (w) ltac:(lia)) as E. rewrite Nat.min_l; [reflexivity|]. nia.
Qed.
Lemma cells_rest {A} (mk : list nat -> A) b w r : 0 < w -> r mod w <> 0 -> map (fun k => mk (seq (b + k * w) w)) (seq 0 (r / w)) ++ [mk (seq (b + r / w * w) (r mod w))] = cells mk b w r.
Proof.
  intros W M. destruct (groups_ceil w r W) as [[N _]|[_ G]]; [contradiction|]. unfold cells. rewrite G, seq_app, map_app. cbn [seq map Nat.add].
  pose proof (dm r (w) ltac:(lia)) as E. pose proof (Nat.mod_upper_bound r w ltac:(lia)) as B. f_equal.
  - apply map_ext_in. intros k K. apply in_seq in K. rewrite Nat.min_l; [reflexivity|]. nia.
  - replace (Nat.min w (r - r / w * w)) with (r mod w) by lia. reflexivity.
Qed.
Lemma flush_spec {A} w size (mk : list nat -> A) b r : 0 < w -> groups w r <= size ->
  flush size mk (seq (b + r / w * w) (r mod w)) (map (fun k => mk (seq (b + k * w) w)) (seq 0 (r / w))) = Some (cells mk b w r).
Proof.
  intros W L. unfold flush. rewrite seq_length. destruct (groups_ceil w r W) as [[M G]|[M G]].
  - rewrite M. cbn [Nat.ltb Nat.leb]. f_equal. now apply cells_complete.
  - replace (0 <? r mod w) with true by (symmetry; apply Nat.ltb_lt; lia). unfold store. rewrite map_length, seq_length. replace (r / w <? size) with true by (symmetry; apply Nat.ltb_lt; lia).
    f_equal. now apply cells_rest.
Qed.

(** The subtraction *)
Lemma combine_map {A B} (f : nat -> A) (g : nat -> A -> B) q : map (fun '(i, x) => g i x) (combine (seq 0 (length (map f (seq 0 q)))) (map f (seq 0 q))) = map (fun i => g i (f i)) (seq 0 q).
Proof.
  rewrite map_length, seq_length. generalize 0. induction q as [|q IH]; intros s; [reflexivity|]. cbn [seq map combine]. now rewrite IH.
Qed.
Lemma demix_spec c st mult (G H : nat -> list nat) p q :
  0 < mult -> n_avg c / n_sub c = mult -> q <= p * mult -> (forall ts, ts < p -> mult * ts <= q) -> time_index st + p <= n_demix c ->
  (forall k, k < q -> facs_sub st k = H k) ->
  forall m ts sols, ts + m = p ->
  demix c st ts (map G (seq ts m)) (map (fun k => Cell (H k) (if k <? mult * ts then [(time_index st + k / mult, H k)] else [])) (seq 0 q)) sols =
  Some (map (fun k => Cell (H k) [(time_index st + k / mult, H k)]) (seq 0 q), sols ++ map (fun k => (time_index st + k, G k, facs st k)) (seq ts m)).
Proof.
  intros M E Q R D F. induction m as [|m IH]; intros ts sols P.
  - cbn [seq map demix]. rewrite app_nil_r. f_equal. f_equal. apply map_ext_in. intros k K. apply in_seq in K. replace (k <? mult * ts) with true by (symmetry; apply Nat.ltb_lt; nia). reflexivity.
  - cbn [seq map demix]. rewrite E. replace (n_demix c <=? time_index st + ts) with false by (symmetry; apply Nat.leb_gt; lia).
    unfold subtract_range. rewrite combine_map. rewrite map_length, seq_length.
    replace (Nat.min (mult * ts + mult) q <? mult * ts) with false by (symmetry; apply Nat.ltb_ge; specialize (R ts ltac:(lia)); lia). cbn [slots subtracted].
    rewrite (map_ext_in _ (fun k => Cell (H k) (if k <? mult * S ts then [(time_index st + k / mult, H k)] else []))).
    + rewrite IH by lia. rewrite <- app_assoc. reflexivity.
    + intros k K. apply in_seq in K. destruct (Nat.ltb_spec k (mult * ts)) as [L|L].
      * replace (mult * ts <=? k) with false by (symmetry; apply Nat.leb_gt; lia). cbn [andb]. replace (k <? mult * S ts) with true by (symmetry; apply Nat.ltb_lt; lia). reflexivity.
      * replace (mult * ts <=? k) with true by (symmetry; apply Nat.leb_le; lia). cbn [andb]. destruct (Nat.ltb_spec k (mult * S ts)) as [L2|L2].
        -- replace (k <? Nat.min (mult * ts + mult) q) with true by (symmetry; apply Nat.ltb_lt; lia). rewrite F by lia. cbn [app]. do 3 f_equal. f_equal. symmetry.
           replace (k / mult) with ts; [reflexivity|]. apply (Nat.div_unique k mult ts (k - mult * ts)); lia.
        -- replace (k <? Nat.min (mult * ts + mult) q) with false by (symmetry; apply Nat.ltb_ge; lia). reflexivity.
Qed.

Section Run.
Variables (c : conf) (mult : nat).
Hypothesis M0 : 0 < mult.
Hypothesis S0 : 0 < n_sub c.
Hypothesis C0 : 0 < chunk c.
Hypothesis AV : n_avg c = mult * n_sub c.
Hypothesis CS : chunk_sub c = chunk c * mult.
Let N := chunk c * n_avg c.
Lemma A0 : 0 < n_avg c. Proof. rewrite AV. nia. Qed.
Lemma mult_eq : n_avg c / n_sub c = mult. Proof. rewrite AV. apply Nat.div_mul. lia. Qed.
Lemma N_sub : N = chunk c * mult * n_sub c. Proof. unfold N. rewrite AV. ring. Qed.

(** The output grows by the averages of r slots *)
Lemma output_grows b r j : b = j * N -> r <= N ->
  expected_output c b ++ map (fun k => Cell (seq (b + k * n_sub c) (Nat.min (n_sub c) (r - k * n_sub c))) (if models c then [(j * chunk c + k / mult, seq (b + k * n_sub c) (Nat.min (n_sub c) (r - k * n_sub c)))] else [])) (seq 0 (groups (n_sub c) r)) =
  expected_output c (b + r).
Proof.
  intros E R. pose proof A0 as A0. unfold expected_output. assert (B : b = (j * chunk c * mult) * n_sub c) by (rewrite E, N_sub; ring).
  rewrite B, groups_mul, groups_add by exact S0. rewrite (seq_app (j * chunk c * mult)), map_app, Nat.add_0_l. f_equal.
  - apply map_ext_in. intros k K. apply in_seq in K. unfold group. replace (Nat.min (n_sub c) (j * chunk c * mult * n_sub c + r - k * n_sub c)) with (n_sub c) by nia.
    replace (Nat.min (n_sub c) (j * chunk c * mult * n_sub c - k * n_sub c)) with (n_sub c) by nia. reflexivity.
  - replace (seq (j * chunk c * mult) (groups (n_sub c) r)) with (map (fun k => j * chunk c * mult + k) (seq 0 (groups (n_sub c) r))) by (rewrite <- seq_shift_map; f_equal; lia). rewrite map_map. apply map_ext. intros k. unfold group.
    replace ((j * chunk c * mult + k) * n_sub c) with (j * chunk c * mult * n_sub c + k * n_sub c) by ring.
    replace (j * chunk c * mult * n_sub c + r - (j * chunk c * mult * n_sub c + k * n_sub c)) with (r - k * n_sub c) by lia.
    replace ((j * chunk c * mult * n_sub c + k * n_sub c) / n_avg c) with (j * chunk c + k / mult); [reflexivity|].
    replace (j * chunk c * mult * n_sub c + k * n_sub c) with ((j * chunk c * mult + k) * n_sub c) by ring. rewrite AV, Nat.div_mul_cancel_r by lia. now rewrite Nat.div_add_l by lia.
Qed.
Lemma solutions_grow b r j : b = j * N -> r <= N -> models c = true ->
  expected_solutions c b ++ map (fun k => (j * chunk c + k, seq (b + k * n_avg c) (Nat.min (n_avg c) (r - k * n_avg c)), seq (b + k * n_avg c) (Nat.min (n_avg c) (r - k * n_avg c)))) (seq 0 (groups (n_avg c) r)) =
  expected_solutions c (b + r).
Proof.
  intros E R MD. pose proof A0 as A0. unfold expected_solutions. rewrite MD. assert (B : b = (j * chunk c) * n_avg c) by (rewrite E; unfold N; ring).
  rewrite B, groups_mul, groups_add by exact A0. rewrite (seq_app (j * chunk c)), map_app, Nat.add_0_l. f_equal.
  - apply map_ext_in. intros k K. apply in_seq in K. unfold group. replace (Nat.min (n_avg c) (j * chunk c * n_avg c + r - k * n_avg c)) with (n_avg c) by nia.
    replace (Nat.min (n_avg c) (j * chunk c * n_avg c - k * n_avg c)) with (n_avg c) by nia. reflexivity.
  - replace (seq (j * chunk c) (groups (n_avg c) r)) with (map (fun k => j * chunk c + k) (seq 0 (groups (n_avg c) r))) by (rewrite <- seq_shift_map; f_equal; lia). rewrite map_map. apply map_ext. intros k. unfold group.
    replace ((j * chunk c + k) * n_avg c) with (j * chunk c * n_avg c + k * n_avg c) by ring.
    replace (j * chunk c * n_avg c + r - (j * chunk c * n_avg c + k * n_avg c)) with (r - k * n_avg c) by lia. reflexivity.
Qed.
Lemma groups_mult r : groups (n_sub c) r <= groups (n_avg c) r * mult /\ forall ts, ts < groups (n_avg c) r -> mult * ts <= groups (n_sub c) r.
Proof.
  pose proof A0 as A0. unfold groups.
  assert (X : (n_sub c) * ((r + n_sub c - 1) / n_sub c) <= r + n_sub c - 1) by (apply Nat.mul_div_le; lia).
  assert (Y : r + n_avg c - 1 < n_avg c * (S ((r + n_avg c - 1) / n_avg c))) by (apply Nat.mul_succ_div_gt; lia).
  assert (X2 : (n_avg c) * ((r + n_avg c - 1) / n_avg c) <= r + n_avg c - 1) by (apply Nat.mul_div_le; lia).
  assert (Y2 : r + n_sub c - 1 < n_sub c * (S ((r + n_sub c - 1) / n_sub c))) by (apply Nat.mul_succ_div_gt; lia).
  set (q := (r + n_sub c - 1) / n_sub c) in *. set (p := (r + n_avg c - 1) / n_avg c) in *. rewrite AV in *. split.
  - assert (r <= mult * n_sub c * p) by nia. assert (n_sub c * q <= mult * n_sub c * p + n_sub c - 1) by lia. apply Nat.nlt_ge. intros L. assert (n_sub c * (p * mult + 1) <= n_sub c * q) by (apply Nat.mul_le_mono_l; lia). nia.
  - intros ts T. assert (mult * n_sub c * (ts + 1) <= mult * n_sub c * p) by (apply Nat.mul_le_mono_l; lia). assert (Z : mult * n_sub c * ts < r) by lia. apply Nat.nlt_ge. intros L.
    assert (n_sub c * S q <= n_sub c * (mult * ts)) by (apply Nat.mul_le_mono_l; lia). nia.
Qed.

(** A state in which the averages of r slots from b = j * N are complete *)
Record ready (st : state) (j r : nat) : Prop := {
  rd_sub : n_out_sub st = groups (n_sub c) r;
  rd_time : time_index st = j * chunk c;
  rd_res : results st = cells (fun p => p) (j * N) (n_avg c) r;
  rd_res_sub : results_sub st = cells (fun p => Cell p []) (j * N) (n_sub c) r;
  rd_facs : forall k, k < groups (n_avg c) r -> facs st k = seq (j * N + k * n_avg c) (Nat.min (n_avg c) (r - k * n_avg c));
  rd_facs_sub : forall k, k < groups (n_sub c) r -> facs_sub st k = seq (j * N + k * n_sub c) (Nat.min (n_sub c) (r - k * n_sub c));
  rd_sols : solutions st = expected_solutions c (j * N);
  rd_out : output st = expected_output c (j * N) }.
Lemma handle_spec st j r : ready st j r -> r <= N -> j * chunk c + groups (n_avg c) r <= n_demix c ->
  handle c st = Some (State 0 0 0 (j * chunk c + chunk c) (pending st) [] (pending_sub st) [] (f_buf st) (f_buf_sub st) (facs st) (facs_sub st) (expected_solutions c (j * N + r)) (expected_output c (j * N + r))).
Proof.
  intros [E1 E2 E3 E4 E5 E6 E7 E8] R D. unfold handle. set (q := groups (n_sub c) r) in *. set (p := groups (n_avg c) r) in *.
  set (H := fun k => seq (j * N + k * n_sub c) (Nat.min (n_sub c) (r - k * n_sub c))) in *. set (G := fun k => seq (j * N + k * n_avg c) (Nat.min (n_avg c) (r - k * n_avg c))) in *.
  assert (X : (if models c then demix c st 0 (results st) (results_sub st) (solutions st) else Some (results_sub st, solutions st)) =
    Some (map (fun k => Cell (H k) (if models c then [(j * chunk c + k / mult, H k)] else [])) (seq 0 q), expected_solutions c (j * N + r))).
  { destruct (models c) eqn:MD.
    - pose proof (groups_mult r) as [Q1 Q2]. fold p q in Q1, Q2. rewrite E3, E4. unfold cells. fold p q.
      pose proof (demix_spec c st mult G H p q M0 mult_eq Q1 Q2 ltac:(lia) E6 p 0 (solutions st) eq_refl) as P.
      rewrite (map_ext _ (fun k => Cell (H k) []) (fun k => f_equal (Cell (H k)) (eq_refl : (if k <? mult * 0 then _ else []) = _))) in P || idtac.
      assert (Z : map (fun k => Cell (H k) (if k <? mult * 0 then [(time_index st + k / mult, H k)] else [])) (seq 0 q) = map (fun k => Cell (H k) []) (seq 0 q)).
      { apply map_ext. intros k. rewrite Nat.mul_0_r. reflexivity. }
      rewrite Z in P. fold G in P. etransitivity; [exact P|]. rewrite E2, E7. do 2 f_equal. rewrite <- (solutions_grow (j * N) r j eq_refl R MD). fold p. f_equal.
      apply map_ext_in. intros k K. apply in_seq in K. rewrite E5 by lia. reflexivity.
    - rewrite E4, E7. unfold cells. fold q H. f_equal. f_equal. unfold expected_solutions. now rewrite MD. }
  rewrite X, E1, E2, E8. rewrite map_length, seq_length. replace (q <? q) with false by (symmetry; apply Nat.ltb_irrefl). f_equal. f_equal.
  rewrite firstn_all2 by (rewrite map_length, seq_length; lia). rewrite <- (output_grows (j * N) r j eq_refl R). reflexivity.
Qed.

(** The state after j chunks and r slots of the next one *)
Record inv (st : state) (j r : nat) : Prop := {
  i_in : n_in st = r; i_out : n_out st = r / n_avg c; i_sub : n_out_sub st = r / n_sub c; i_time : time_index st = j * chunk c;
  i_pend : pending st = seq (j * N + r / n_avg c * n_avg c) (r mod n_avg c);
  i_res : results st = map (fun k => seq (j * N + k * n_avg c) (n_avg c)) (seq 0 (r / n_avg c));
  i_pend_sub : pending_sub st = seq (j * N + r / n_sub c * n_sub c) (r mod n_sub c);
  i_res_sub : results_sub st = map (fun k => Cell (seq (j * N + k * n_sub c) (n_sub c)) []) (seq 0 (r / n_sub c));
  i_buf : f_buf st = seq (j * N + r / n_avg c * n_avg c) (r mod n_avg c);
  i_buf_sub : f_buf_sub st = seq (j * N + r / n_sub c * n_sub c) (r mod n_sub c);
  i_facs : forall k, k < r / n_avg c -> facs st k = seq (j * N + k * n_avg c) (n_avg c);
  i_facs_sub : forall k, k < r / n_sub c -> facs_sub st k = seq (j * N + k * n_sub c) (n_sub c);
  i_sols : solutions st = expected_solutions c (j * N); i_outp : output st = expected_output c (j * N) }.
Lemma buf_grows b w r : 0 < w -> seq (b + r / w * w) (r mod w) ++ [b + r] = seq (b + r / w * w) (r mod w + 1).
Proof. intros W. rewrite seq_app. cbn [seq]. pose proof (dm r (w) ltac:(lia)). do 2 f_equal. lia. Qed.
Lemma parts_spec st j r : inv st j r -> r < N ->
  let st0 := State (r + 1) (n_out st) (n_out_sub st) (time_index st) (seq (j * N + (r + 1) / n_avg c * n_avg c) ((r + 1) mod n_avg c)) (map (fun k => seq (j * N + k * n_avg c) (n_avg c)) (seq 0 ((r + 1) / n_avg c)))
     (seq (j * N + (r + 1) / n_sub c * n_sub c) ((r + 1) mod n_sub c)) (map (fun k => Cell (seq (j * N + k * n_sub c) (n_sub c)) []) (seq 0 ((r + 1) / n_sub c)))
     (f_buf st ++ [j * N + r]) (f_buf_sub st ++ [j * N + r]) (facs st) (facs_sub st) (solutions st) (output st) in
  exists st', when ((r + 1) mod n_sub c =? 0) (fun st => subtract_part c st true) (when ((r + 1) mod n_avg c =? 0) (fun st => solve_part c st true) (Some st0)) = Some st' /\ inv st' j (r + 1).
Proof.
  intros I R st0. pose proof A0 as A0. destruct I. pose proof (div_succ r (n_avg c) A0) as DA. pose proof (div_succ r (n_sub c) S0) as DS.
  assert (LA : r / n_avg c < chunk c) by (apply Nat.div_lt_upper_bound; [lia|]; unfold N in R; lia).
  assert (LS : r / n_sub c < chunk_sub c) by (apply Nat.div_lt_upper_bound; [lia|]; rewrite CS; rewrite N_sub in R; lia).
  assert (X : exists st1, when ((r + 1) mod n_avg c =? 0) (fun st => solve_part c st true) (Some st0) = Some st1 /\
    n_in st1 = r + 1 /\ n_out st1 = (r + 1) / n_avg c /\ n_out_sub st1 = r / n_sub c /\ time_index st1 = j * chunk c /\ pending st1 = pending st0 /\ results st1 = results st0 /\ pending_sub st1 = pending_sub st0 /\ results_sub st1 = results_sub st0 /\
    f_buf st1 = seq (j * N + (r + 1) / n_avg c * n_avg c) ((r + 1) mod n_avg c) /\ f_buf_sub st1 = f_buf_sub st ++ [j * N + r] /\
    (forall k, k < (r + 1) / n_avg c -> facs st1 k = seq (j * N + k * n_avg c) (n_avg c)) /\ facs_sub st1 = facs_sub st /\ solutions st1 = solutions st /\ output st1 = output st).
  { destruct DA as [(M & D & W)|(M & D & W)].
    - rewrite M, D. cbn [Nat.eqb when]. unfold solve_part. cbn [n_out st0 results]. rewrite i_out0, map_length, seq_length, D.
      replace (r / n_avg c <? chunk c) with true by (symmetry; now apply Nat.ltb_lt). replace (r / n_avg c <? r / n_avg c + 1) with true by (symmetry; apply Nat.ltb_lt; lia). cbn [andb].
      eexists. split; [reflexivity|]. cbn [n_in n_out n_out_sub time_index pending results pending_sub results_sub f_buf f_buf_sub facs facs_sub solutions output].
      rewrite ?D, ?M. repeat (split; [first [reflexivity | assumption | rewrite i_sub0; reflexivity]|]).
      split; [|auto]. intros k K. unfold put. destruct (Nat.eqb_spec k (r / n_avg c)) as [->|Nk].
      + unfold st0. cbn [f_buf]. rewrite i_buf0, buf_grows, W by exact A0. reflexivity.
      + apply i_facs0. lia.
    - rewrite M, D. replace (r mod n_avg c + 1 =? 0) with false by (symmetry; apply Nat.eqb_neq; lia). cbn [when]. exists st0. split; [reflexivity|].
      cbn [n_in n_out n_out_sub time_index pending results pending_sub results_sub f_buf f_buf_sub facs facs_sub solutions output st0].
      repeat (split; [first [reflexivity | assumption | rewrite i_buf0, buf_grows by exact A0; reflexivity]|]). repeat split; auto. }
  destruct X as (st1 & X & Y1 & Y2 & Y3 & Y4 & Y5 & Y6 & Y7 & Y8 & Y9 & Y10 & Y11 & Y12 & Y13 & Y14). rewrite X. clear X.
  cbn [pending results pending_sub results_sub st0] in Y5, Y6, Y7, Y8. clear st0.
  destruct DS as [(M & D & W)|(M & D & W)].
  - rewrite M. cbn [Nat.eqb when]. unfold subtract_part. rewrite Y3, Y8, map_length, seq_length, D.
    replace (r / n_sub c <? chunk_sub c) with true by (symmetry; now apply Nat.ltb_lt). replace (r / n_sub c <? r / n_sub c + 1) with true by (symmetry; apply Nat.ltb_lt; lia). cbn [andb].
    eexists. split; [reflexivity|]. constructor; cbn [n_in n_out n_out_sub time_index pending results pending_sub results_sub f_buf f_buf_sub facs facs_sub solutions output]; rewrite ?D, ?M; auto; try congruence.
    all: try (rewrite Y7, M, D; reflexivity).
    + intros k K. unfold put. destruct (Nat.eqb_spec k (r / n_sub c)) as [->|Nk].
      * rewrite Y10, i_buf_sub0, buf_grows, W by exact S0. reflexivity.
      * rewrite Y12. apply i_facs_sub0. lia.
  - rewrite M. replace (r mod n_sub c + 1 =? 0) with false by (symmetry; apply Nat.eqb_neq; lia). cbn [when]. exists st1. split; [reflexivity|].
    constructor; auto; try congruence.
    + rewrite Y10, i_buf_sub0, buf_grows, D, M by exact S0. reflexivity.
    + intros k K. rewrite Y12. apply i_facs_sub0. lia.
Qed.
Lemma process_spec st j r : inv st j r -> r < N -> j * chunk c + groups (n_avg c) (r + 1) <= n_demix c ->
  exists st', process c st (j * N + r) = Some st' /\ (if r + 1 =? N then inv st' (j + 1) 0 else inv st' j (r + 1)).
Proof.
  intros I R D. pose proof A0 as A0. unfold process. pose proof I as J. destruct J.
  assert (LA : (r + 1) / n_avg c <= chunk c) by (apply Nat.div_le_upper_bound; [lia|]; unfold N in R; lia).
  assert (LS : (r + 1) / n_sub c <= chunk_sub c) by (apply Nat.div_le_upper_bound; [lia|]; rewrite CS; rewrite N_sub in R; lia).
  rewrite i_pend0, i_res0, i_pend_sub0, i_res_sub0.
  rewrite (push_spec (n_avg c) (chunk c) (fun p => p) (j * N) r A0 LA). rewrite (push_spec (n_sub c) (chunk_sub c) (fun p => Cell p []) (j * N) r S0 LS). rewrite i_in0.
  destruct (parts_spec st j r I R) as (st' & E & I'). cbv zeta in E. rewrite E. clear E. rewrite (i_out _ _ _ I').
  destruct (Nat.eqb_spec (r + 1) N) as [F|F].
  - rewrite F. unfold N at 1. rewrite Nat.div_mul, Nat.leb_refl by lia.
    assert (MA : N mod n_avg c = 0) by (unfold N; apply Nat.mod_mul; lia). assert (MS : N mod n_sub c = 0) by (rewrite N_sub; apply Nat.mod_mul; lia).
    assert (DA : N / n_avg c = chunk c) by (unfold N; apply Nat.div_mul; lia). assert (DS : N / n_sub c = chunk c * mult) by (rewrite N_sub; apply Nat.div_mul; lia).
    assert (GA : groups (n_avg c) N = chunk c) by (unfold N; apply groups_mul; lia). assert (GS : groups (n_sub c) N = chunk c * mult) by (rewrite N_sub; apply groups_mul; lia).
    destruct I'. rewrite F in *.
    assert (RD : ready st' j N).
    { constructor; auto.
      - rewrite i_sub1. now rewrite GS.
      - rewrite i_res1. now apply (cells_complete (fun p => p)).
      - rewrite i_res_sub1. now apply (cells_complete (fun p => Cell p [])).
      - intros k K. rewrite i_facs1 by lia. f_equal. unfold N. nia.
      - intros k K. rewrite i_facs_sub1 by lia. f_equal. rewrite N_sub. nia. }
    rewrite (handle_spec st' j N RD (le_n N)) by exact D. eexists. split; [reflexivity|].
    assert (Z : forall w, 0 < w -> 0 / w = 0 /\ 0 mod w = 0) by (intros w W; split; [apply Nat.div_0_l; lia|apply Nat.mod_0_l; lia]).
    destruct (Z _ A0) as [Z1 Z2]. destruct (Z _ S0) as [Z3 Z4].
    replace (j * N + N) with ((j + 1) * N) by ring.
    constructor; cbn [n_in n_out n_out_sub time_index pending results pending_sub results_sub f_buf f_buf_sub facs facs_sub solutions output]; rewrite ?Z1, ?Z2, ?Z3, ?Z4; auto; try (intros; lia).
    + rewrite i_pend1, MA. reflexivity.
    + rewrite i_pend_sub1, MS. reflexivity.
    + rewrite i_buf1, MA. reflexivity.
    + rewrite i_buf_sub1, MS. reflexivity.
  - replace (chunk c <=? (r + 1) / n_avg c) with false.
    + exists st'. split; [reflexivity|exact I'].
    + symmetry. apply Nat.leb_gt. apply Nat.div_lt_upper_bound; [lia|]. unfold N in *. lia.
Qed.
Lemma N_pos : 0 < N. Proof. pose proof A0. unfold N. nia. Qed.
Lemma inv_init : inv init 0 0.
Proof.
  pose proof A0 as A0. constructor; cbn [init n_in n_out n_out_sub time_index pending results pending_sub results_sub f_buf f_buf_sub facs facs_sub solutions output]; rewrite ?Nat.div_0_l, ?Nat.mod_0_l by lia; auto; try (intros; lia).
  - unfold expected_solutions. destruct (models c); [|reflexivity]. change (0 * N) with (0 * n_avg c). now rewrite groups_mul.
  - unfold expected_output. change (0 * N) with (0 * n_sub c). now rewrite groups_mul.
Qed.
Lemma steps_spec n : groups (n_avg c) n <= n_demix c ->
  exists st, fold_left (fun st x => match st with Some st => process c st x | None => None end) (seq 0 n) (Some init) = Some st /\ inv st (n / N) (n mod N).
Proof.
  pose proof N_pos as NP. pose proof A0 as A0. induction n as [|n IH]; intros D.
  - exists init. rewrite Nat.div_0_l, Nat.mod_0_l by lia. split; [reflexivity|exact inv_init].
  - assert (L : groups (n_avg c) n <= groups (n_avg c) (S n)) by (unfold groups; apply Nat.div_le_mono; lia).
    destruct (IH ltac:(lia)) as (st & E & I). rewrite seq_S, fold_left_app, E. cbn [fold_left]. rewrite Nat.add_0_l.
    pose proof (dm n (N) ltac:(lia)) as DM. pose proof (Nat.mod_upper_bound n N ltac:(lia)) as B.
    assert (X : n = n / N * N + n mod N) by lia.
    destruct (process_spec st (n / N) (n mod N) I B) as (st' & P & Q).
    { rewrite <- (groups_add (n_avg c)) by exact A0. replace (n / N * chunk c * n_avg c + (n mod N + 1)) with (S n); [exact D|]. replace (n / N * chunk c * n_avg c) with (n / N * N) by (unfold N at 2; ring). lia. }
    rewrite <- X in P. rewrite P. exists st'. split; [reflexivity|]. replace (S n) with (n + 1) by lia. destruct (div_succ n N NP) as [(M & D' & W)|(M & D' & W)]; rewrite M, D'.
    + replace (n mod N + 1 =? N) with true in Q by (symmetry; apply Nat.eqb_eq; lia). exact Q.
    + replace (n mod N + 1 =? N) with false in Q by (symmetry; apply Nat.eqb_neq; lia). exact Q.
Qed.
Lemma finish_spec st j r : inv st j r -> r < N -> j * chunk c + groups (n_avg c) r <= n_demix c ->
  exists st', finish c st = Some st' /\ output st' = expected_output c (j * N + r) /\ solutions st' = expected_solutions c (j * N + r).
Proof.
  intros I R D. pose proof A0 as A0. unfold finish. destruct I. rewrite i_in0. destruct (Nat.eqb_spec r 0) as [->|Rn].
  - exists st. rewrite Nat.add_0_r. auto.
  - assert (LA : groups (n_avg c) r <= chunk c).
    { unfold groups. apply Nat.lt_succ_r. apply Nat.div_lt_upper_bound; [lia|]. unfold N in R. nia. }
    assert (LS : groups (n_sub c) r <= chunk_sub c).
    { unfold groups. apply Nat.lt_succ_r. apply Nat.div_lt_upper_bound; [lia|]. rewrite CS. rewrite N_sub in R. nia. }
    rewrite i_pend0, i_res0, i_pend_sub0, i_res_sub0.
    rewrite (flush_spec (n_avg c) (chunk c) (fun p => p) (j * N) r A0 LA). rewrite (flush_spec (n_sub c) (chunk_sub c) (fun p => Cell p []) (j * N) r S0 LS).
    set (st0 := State r _ _ _ _ _ _ _ _ _ _ _ _ _).
    pose proof (dm r (n_avg c) ltac:(lia)) as EA. pose proof (Nat.mod_upper_bound r (n_avg c) ltac:(lia)) as BA.
    pose proof (dm r (n_sub c) ltac:(lia)) as ES. pose proof (Nat.mod_upper_bound r (n_sub c) ltac:(lia)) as BS.
    assert (X : exists st1, when (negb (r mod n_avg c =? 0)) (fun st => solve_part c st false) (Some st0) = Some st1 /\
      n_out_sub st1 = r / n_sub c /\ time_index st1 = j * chunk c /\ results st1 = results st0 /\ results_sub st1 = results_sub st0 /\ f_buf_sub st1 = f_buf_sub st /\
      (forall k, k < groups (n_avg c) r -> facs st1 k = seq (j * N + k * n_avg c) (Nat.min (n_avg c) (r - k * n_avg c))) /\ facs_sub st1 = facs_sub st /\ solutions st1 = solutions st /\ output st1 = output st).
    { destruct (groups_ceil (n_avg c) r A0) as [[M G]|[M G]].
      - rewrite M. cbn [Nat.eqb negb when]. exists st0. split; [reflexivity|]. cbn [n_out_sub time_index results results_sub f_buf_sub facs facs_sub solutions output st0].
        repeat (split; [first [reflexivity|assumption]|]). split; [|auto]. intros k K. rewrite i_facs0 by lia. f_equal. nia.
      - replace (r mod n_avg c =? 0) with false by (symmetry; now apply Nat.eqb_neq). cbn [negb when]. unfold solve_part. cbn [n_out st0 results]. rewrite i_out0. unfold cells at 1. rewrite map_length, seq_length, G.
        replace (r / n_avg c <? chunk c) with true by (symmetry; apply Nat.ltb_lt; lia). replace (r / n_avg c <? r / n_avg c + 1) with true by (symmetry; apply Nat.ltb_lt; lia). cbn [andb].
        eexists. split; [reflexivity|]. cbn [n_out_sub time_index results results_sub f_buf_sub facs facs_sub solutions output f_buf].
        repeat (split; [first [reflexivity|assumption]|]). split; [|auto]. intros k K. unfold put. destruct (Nat.eqb_spec k (r / n_avg c)) as [->|Nk].
        + unfold st0. cbn [f_buf]. rewrite i_buf0. f_equal. nia.
        + unfold st0. cbn [facs]. rewrite i_facs0 by lia. f_equal. nia. }
    destruct X as (st1 & X & Y1 & Y2 & Y3 & Y4 & Y5 & Y6 & Y7 & Y8 & Y9). rewrite X. clear X. cbn [results results_sub st0] in Y3, Y4. clear st0.
    assert (X : exists st2, when (negb (r mod n_sub c =? 0)) (fun st => subtract_part c st false) (Some st1) = Some st2 /\ ready st2 j r).
    { destruct (groups_ceil (n_sub c) r S0) as [[M G]|[M G]].
      - rewrite M. cbn [Nat.eqb negb when]. exists st1. split; [reflexivity|]. constructor; auto; try congruence. intros k K. rewrite Y7, i_facs_sub0 by lia. f_equal. nia.
      - replace (r mod n_sub c =? 0) with false by (symmetry; now apply Nat.eqb_neq). cbn [negb when]. unfold subtract_part. rewrite Y1, Y4. unfold cells at 1. rewrite map_length, seq_length, G.
        replace (r / n_sub c <? chunk_sub c) with true by (symmetry; apply Nat.ltb_lt; lia). replace (r / n_sub c <? r / n_sub c + 1) with true by (symmetry; apply Nat.ltb_lt; lia). cbn [andb].
        eexists. split; [reflexivity|]. constructor; cbn [n_out_sub time_index results results_sub f_buf_sub facs facs_sub solutions output]; auto; try congruence.
        intros k K. unfold put. destruct (Nat.eqb_spec k (r / n_sub c)) as [->|Nk].
        + rewrite Y5, i_buf_sub0. f_equal. nia.
        + rewrite Y7, i_facs_sub0 by lia. f_equal. nia. }
    destruct X as (st2 & X & RD). rewrite X. rewrite (handle_spec st2 j r RD) by (auto; lia). eexists. split; [reflexivity|]. split; reflexivity.
Qed.
Lemma run_spec n : groups (n_avg c) n <= n_demix c -> exists st, run c n = Some st /\ output st = expected_output c n /\ solutions st = expected_solutions c n.
Proof.
  intros D. pose proof N_pos as NP. pose proof A0 as A0. destruct (steps_spec n D) as (st & E & I). unfold run. rewrite E.
  pose proof (dm n (N) ltac:(lia)) as DM. pose proof (Nat.mod_upper_bound n N ltac:(lia)) as B. assert (X : n = n / N * N + n mod N) by lia.
  destruct (finish_spec st (n / N) (n mod N) I B) as (st' & F & P & Q).
  - rewrite <- (groups_add (n_avg c)) by exact A0. replace (n / N * chunk c * n_avg c) with (n / N * N) by (unfold N at 2; ring). now rewrite <- X.
  - exists st'. rewrite <- X in P, Q. auto.
Qed.
End Run.
