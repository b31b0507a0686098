(** Proofs about the data that the solvers get. *)
From Coq Require Import QArith Qround Qcanon List Bool Arith ZArith Lia.
From Verif Require Import QcUtil InfoModel InfoProofs AverageModel SolveDataModel SolveDataSpec.
Import ListNotations.
Open Scope nat_scope.

(** * Channel blocks *)
Lemma block_of_spec n N ch cb : 0 < N -> ch < n -> (block_of n N ch = cb <-> channel_begin n N cb <= ch < channel_begin n N (S cb)).
Proof.
  intros HN Hc. unfold block_of, channel_begin.
  assert (A : S ch <= S cb * n / N <-> S ch * N <= S cb * n).
  { split; intros H.
    - pose proof (Nat.mul_div_le (S cb * n) N ltac:(lia)). nia.
    - apply Nat.div_le_lower_bound; lia. }
  assert (B : cb * n / N <= ch <-> cb * n < S ch * N).
  { split; intros H.
    - pose proof (Nat.mul_succ_div_gt (cb * n) N ltac:(lia)). nia.
    - apply Nat.lt_succ_r, Nat.div_lt_upper_bound; lia. }
  assert (C : 0 < S ch * N) by lia. split.
  - intros E. pose proof (Nat.div_mod (S ch * N - 1) n ltac:(lia)) as D. rewrite E in D. pose proof (Nat.mod_upper_bound (S ch * N - 1) n ltac:(lia)). nia.
  - intros [H1 H2]. apply B in H1. apply (proj1 A) in H2. symmetry. apply (Nat.div_unique _ _ _ (S ch * N - 1 - n * cb)); nia.
Qed.
Lemma block_of_lt n N ch : 0 < N -> ch < n -> block_of n N ch < N.
Proof. intros HN Hc. unfold block_of. apply Nat.div_lt_upper_bound; nia. Qed.
Lemma begin_le n N cb : 0 < N -> channel_begin n N cb <= channel_begin n N (S cb).
Proof. intros. unfold channel_begin. apply Nat.div_le_mono; nia. Qed.
Lemma begin_N n N : 0 < N -> channel_begin n N N = n.
Proof. intros. unfold channel_begin. rewrite Nat.mul_comm, Nat.div_mul; lia. Qed.
Lemma begin_bound n N cb : 0 < N -> cb < N -> channel_begin n N (S cb) <= n.
Proof. intros. rewrite <- (begin_N n N) at 2 by auto. unfold channel_begin. apply Nat.div_le_mono; nia. Qed.
Lemma filter_interval a b n : a <= b <= n -> filter (fun i => (a <=? i) && (i <? b)) (seq 0 n) = seq a (b - a).
Proof.
  intros H. replace n with (a + ((b - a) + (n - b))) by lia. rewrite !seq_app, !filter_app. cbn [Nat.add].
  assert (F0 : forall f l, (forall x : nat, In x l -> f x = false) -> filter f l = []).
  { intros f l. induction l as [|x l IH]; intros G; [reflexivity|]. cbn. rewrite G by now left. apply IH. intros; apply G; now right. }
  assert (F1 : forall f l, (forall x : nat, In x l -> f x = true) -> filter f l = l).
  { intros f l. induction l as [|x l IH]; intros G; [reflexivity|]. cbn. rewrite G by now left. f_equal. apply IH. intros; apply G; now right. }
  rewrite (F0 _ (seq 0 a)), (F1 _ (seq a (b - a))), (F0 _ (seq (a + (b - a)) (n - b))); [now rewrite app_nil_r| | |];
    intros x I; apply in_seq in I; destruct (Nat.leb_spec a x), (Nat.ltb_spec x b); cbn; auto; lia.
Qed.
Lemma map_add_seq a m : map (fun i => a + i) (seq 0 m) = seq a m.
Proof.
  revert a. induction m as [|m IH]; intros a; [reflexivity|]. cbn [seq map]. rewrite Nat.add_0_r. f_equal. rewrite <- (IH (S a)), <- (seq_shift m 0), map_map.
  apply map_ext. intros; lia.
Qed.
Lemma channels_of_spec n N cb : 0 < N -> cb < N -> channels_of n N cb = map (fun i => channel_begin n N cb + i) (seq 0 (channel_begin n N (S cb) - channel_begin n N cb)).
Proof.
  intros HN Hc. unfold channels_of. rewrite (filter_ext_in _ (fun i => (channel_begin n N cb <=? i) && (i <? channel_begin n N (S cb)))).
  - rewrite filter_interval by (split; [now apply begin_le|now apply begin_bound]).
    rewrite <- map_add_seq. reflexivity.
  - intros ch I. apply in_seq in I. pose proof (block_of_spec n N ch cb HN ltac:(lia)) as E.
    destruct (Nat.eqb_spec (block_of n N ch) cb), (Nat.leb_spec (channel_begin n N cb) ch), (Nat.ltb_spec ch (channel_begin n N (S cb))); cbn; auto; lia.
Qed.
Lemma channels_of_length n N cb : 0 < N -> cb < N -> length (channels_of n N cb) = channel_begin n N (S cb) - channel_begin n N cb.
Proof. intros. rewrite channels_of_spec by auto. now rewrite map_length, seq_length. Qed.

(** * Filling *)
Section Fill.
Context {M W : Type}.
Notation visibility := (@visibility M W).
Notation block := (@block M W).
Lemma write_all_spec (l : list visibility) : forall (done : list visibility) rest, length l <= rest ->
  write_all (map Some done ++ repeat None rest : block) (length done) l = Ok (map Some (done ++ l) ++ repeat None (rest - length l)).
Proof.
  induction l as [|x l IH]; intros done rest H; cbn [write_all].
  - now rewrite app_nil_r, Nat.sub_0_r.
  - unfold write. rewrite app_length, map_length, repeat_length. cbn in H. destruct (Nat.ltb_spec (length done) (length done + rest)) as [_|G]; [|lia].
    destruct rest as [|rest]; [lia|]. cbn [repeat].
    assert (E : set_nth (map Some done ++ None :: repeat None rest) (length done) (Some x) = map Some (done ++ [x]) ++ repeat None rest).
    { clear. induction done as [|y done IH]; cbn; [reflexivity|]. now rewrite IH. }
    rewrite E. replace (S (length done)) with (length (done ++ [x])) by (rewrite app_length; cbn; lia).
    rewrite IH by lia. now rewrite <- app_assoc.
Qed.

Definition chunk (N : nat) (u : @sample M W) (cb : nat) : list visibility := map (stored u) (channels_of (channels u) N cb).
Definition state_of (full part : nat -> list visibility) (N : nat) (cbs : list nat) : list (block * nat) :=
  map (fun cb => (map Some (part cb) ++ repeat None (length (full cb) - length (part cb)), length (part cb))) cbs.
Lemma fill_blocks_spec N (u : @sample M W) full part k : forall cb, 0 < N -> cb + k <= N ->
  (forall c, cb <= c < cb + k -> length (part c) + length (chunk N u c) <= length (full c)) ->
  fill_blocks N u cb (state_of full part N (seq cb k)) = Ok (state_of full (fun c => part c ++ chunk N u c) N (seq cb k)).
Proof.
  induction k as [|k IH]; intros cb HN Hk H; [reflexivity|]. cbn [seq state_of map fill_blocks].
  assert (E : map (fun i => stored u (channel_begin (channels u) N cb + i)) (seq 0 (channel_begin (channels u) N (S cb) - channel_begin (channels u) N cb)) = chunk N u cb).
  { unfold chunk. rewrite channels_of_spec by lia. now rewrite map_map. }
  assert (L : length (chunk N u cb) = channel_begin (channels u) N (S cb) - channel_begin (channels u) N cb).
  { unfold chunk. rewrite map_length. apply channels_of_length; lia. }
  rewrite E. rewrite write_all_spec by (pose proof (H cb ltac:(lia)); lia).
  fold (state_of full part N (seq (S cb) k)). rewrite IH; [|lia|lia|intros; apply H; lia].
  f_equal. f_equal. rewrite app_length, <- L. f_equal. f_equal. f_equal. lia.
Qed.
Lemma fill_spec N full : 0 < N -> forall (us : list (@sample M W)) part,
  (forall cb, cb < N -> length (part cb) + length (content ant1 ant2 channels stored N cb us) <= length (full cb)) ->
  fill N (state_of full part N (seq 0 N)) us = Ok (state_of full (fun cb => part cb ++ content ant1 ant2 channels stored N cb us) N (seq 0 N)).
Proof.
  intros HN. induction us as [|u us IH]; intros part H.
  - cbn. f_equal. unfold state_of. apply map_ext. intros cb. now rewrite app_nil_r.
  - cbn [fill]. unfold content in H |- *. cbn [filter] in H |- *. destruct (ant1 u =? ant2 u); cbn [negb] in H |- *.
    + apply IH. exact H.
    + cbn [flat_map] in H |- *. rewrite fill_blocks_spec; auto.
      * rewrite IH. { f_equal. unfold state_of. apply map_ext. intros cb. unfold chunk, content. now rewrite app_assoc. }
        intros cb Hcb. specialize (H cb Hcb). rewrite !app_length in *. unfold chunk, content in *. lia.
      * intros c Hc. specialize (H c ltac:(lia)). rewrite app_length in H. unfold chunk. lia.
Qed.
(** From empty arrays of the right size *)
Lemma fill_all N (us : list (@sample M W)) : 0 < N ->
  fill N (map (fun cb => (repeat None (length (content ant1 ant2 channels stored N cb us)), 0)) (seq 0 N)) us =
  Ok (map (fun cb => (map Some (content ant1 ant2 channels stored N cb us), length (content ant1 ant2 channels stored N cb us))) (seq 0 N)).
Proof.
  intros HN. pose proof (fill_spec N (fun cb => content ant1 ant2 channels stored N cb us) HN us (fun _ => [])) as H.
  unfold state_of in H. cbn [map app length] in H. rewrite (map_ext _ (fun cb => (repeat None (length (content ant1 ant2 channels stored N cb us)), 0))) in H.
  - rewrite H by (intros; lia). f_equal. apply map_ext. intros cb. rewrite Nat.sub_diag. cbn. now rewrite app_nil_r.
  - intros cb. now rewrite Nat.sub_0_r.
Qed.
End Fill.

(** * Sizes *)
Lemma content_length_regular {U V} (a1 a2 n : U -> nat) (f : U -> nat -> V) N cb m us : (forall u, In u us -> n u = m) ->
  length (content a1 a2 n f N cb us) = length (filter (fun u => negb (a1 u =? a2 u)) us) * length (channels_of m N cb).
Proof.
  intros H. unfold content. induction us as [|u us IH]; [reflexivity|]. cbn [filter]. destruct (negb (a1 u =? a2 u)).
  - cbn [flat_map length]. rewrite app_length, map_length, IH, H; [lia|now left|intros; apply H; now right].
  - apply IH. intros; apply H; now right.
Qed.
Lemma content_length_sum {U V} (a1 a2 n : U -> nat) (f : U -> nat -> V) N cb us k : 0 < N -> cb < N ->
  fold_left (fun m u => if a1 u =? a2 u then m else m + (channel_begin (n u) N (S cb) - channel_begin (n u) N cb)) us k = k + length (content a1 a2 n f N cb us).
Proof.
  intros HN Hc. unfold content. revert k. induction us as [|u us IH]; intros k; cbn [fold_left filter]; [cbn; lia|].
  destruct (a1 u =? a2 u); cbn [negb]; rewrite IH; [reflexivity|]. cbn [flat_map]. rewrite app_length, map_length, channels_of_length by auto. lia.
Qed.

(** * Solutions *)
Lemma start_indices_spec l : forall c d, d < length l -> nth d (start_indices c l) 0 = c + first_solution l d.
Proof.
  induction l as [|n l IH]; intros c d H; [cbn in H; lia|]. destruct d as [|d]; cbn [start_indices nth]; [unfold first_solution; cbn; lia|].
  rewrite IH by (cbn in H; lia). unfold first_solution. cbn [firstn list_sum fold_right]. unfold list_sum. lia.
Qed.
Lemma start_indices_length l : forall c, length (start_indices c l) = length l.
Proof. induction l; intros; cbn; auto. Qed.
Lemma part_div n T t k : 0 < n -> t < T -> (t * n / T = k <-> part_of n T t k).
Proof.
  intros Hn Ht. unfold part_of. pose proof (Nat.div_mod (t * n) T ltac:(lia)) as D. pose proof (Nat.mod_upper_bound (t * n) T ltac:(lia)) as U. split.
  - intros E. rewrite E in *. assert (k < n) by (rewrite <- E; apply Nat.div_lt_upper_bound; nia). nia.
  - intros (K & L1 & L2). symmetry. apply (Nat.div_unique _ _ _ (t * n - T * k)); nia.
Qed.
Lemma offset_spec n mid duration k : 0 < n -> (0 < duration)%Qc -> (0 <= mid)%Qc -> (index_offset n mid duration = Ok k <-> part_at n mid duration k).
Proof.
  intros Hn Hd Hm. unfold index_offset.
  set (q := (mid * qn n / duration)%Qc). set (z := Qfloor (this q)).
  assert (Q1 : forall m : nat, (Z.of_nat m <= z)%Z <-> (qn m * duration <= mid * qn n)%Qc).
  { intros m. assert (E : (mid * qn n = q * duration)%Qc) by (unfold q; field; intros X; rewrite X in Hd; exact (Qclt_not_eq _ _ Hd eq_refl)).
    rewrite E. assert (E2 : (Z.of_nat m <= z)%Z <-> (qn m <= q)%Qc).
    { unfold z. unfold Qcle, qn. cbn [this Q2Qc]. rewrite Qred_correct. split.
      - intros G. pose proof (Qfloor_le (this q)) as F. eapply Qle_trans; [|exact F]. rewrite <- Zle_Qle. exact G.
      - intros G. rewrite <- (Qfloor_Z (Z.of_nat m)). now apply Qfloor_resp_le. }
    rewrite E2. split.
    - intros G. now apply Qcmult_le_compat_r; [|apply Qclt_le_weak].
    - intros G. now apply Qcmult_lt_0_le_reg_r with duration. }
  assert (Q0 : (0 <= z)%Z). { apply (Q1 0%nat). replace (qn 0) with 0%Qc by reflexivity. rewrite Qcmult_0_l.
    replace 0%Qc with (0 * qn n)%Qc by ring. apply Qcmult_le_compat_r; auto. apply Qclt_le_weak. apply qn_pos. exact Hn. }
  assert (Q2 : forall m : nat, (z < Z.of_nat m)%Z <-> (mid * qn n < qn m * duration)%Qc).
  { intros m. pose proof (Q1 m) as Q. split.
    - intros G. apply Qcnot_le_lt. intros F. apply Q in F. lia.
    - intros G. destruct (Z.lt_ge_cases z (Z.of_nat m)) as [|F]; auto. apply Q in F. exfalso. apply (Qclt_not_le _ _ G F). }
  destruct (Z.ltb_spec z 0) as [C|_]; [lia|]. destruct (Nat.eqb_spec n 0) as [C|_]; [lia|]. unfold part_at. split.
  - intros E. injection E as E. split; [lia|]. split; [apply Q1; lia|]. destruct (Z.lt_ge_cases z (Z.of_nat (S k))) as [F|F]; [left; now apply Q2|right; lia].
  - intros (K & L1 & L2). apply Q1 in L1. f_equal. destruct L2 as [L2|L2]; [apply Q2 in L2; lia|lia].
Qed.
