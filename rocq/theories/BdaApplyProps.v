(** Properties of applying solutions to BDA model data. *)
From Coq Require Import List Bool Arith QArith Qcanon Lia ZifyBool ZifyNat.
From Verif Require Import QcUtil Cplx AverageModel GainModel SumsModel SumsSpec SumsProps SubtractModel SubtractSpec SubtractProps BdaApplyModel BdaApplySpec.
Import ListNotations.
Open Scope nat_scope.

Section Blocks.
Variables (n_chan nb : nat) (f0 w : Qc).
Hypotheses (Hb : 0 < nb) (Hc : nb <= n_chan) (Hw : (0 < w)%Qc).
Notation start k := (k * n_chan / nb).
Definition start_freq (k : nat) : Qc := (f0 + w * qn (start k))%Qc.
Lemma next_starts_get n cb i : cb + n <= nb -> i < n -> nth_error (next_starts n_chan nb w n cb (start cb) (start_freq cb)) i = Some (start_freq (cb + i + 1)).
Proof.
  revert cb i. induction n as [|n IH]; intros cb i H Hi; [lia|]. cbn [next_starts].
  assert (E : (start_freq cb + qn ((cb + 1) * n_chan / nb - start cb) * w)%Qc = start_freq (cb + 1)).
  { unfold start_freq. pose proof (start_S n_chan nb Hb Hc cb). replace (qn (start (cb + 1))) with (qn (start cb + (start (cb + 1) - start cb))) by (f_equal; lia).
    rewrite qn_plus. ring. }
  rewrite E. destruct i as [|i]; [cbn [nth_error]; now rewrite Nat.add_0_r|]. cbn [nth_error]. replace (cb + 1) with (S cb) at 1 2 by lia. rewrite IH by lia.
  do 2 f_equal. lia.
Qed.
Lemma start_freqs_get k : k <= nb -> get (start_freqs n_chan nb f0 (f0 + w * qn n_chan)%Qc) k = Ok (start_freq k).
Proof.
  intros H. unfold get, start_freqs. replace ((f0 + w * qn n_chan - f0) / qn n_chan)%Qc with w by (field; apply qn_neq0; lia).
  assert (Z0 : start_freq 0 = f0) by (unfold start_freq; cbn [Nat.mul]; rewrite Nat.div_0_l by lia; rewrite qn_0; ring).
  destruct k as [|k]; [cbn [nth_error]; now rewrite Z0|]. cbn [nth_error].
  pose proof (next_starts_get nb 0 k ltac:(lia) ltac:(lia)) as E. rewrite Z0 in E. cbn [Nat.mul] in E. rewrite Nat.div_0_l in E by lia. rewrite E. do 2 f_equal. lia.
Qed.
Lemma start_freqs_length : length (start_freqs n_chan nb f0 (f0 + w * qn n_chan)%Qc) = S nb.
Proof.
  assert (G : forall m c cb i f, length (next_starts n_chan nb c m cb i f) = m).
  { induction m as [|m IH]; intros c cb i f; cbn [next_starts length]; [reflexivity|]. now rewrite IH. }
  unfold start_freqs. cbn [length]. now rewrite G.
Qed.
Lemma start_freq_le a b : a <= b -> (start_freq a <= start_freq b)%Qc.
Proof.
  intros H. pose proof (start_le n_chan nb Hb Hc a b H) as L. apply qn_le in L. unfold start_freq. assert (D : (0 <= w * (qn (start b) - qn (start a)))%Qc).
  { replace 0%Qc with (0 * (qn (start b) - qn (start a)))%Qc by ring. apply Qcmult_le_compat_r; [qclra|qclra]. }
  qclra.
Qed.

Lemma find_block_ok freq k : k < nb -> (start_freq k < freq)%Qc -> (freq <= start_freq (k + 1))%Qc -> forall fuel b, b <= k -> k - b <= fuel ->
  find_block (start_freqs n_chan nb f0 (f0 + w * qn n_chan)%Qc) freq fuel b = Ok k.
Proof.
  intros Hk H1 H2. induction fuel as [|fuel IH]; intros b Hbk Hf; cbn [find_block]; rewrite start_freqs_get by lia; cbn [bind].
  - assert (b = k) by lia. subst b. apply qltb_false in H2. now rewrite H2.
  - destruct (Nat.eq_dec b k) as [E|E]; [subst b; apply qltb_false in H2; now rewrite H2|].
    assert (L : (start_freq (b + 1) < freq)%Qc) by (pose proof (start_freq_le (b + 1) k ltac:(lia)); qclra). apply qltb_true in L. rewrite L. apply IH; lia.
Qed.

Variables (n : nat) (edge : nat -> nat).
Hypotheses (Hn : nb <= n) (Ha : averaged n_chan n edge) (Hr : respects n_chan nb n edge).
Lemma edge_le a b : a <= b -> b <= n -> edge a <= edge b.
Proof.
  destruct Ha as (_ & _ & M). intros H L. induction b as [|b IH]; [now replace a with 0 by lia|]. destruct (Nat.eq_dec a (S b)) as [E|E]; [now rewrite E|].
  specialize (IH ltac:(lia) ltac:(lia)). specialize (M b ltac:(lia)). replace (b + 1) with (S b) in M by lia. lia.
Qed.
Lemma centre_in ch k : ch < n -> in_block n nb ch k = true -> k < nb -> (start_freq k < centre f0 w edge ch)%Qc /\ (centre f0 w edge ch <= start_freq (k + 1))%Qc.
Proof.
  intros H I Hk. unfold in_block in I. apply andb_true_iff in I as [I1 I2]. apply Nat.leb_le in I1. apply Nat.ltb_lt in I2.
  pose proof (Hr k ltac:(lia)) as R1. pose proof (Hr (k + 1) ltac:(lia)) as R2.
  pose proof (start_le n nb Hb Hn (k + 1) nb ltac:(lia)) as L. rewrite (start_last n nb Hb Hn) in L.
  pose proof (edge_le (k * n / nb) ch I1 ltac:(lia)) as E1. pose proof (edge_le (ch + 1) ((k + 1) * n / nb) ltac:(lia) L) as E2.
  destruct Ha as (_ & _ & M). specialize (M ch H). rewrite R1 in E1. rewrite R2 in E2. clear - E1 E2 M Hw. unfold start_freq, centre.
  assert (A : (0 < qn (edge ch) + qn (edge (ch + 1)) - qn 2 * qn (start k))%Qc).
  { assert (B : 2 * start k < edge ch + edge (ch + 1)) by lia. apply qn_lt in B. rewrite qn_mult, qn_plus in B. qclra. }
  assert (B : (0 <= qn 2 * qn (start (k + 1)) - (qn (edge ch) + qn (edge (ch + 1))))%Qc).
  { assert (B : edge ch + edge (ch + 1) <= 2 * start (k + 1)) by lia. apply qn_le in B. rewrite qn_mult, qn_plus in B. qclra. }
  replace (w * (qn (edge ch) + qn (edge (ch + 1))) / qn 2)%Qc with (w * qn (start k) + (w * (qn (edge ch) + qn (edge (ch + 1)) - qn 2 * qn (start k))) / qn 2)%Qc at 1
    by (field; apply qn_neq0; lia).
  replace (w * (qn (edge ch) + qn (edge (ch + 1))) / qn 2)%Qc with (w * qn (start (k + 1)) - (w * (qn 2 * qn (start (k + 1)) - (qn (edge ch) + qn (edge (ch + 1))))) / qn 2)%Qc
    by (field; apply qn_neq0; lia).
  pose proof (qc_mult_pos _ _ Hw A) as P1. assert (P2 : (0 <= w * (qn 2 * qn (start (k + 1)) - (qn (edge ch) + qn (edge (ch + 1)))))%Qc).
  { replace 0%Qc with (w * 0)%Qc by ring. rewrite !(Qcmult_comm w). apply Qcmult_le_compat_r; [exact B|qclra]. }
  set (x := (w * (qn (edge ch) + qn (edge (ch + 1)) - qn 2 * qn (start k)))%Qc) in *. set (y := (w * (qn 2 * qn (start (k + 1)) - (qn (edge ch) + qn (edge (ch + 1)))))%Qc) in *.
  assert (T : (0 < / qn 2)%Qc) by (apply qc_inv_pos, qn_pos; lia).
  pose proof (qc_mult_pos _ _ P1 T) as Q1. assert (Q2 : (0 <= y * / qn 2)%Qc).
  { replace 0%Qc with (0 * / qn 2)%Qc by ring. apply Qcmult_le_compat_r; [exact P2|qclra]. }
  unfold Qcdiv. clear - Q1 Q2. split; qclra.
Qed.
Lemma has_block ch : ch < n -> exists k, k < nb /\ in_block n nb ch k = true.
Proof.
  intros H. assert (G : forall m, m <= nb -> ch < m * n / nb -> exists k, k < m /\ in_block n nb ch k = true).
  { induction m as [|m IH]; intros Lm Hm; [cbn in Hm; rewrite Nat.div_0_l in Hm; lia|]. destruct (Nat.lt_ge_cases ch (m * n / nb)) as [G|G].
    - destruct (IH ltac:(lia) G) as (k & K1 & K2). exists k. split; [lia|exact K2].
    - exists m. split; [lia|]. unfold in_block. replace (S m) with (m + 1) in Hm by lia. lia. }
  apply G; [lia|]. rewrite (start_last n nb Hb Hn). exact H.
Qed.
Lemma block_mono a b i j : a <= b -> in_block n nb a i = true -> in_block n nb b j = true -> i <= j.
Proof.
  intros H I J. unfold in_block in *. destruct (Nat.le_gt_cases i j) as [L|L]; [exact L|]. pose proof (start_le n nb Hb Hn (j + 1) i ltac:(lia)). lia.
Qed.
Lemma channel_blocks_ok m ch b : ch + m <= n -> (forall k, in_block n nb ch k = true -> b <= k) ->
  exists l, channel_blocks (start_freqs n_chan nb f0 (f0 + w * qn n_chan)%Qc) b (map (centre f0 w edge) (seq ch m)) = Ok l /\ length l = m /\
    forall i, i < m -> exists k, nth_error l i = Some k /\ k < nb /\ in_block n nb (ch + i) k = true.
Proof.
  revert ch b. induction m as [|m IH]; intros ch b L Hm.
  - exists []. repeat split. intros i. lia.
  - cbn [seq map channel_blocks]. destruct (has_block ch ltac:(lia)) as (k & K1 & K2). destruct (centre_in ch k ltac:(lia) K2 K1) as [C1 C2].
    rewrite (find_block_ok _ k K1 C1 C2) by (rewrite ?start_freqs_length; specialize (Hm k K2); lia). cbn [bind].
    destruct (IH (S ch) k) as (l & E & Ll & G); [lia|intros k' K'; apply (block_mono ch (S ch)); [lia|exact K2|exact K']|]. rewrite E. cbn [bind].
    exists (k :: l). repeat split; [cbn; lia|]. intros [|i] Hi; [exists k; rewrite Nat.add_0_r; auto|]. destruct (G i ltac:(lia)) as (k' & G'). exists k'. cbn [nth_error].
    replace (ch + S i) with (S ch + i) by lia. exact G'.
Qed.
End Blocks.

Section Apply.
Variables (n_pol nb n n_ant n_dir : nat) (sols : list (list cplx)) (a1 a2 : nat).
Hypotheses (Hp : n_pol = 1 \/ n_pol = 2 \/ n_pol = 4) (Hb : 0 < nb) (Hn : nb <= n) (Ls : length sols = nb) (Lv : Forall (fun s => length s = n_ant * n_dir * n_pol) sols)
  (H1 : a1 < n_ant) (H2 : a2 < n_ant).
Lemma apply_channels_ok d (Hd : d < n_dir) ms : forall ch blocks, length blocks = length ms ->
  (forall i, i < length ms -> exists k, nth_error blocks i = Some k /\ k < nb /\ in_block n nb (ch + i) k = true) ->
  exists ms', apply_channels n_pol sols (a1 * n_dir + d) (a2 * n_dir + d) blocks ms = Ok ms' /\ length ms' = length ms /\
    forall i m k s, nth_error ms i = Some m -> in_block n nb (ch + i) k = true -> nth_error sols k = Some s -> nth_error ms' i = Some (seen n_pol n_dir s a1 a2 d m).
Proof.
  induction ms as [|m ms IH]; intros ch blocks L B.
  - exists []. split; [now destruct blocks|]. split; [reflexivity|]. intros i m k s E. now destruct i.
  - destruct blocks as [|b blocks]; [discriminate|]. cbn [apply_channels]. destruct (B 0 ltac:(cbn; lia)) as (k & E & K1 & K2). injection E as ->. rewrite Nat.add_0_r in K2.
    destruct (nth_error sols k) as [s|] eqn:Es; [|apply nth_error_None in Es; lia]. unfold get at 1. rewrite Es. cbn [bind].
    rewrite Forall_forall in Lv. rewrite (apply_spec n_pol n_dir s n_ant a1 a2 d m Hp (Lv s (nth_error_In _ _ Es)) H1 H2 Hd). cbn [bind].
    destruct (IH (S ch) blocks) as (ms' & E & Lm & G); [cbn in L; lia| |].
    { intros i Hi. destruct (B (S i) ltac:(cbn; lia)) as (k' & B'). exists k'. cbn [nth_error] in B'. replace (S ch + i) with (ch + S i) by lia. exact B'. }
    rewrite E. cbn [bind]. eexists. split; [reflexivity|]. split; [cbn; lia|]. intros [|i] m' k' s' Em Ek Es'.
    + injection Em as <-. rewrite Nat.add_0_r in Ek. assert (k' = k) by now apply (in_block_unique n nb Hb Hn ch). subst k'. cbn. congruence.
    + cbn [nth_error] in *. apply (G i m' k' s' Em); [|exact Es']. replace (S ch + i) with (ch + S i) by lia. exact Ek.
Qed.
Lemma apply_directions_ok blocks : length blocks = n -> (forall i, i < n -> exists k, nth_error blocks i = Some k /\ k < nb /\ in_block n nb i k = true) ->
  forall l d, d + length l <= n_dir -> Forall (fun ms => length ms = n) l ->
  exists l', apply_directions n_pol n_dir sols a1 a2 d blocks l = Ok l' /\ length l' = length l /\ Forall (fun ms => length ms = n) l' /\
    forall j ms i m k s, nth_error l j = Some ms -> nth_error ms i = Some m -> in_block n nb i k = true -> nth_error sols k = Some s ->
      exists ms', nth_error l' j = Some ms' /\ nth_error ms' i = Some (seen n_pol n_dir s a1 a2 (d + j) m).
Proof.
  intros L B. induction l as [|ms l IH]; intros d Hd F.
  - exists []. repeat split; [constructor|]. intros j. now destruct j.
  - apply Forall_cons_iff in F as [F0 F]. cbn [length] in Hd. cbn [apply_directions].
    destruct (apply_channels_ok d ltac:(lia) ms 0 blocks) as (ms' & E & Lm & G); [lia|intros i Hi; apply B; lia|]. rewrite E. cbn [bind].
    destruct (IH (S d) ltac:(lia) F) as (l' & E' & Ll & F' & G'). rewrite E'. cbn [bind]. eexists. split; [reflexivity|]. split; [cbn; lia|].
    split; [constructor; [lia|exact F']|]. intros [|j] ms0 i m k s Ej Ei Ek Es.
    + injection Ej as <-. exists ms'. split; [reflexivity|]. rewrite Nat.add_0_r. exact (G i m k s Ei Ek Es).
    + cbn [nth_error] in *. destruct (G' j ms0 i m k s Ej Ei Ek Es) as (q & Q1 & Q2). exists q. split; [exact Q1|]. replace (d + S j) with (S d + j) by lia. exact Q2.
Qed.
End Apply.
Lemma subtract_one_get x m ch a b : nth_error x ch = Some a -> nth_error m ch = Some b -> nth_error (subtract_one x m) ch = Some (msub a b).
Proof. revert m ch. induction x as [|x0 x IH]; intros m ch; [now destruct ch|]. destruct m as [|m0 m]; [now destruct ch|]. destruct ch as [|ch]; cbn; [congruence|apply IH]. Qed.
Lemma subtract_row_get ch (f : nat -> mat) l : forall d x a, nth_error x ch = Some a -> (forall j ms, nth_error l j = Some ms -> nth_error ms ch = Some (f (d + j))) ->
  nth_error (subtract_row x l) ch = Some (msub a (fold_right madd mzero (map f (seq d (length l))))).
Proof.
  unfold subtract_row. induction l as [|ms l IH]; intros d x a E G.
  - cbn. rewrite E. f_equal. unfold msub, mzero. apply mat_eq; cbn [m0 m1 m2 m3]; ring.
  - cbn [fold_left length seq map fold_right]. pose proof (G 0 ms eq_refl) as G0. rewrite Nat.add_0_r in G0.
    rewrite (IH (S d) _ _ (subtract_one_get x ms ch a (f d) E G0)).
    + f_equal. unfold msub, madd. apply mat_eq; cbn [m0 m1 m2 m3]; ring.
    + intros j ms' Ej. replace (S d + j) with (d + S j) by lia. apply G. exact Ej.
Qed.

(** With one solution per direction, and rows of which the averaged channels respect the channel blocks: the model data of every direction and channel of a row is
    that seen with the solutions of the two antennas, the direction and the channel block to which the solver assigned the channel, and subtraction gives the data minus the
    sum of these. *)
Theorem C77_apply_partial n_pol n_chan nb n n_ant f0 w edge sols a1 a2 data (l : list (list mat)) :
  n_pol = 1 \/ n_pol = 2 \/ n_pol = 4 -> 0 < nb -> nb <= n -> nb <= n_chan -> (0 < w)%Qc -> averaged n_chan n edge -> respects n_chan nb n edge ->
  length sols = nb -> Forall (fun s => length s = n_ant * length l * n_pol) sols -> a1 < n_ant -> a2 < n_ant -> Forall (fun ms => length ms = n) l -> length data = n ->
  exists l', apply_row n_pol (start_freqs n_chan nb f0 (f0 + w * qn n_chan)%Qc) sols a1 a2 (map (centre f0 w edge) (seq 0 n)) l = Ok l' /\ length l' = length l /\
    forall ch, ch < n -> exists k s, in_block n nb ch k = true /\ nth_error sols k = Some s /\
      (forall d ms m, nth_error l d = Some ms -> nth_error ms ch = Some m -> exists ms', nth_error l' d = Some ms' /\ nth_error ms' ch = Some (seen n_pol (length l) s a1 a2 d m)) /\
      forall x, nth_error data ch = Some x -> nth_error (subtract_row data l') ch = Some (msub x (sum_seen n_pol s a1 a2 (map (fun ms => nth ch ms mzero) l))).
Proof.
  intros Hp Hb Hn Hc Hw Ha Hr Ls Lv H1 H2 F Ld. unfold apply_row.
  destruct (channel_blocks_ok n_chan nb f0 w Hb Hc Hw n edge Hn Ha Hr n 0 0) as (blocks & E & Lb & B); [lia|intros; lia|]. rewrite E. cbn [bind].
  destruct (apply_directions_ok n_pol nb n n_ant (length l) sols a1 a2 Hp Hb Hn Ls Lv H1 H2 blocks Lb B l 0 ltac:(lia) F) as (l' & E' & Ll & F' & G).
  exists l'. split; [exact E'|]. split; [exact Ll|]. intros ch Hch. destruct (B ch Hch) as (k & _ & K1 & K2). cbn [Nat.add] in K2.
  destruct (nth_error sols k) as [s|] eqn:Es; [|apply nth_error_None in Es; lia]. exists k, s. split; [exact K2|]. split; [exact Es|]. split.
  - intros d ms m Ed Em. exact (G d ms ch m k s Ed Em K2 Es).
  - intros x Ex. rewrite (subtract_row_get ch (fun d => seen n_pol (length l) s a1 a2 d (nth ch (nth d l []) mzero)) l' 0 data x Ex).
    + do 2 f_equal. unfold sum_seen. rewrite map_length, Ll. f_equal. clear.
      assert (A : forall (g : nat -> mat -> mat) (l0 : list (list mat)) a, (forall j, j < length l0 -> nth (a + j) l [] = nth j l0 []) ->
        map (fun d => g d (nth ch (nth d l []) mzero)) (seq a (length l0)) = map (fun p => g (fst p) (snd p)) (combine (seq a (length l0)) (map (fun ms => nth ch ms mzero) l0))).
      { intros g. induction l0 as [|ms l0 IH]; intros a H; [reflexivity|]. cbn [length seq map combine fst snd]. f_equal.
        - specialize (H 0 ltac:(cbn; lia)). rewrite Nat.add_0_r in H. now rewrite H.
        - apply IH. intros j Hj. replace (S a + j) with (a + S j) by lia. apply H. cbn. lia. }
      apply (A (fun d m => seen n_pol (length l) s a1 a2 d m) l 0). reflexivity.
    + intros j ms' Ej. cbn [Nat.add]. assert (Hj : j < length l) by (rewrite <- Ll; apply nth_error_Some; congruence).
      destruct (nth_error l j) as [ms|] eqn:El; [|apply nth_error_None in El; lia].
      assert (Lm : length ms = n) by (rewrite Forall_forall in F; apply F, (nth_error_In _ _ El)).
      destruct (nth_error ms ch) as [m|] eqn:Em; [|apply nth_error_None in Em; lia].
      destruct (G j ms ch m k s El Em K2 Es) as (q & Q1 & Q2). assert (q = ms') by congruence. subst q. rewrite Q2. do 2 f_equal.
      rewrite (nth_error_nth l j [] El). symmetry. now apply nth_error_nth.
Qed.
Print Assumptions C77_apply_partial.

(** The number of blocks: there is always one; every block has at least the number of channels that is asked for if there are so many; and there are as many such blocks as possible *)
Theorem C77_blocks n_chan requested : 0 < n_chan ->
  let nb := bda_n_blocks n_chan requested in 0 < nb /\ nb <= n_chan /\ (requested = 0 -> nb = 1) /\ (n_chan < requested -> nb = 1) /\
  (0 < requested -> requested <= n_chan -> n_chan < (nb + 1) * requested /\ forall k, k < nb -> requested <= (k + 1) * n_chan / nb - k * n_chan / nb).
Proof.
  intros Hc nb. unfold nb, bda_n_blocks. destruct (Nat.ltb_spec 0 requested) as [Hr|Hr].
  - assert (L : n_chan / requested <= n_chan) by (apply Nat.div_le_upper_bound; nia). split; [lia|]. split; [lia|]. split; [lia|]. split; [intros; rewrite Nat.div_small; lia|].
    intros _ Hl. assert (1 <= n_chan / requested) by (apply Nat.div_le_lower_bound; lia). rewrite Nat.max_l by lia. set (b := n_chan / requested) in *.
    assert (B : requested * b <= n_chan) by apply Nat.mul_div_le, Nat.neq_0_lt_0, Hr. split.
    + pose proof (Nat.mul_succ_div_gt n_chan requested ltac:(lia)). fold b in H0. lia.
    + intros k _. assert (E : k * n_chan / b + requested <= (k + 1) * n_chan / b); [|lia].
      rewrite <- Nat.div_add by lia. apply Nat.div_le_mono; [lia|]. nia.
  - split; [lia|]. split; [lia|]. split; [lia|]. split; lia.
Qed.
Print Assumptions C77_blocks.
Example C77_blocks_example : bda_n_blocks 8 3 = 2 /\ bda_n_blocks 8 0 = 1 /\ bda_n_blocks 8 9 = 1.
Proof. repeat split. Qed.

(** Rows that are not averaged respect all channel blocks; and so do rows of which a whole number of channels is in every block *)
Theorem C77_when n_chan nb n : 0 < nb -> 0 < n_chan ->
  respects n_chan nb n_chan (fun i => i) /\
  forall each m, n = each * nb -> n_chan = m * n -> averaged n_chan n (fun i => i * m) /\ respects n_chan nb n (fun i => i * m).
Proof.
  intros Hb Hc. split; [intros k _; reflexivity|]. intros each m E1 E2. split.
  - assert (0 < m) by nia. repeat split; try lia. 
  - intros k Hk. subst n_chan n. replace (k * (each * nb)) with (k * each * nb) by lia. replace (k * (m * (each * nb))) with (k * each * m * nb) by lia.
    rewrite !Nat.div_mul by lia. reflexivity.
Qed.
Print Assumptions C77_when.
Example C77_example :
  match apply_row 1 (start_freqs 4 2 (qn 100) (qn 108)) [[c1; C (qn 2) 0%Qc]; [C 0%Qc 1%Qc; C (qn 3) 0%Qc]] 0 1 (map (centre (qn 100) (qn 2) (fun i => i * 2)) (seq 0 2)) [[mdiag c1 c1; mdiag c1 c1]] with
  | Ok [[x; y]] => this (re (m0 x)) = 2%Q /\ this (im (m0 y)) = 3%Q
  | _ => False end.
Proof. vm_compute. split; reflexivity. Qed.

(** The solver assigns the channels of a row to blocks by their number, but the solutions are applied by frequency.  Here eight channels in four blocks, and a row where
    they are averaged to five: the visibilities in its second channel are used for the solutions of block 1, but get the solutions of block 0. *)
Theorem C77_channels_refuted : exists n_chan nb n edge ch blocks, 0 < nb /\ nb <= n /\ averaged n_chan n edge /\ in_block n nb ch 1 = true /\
  channel_blocks (start_freqs n_chan nb (qn 100) (qn 100 + 1 * qn n_chan)%Qc) 0 (map (centre (qn 100) 1 edge) (seq 0 n)) = Ok blocks /\ nth_error blocks ch = Some 0.
Proof.
  exists 8, 4, 5, (fun i => i * 8 / 5), 1, [0; 0; 1; 2; 3]. split; [lia|]. split; [lia|]. split.
  - split; [reflexivity|]. split; [reflexivity|]. intros i Hi. do 5 (destruct i as [|i]; [vm_compute; lia|]). lia.
  - split; [reflexivity|]. split; vm_compute; reflexivity.
Qed.
Print Assumptions C77_channels_refuted.

(** With several solutions for a direction, the solver has antenna * (number of solutions) + solution as index; the solutions are applied with antenna * (number of directions) +
    direction.  Regular data with these settings is refused; BDA data gets solutions of other antennas.  Here two solutions for the one direction: antenna 1 gets the second
    solution of antenna 0. *)
Theorem C77_solutions_refuted : exists (sols : list cplx) r, length sols = 2 * 2 /\
  apply_row 1 (start_freqs 1 1 (qn 100) (qn 101)) [sols] 0 1 (map (centre (qn 100) 1 (fun i => i)) (seq 0 1)) [[mdiag c1 c1]] = Ok [[r]] /\
  forall interval, interval < 2 -> r <> mmul (mmul (jones 1 2 sols 0 interval) (mdiag c1 c1)) (mherm (jones 1 2 sols 1 interval)).
Proof.
  exists [c1; C (qn 2) 0%Qc; C (qn 5) 0%Qc; C (qn 7) 0%Qc]. eexists. split; [reflexivity|]. split; [vm_compute; reflexivity|].
  intros i Hi. destruct i as [|[|i]]; [vm_compute; discriminate|vm_compute; discriminate|lia].
Qed.
Print Assumptions C77_solutions_refuted.
