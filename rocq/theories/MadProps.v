(** C33 - C36, C54: the median flagger. *)
From Coq Require Import List Bool Arith ZArith QArith Qcanon Permutation Lia.
From Verif Require Import QcUtil AverageModel MedianModel MedianSpec MedianProofs MadModel MadSpec MadProofs.
Import ListNotations.
Open Scope nat_scope.

(** * C33: time windows *)
(** Observations with at least as many slots as the window: every slot is sent once, in order, with its data, and is judged
    on the slots centred on it, mirrored at both ends; all of them exist, and the first 2k+1 of them are the window of
    a baseline with half width k. *)
Theorem C33_time_window_partial hw n : let window := 2 * hw + 1 in window <= n ->
  exists evs, run window n = Some evs /\ map sent evs = seq 0 n /\ Forall (fun e => complete e = true) evs /\
    Forall (fun e => map Z.of_nat (used e) = centred (Z.of_nat n) (Z.of_nat (sent e)) hw /\ Forall (fun t => t < n) (used e) /\
                     forall k, k <= hw -> map Z.of_nat (firstn (2 * k + 1) (used e)) = centred (Z.of_nat n) (Z.of_nat (sent e)) k) evs.
Proof.
  intros window Hn. assert (Hw : window = 2 * hw + 1) by reflexivity.
  exists (map (expected hw n) (seq 0 n)). split; [exact (run_spec window hw n Hw Hn)|].
  split; [rewrite map_map; cbn; apply map_id|]. split; [rewrite Forall_map; now apply Forall_forall|].
  rewrite Forall_map, Forall_forall. intros t Ht. apply in_seq in Ht. cbn [sent used expected].
  assert (CI := centred_in (Z.of_nat n) (Z.of_nat t) hw ltac:(lia) ltac:(lia)).
  assert (E : map Z.of_nat (map Z.to_nat (centred (Z.of_nat n) (Z.of_nat t) hw)) = centred (Z.of_nat n) (Z.of_nat t) hw).
  { rewrite map_map. rewrite <- (map_id (centred _ _ _)) at 2. apply map_ext_in. intros z Hz. rewrite Forall_forall in CI. apply CI in Hz. lia. }
  split; [exact E|]. split.
  - rewrite Forall_map, Forall_forall. rewrite Forall_forall in CI. intros z Hz. apply CI in Hz. lia.
  - intros k Hk. rewrite <- firstn_map, E. now apply firstn_centred.
Qed.
Print Assumptions C33_time_window_partial.
Example C33_time_window_case : option_map (map used) (run 5 6) =
  Some [[0; 1; 1; 2; 2]; [1; 0; 2; 1; 3]; [2; 1; 3; 0; 4]; [3; 2; 4; 1; 5]; [4; 3; 5; 2; 4]; [5; 4; 4; 3; 3]].
Proof. reflexivity. Qed.

(** The window sizes that the step computes meet the hypothesis whenever it knows the number of slots. *)
Theorem C33_window_size r n : let w := time_window r n in
  (1 <= w)%Z /\ Z.odd w = true /\ ((1 <= n)%Z -> (w <= n)%Z) /\ ((1 <= r)%Z -> (n <= 0 \/ r <= n)%Z -> (r - 1 <= w <= r)%Z).
Proof. exact (time_window_spec r n). Qed.
Print Assumptions C33_window_size.
Example C33_window_size_case : map (fun r => time_window r 10) [-3; 1; 4; 7; 10; 25]%Z = [1; 1; 3; 7; 9; 9]%Z /\ time_window 25 0 = 25%Z.
Proof. split; reflexivity. Qed.

(** Missing from the full statement: fewer slots arrive than the window.  With an even number of them the last one is
    never sent; another one is sent twice, the second time without its data. *)
Theorem C33_short_refuted : exists window n, Nat.odd window = true /\ 0 < n < window /\
  exists evs, run window n = Some evs /\ map sent evs <> seq 0 n /\ ~ In (n - 1) (map sent evs) /\
    exists e, In e evs /\ complete e = false.
Proof.
  exists 5, 4. split; [reflexivity|]. split; [lia|]. eexists. split; [vm_compute; reflexivity|]. split; [discriminate|].
  split; [cbn; intuition discriminate|]. eexists. split; [right; right; right; left; reflexivity|reflexivity].
Qed.
Print Assumptions C33_short_refuted.
(** Nor is the window of the baselines shortened with the list of time entries: for every such number of slots, and for a
    baseline that uses the full window, gathering the values at the end reads past the list. *)
Theorem C33_short_reads_outside window n ampl flagged slots_used fw chan nchan corr : Nat.odd window = true -> 0 < n < window ->
  length slots_used = final_window window n -> gather ampl flagged slots_used window fw chan nchan corr = None.
Proof.
  intros O Hn L. unfold gather. assert (length slots_used < window).
  { rewrite L. unfold final_window. destruct (Nat.ltb_spec n window); [|lia].
    assert ((n - 1) / 2 * 2 <= n - 1) by (rewrite Nat.mul_comm; apply Nat.mul_div_le; lia).
    destruct (Nat.eq_dec (1 + (n - 1) / 2 * 2) window); lia. }
  destruct (Nat.ltb_spec (length slots_used) window); [reflexivity|lia].
Qed.
Print Assumptions C33_short_reads_outside.
Example C33_short_reads_case : final_window 5 3 = 3 /\
  gather (fun _ _ _ => 1%Qc) (fun _ _ _ => false) [0; 1; 1] 5 1 0 1 0 = None.
Proof. split; reflexivity. Qed.

(** * C34: channel windows *)
(** The window size is odd and fits, and follows the user's value within one; *)
Theorem C34_window_size r nchan : (1 <= nchan)%Z -> let w := freq_window r nchan in
  (1 <= w <= nchan)%Z /\ Z.odd w = true /\ ((1 <= r <= nchan)%Z -> (r - 1 <= w <= r)%Z).
Proof. exact (freq_window_spec r nchan). Qed.
Print Assumptions C34_window_size.
Example C34_window_size_case : map (fun r => freq_window r 8) [-3; 1; 4; 7; 8; 25]%Z = [1; 1; 3; 7; 7; 7]%Z.
Proof. reflexivity. Qed.

(** and for every odd size that fits and every channel, exactly the mirrored window is gathered, all in range. *)
Theorem C34_channels hw chan nchan : (0 <= chan < nchan)%Z -> (2 * Z.of_nat hw + 1 <= nchan)%Z ->
  let l := channels (2 * Z.of_nat hw + 1) chan nchan in
  Permutation l (centred nchan chan hw) /\ length l = 2 * hw + 1 /\ Forall (fun c => 0 <= c < nchan)%Z l.
Proof.
  intros Hc Hw. cbv zeta. assert (P := channels_spec (Z.of_nat hw) chan nchan Hc ltac:(lia) Hw). rewrite Nat2Z.id in P.
  split; [exact P|]. split.
  - rewrite (Permutation_length P). apply centred_len.
  - assert (CI := centred_in nchan chan hw Hc Hw). rewrite Forall_forall in *. intros c I. apply CI, (Permutation_in _ P), I.
Qed.
Print Assumptions C34_channels.
Example C34_channels_case : map (fun c => channels 5 c 7) [0; 1; 3; 5; 6]%Z =
  [[0; 1; 2; 1; 2]; [0; 1; 2; 3; 1]; [1; 2; 3; 4; 5]; [3; 4; 5; 6; 5]; [4; 5; 6; 4; 5]]%Z.
Proof. reflexivity. Qed.

(** * C35: correlations *)
(** No list: all correlations.  A list with the numbers 0 to k-1 in any order: the valid ones. *)
Theorem C35_correlations_partial ncorr l : 0 < ncorr ->
  (l = [] -> flag_corr ncorr l = Ok (seq 0 ncorr)) /\
  (l <> [] -> Permutation l (seq 0 (length l)) -> exists r, flag_corr ncorr l = Ok r /\ Permutation r (filter (fun c => c <? ncorr) l)).
Proof.
  intros H. split; [intros ->; reflexivity|]. intros H1 H2. now apply flag_corr_spec.
Qed.
Print Assumptions C35_correlations_partial.
Example C35_correlations_case : Permutation [2; 0; 1; 3] (seq 0 4) /\ flag_corr 3 [2; 0; 1; 3] = Ok [1; 2; 0] /\ flag_corr 4 [] = Ok [0; 1; 2; 3].
Proof. split; [|split; reflexivity]. cbn. apply (perm_trans (l' := [0; 2; 1; 3])); [apply perm_swap|]. constructor. apply perm_swap. Qed.

(** Missing: other lists.  The list is indexed with its own values, so that 0 and 3 of four correlations read outside it, *)
Theorem C35_outside_refuted : exists ncorr l, Forall (fun c => c < ncorr) l /\ NoDup l /\ flag_corr ncorr l = Undefined.
Proof. exists 4, [0; 3]. split; [repeat constructor|]. split; [|reflexivity]. repeat constructor; cbn; intuition discriminate. Qed.
Print Assumptions C35_outside_refuted.
(** and valid correlations the user listed can be dropped. *)
Theorem C35_dropped_refuted : exists ncorr l r c, Forall (fun c => c < ncorr) l /\ flag_corr ncorr l = Ok r /\ In c l /\ ~ In c r.
Proof.
  exists 3, [1; 2; 2], [2; 2; 2], 1. split; [repeat constructor|]. split; [reflexivity|]. split; [now left|]. cbn. intuition discriminate.
Qed.
Print Assumptions C35_dropped_refuted.
(** In general: a list is read outside exactly if one of its values is not a position in it. *)
Theorem C35_outside_iff ncorr l : 0 < ncorr -> (flag_corr ncorr l = Undefined <-> Exists (fun i => length l <= i) l).
Proof.
  intros _. unfold flag_corr. destruct l as [|x l'] eqn:E.
  { split; [discriminate|]. intros H. inversion H. }
  rewrite <- E. clear E x l'. 
  assert (K : forall m, (valid_corrs ncorr l m = Undefined /\ Exists (fun i => length l <= i) m) \/
                        (exists r, valid_corrs ncorr l m = Ok r) /\ ~ Exists (fun i => length l <= i) m).
  { induction m as [|i m IH].
    - right. split; [now exists []|]. intros H; inversion H.
    - cbn [valid_corrs]. destruct (nth_error l i) as [c|] eqn:Ei.
      + assert (i < length l) by (apply nth_error_Some; congruence). destruct IH as [[-> X]|[[r ->] X]].
        * left. split; [reflexivity|now right].
        * right. split; [eexists; reflexivity|]. intros Y. inversion Y; [lia|contradiction].
      + left. split; [reflexivity|]. left. now apply nth_error_None. }
  destruct (K l) as [[-> X]|[[r ->] X]]; [tauto|]. split; [|contradiction]. destruct r; discriminate.
Qed.
Print Assumptions C35_outside_iff.
Example C35_outside_iff_case : Exists (fun i => 2 <= i) [0; 3] /\ flag_corr 4 [0; 3] = Undefined.
Proof. split; [|reflexivity]. right. left. lia. Qed.

(** * C36: medians *)
(** If the scratch space is filled completely - no sample in the windows flagged, the baseline uses the largest windows -
    then every channel of the baseline is flagged exactly if a listed correlation exceeds the median of its window by more than
    the threshold; the contents of the scratch space beforehand do not matter. *)
Theorem C36_decision_partial sel ampl flagged corrs slots_used tw hw fac t nchan scratch : nth_element sel ->
  Nat.odd tw = true -> tw <= length slots_used -> (2 * Z.of_nat hw + 1 <= nchan)%Z ->
  (forall ip t' c, In ip corrs -> In t' (t :: slots_used) -> (0 <= c < nchan)%Z -> flagged t' c ip = false) ->
  length scratch = tw * (2 * hw + 1) ->
  exists bs s', flag_baseline sel ampl flagged corrs slots_used tw (2 * hw + 1) fac t (zrange 0 nchan) nchan scratch = Some (bs, s') /\
    length s' = length scratch /\
    Forall2 (fun c b => b = true <-> exists ip, In ip corrs /\ exceeds ampl slots_used tw hw fac t c nchan ip) (zrange 0 nchan) bs.
Proof.
  intros C Ot Ht Hw HF HS. apply flag_baseline_spec; auto.
  intros c Hc. unfold zrange in Hc. apply in_map_iff in Hc as (i & <- & Hi). apply in_seq in Hi. lia.
Qed.
Print Assumptions C36_decision_partial.
Example C36_decision_case :
  let ampl t c (p : nat) := Qcmult (qn (t + 1)) (if (c =? 1)%Z then qn 9 else qn 2) in
  option_map fst (flag_baseline (fun _ v => isort v) ampl (fun _ _ _ => false) [0] [1; 0; 2] 3 3 1%Qc 1 (zrange 0 4) 4 (repeat 0%Qc 9))
  = Some [false; true; false; false].
Proof. vm_compute. reflexivity. Qed.

(** Missing: with a flagged sample in the window, values left in the scratch space by earlier samples take part in the median
    and change the decision. *)
Theorem C36_scratch_refuted : exists ampl flagged corrs slots_used tw fw t nchan s1 s2 b1 b2 r1 r2,
  length s1 = tw * fw /\ length s2 = tw * fw /\
  flag_channel (fun _ v => isort v) ampl flagged corrs slots_used tw fw 1%Qc t 1 nchan s1 = Some (b1, r1) /\
  flag_channel (fun _ v => isort v) ampl flagged corrs slots_used tw fw 1%Qc t 1 nchan s2 = Some (b2, r2) /\ b1 <> b2.
Proof.
  exists (fun _ c _ => if (c =? 1)%Z then qn 10 else 1%Qc), (fun _ c _ => (c =? 0)%Z), [0], [0], 1, 3, 0, 3%Z.
  exists [0; 0; 0]%Qc, [0; 0; qn 100]%Qc, true, false. do 2 eexists. split; [reflexivity|]. split; [reflexivity|].
  split; [vm_compute; reflexivity|]. split; [vm_compute; reflexivity|discriminate].
Qed.
Print Assumptions C36_scratch_refuted.

(** For every history of the scratch space: a channel with a flagged sample in one of the listed correlations gets all its
    correlations flagged; *)
Theorem C36_flagged_samples sel ampl flagged corrs slots_used tw fw fac t nchan : forall chans scratch bs s',
  flag_baseline sel ampl flagged corrs slots_used tw fw fac t chans nchan scratch = Some (bs, s') ->
  length bs = length chans /\
  forall i c, nth_error chans i = Some c -> (exists ip, In ip corrs /\ flagged t c ip = true) -> nth_error bs i = Some true.
Proof.
  induction chans as [|c r IH]; intros scratch bs s' H; cbn [flag_baseline] in H.
  - injection H as <- <-. split; [reflexivity|]. intros [|i] c E; discriminate E.
  - destruct (flag_channel sel ampl flagged corrs slots_used tw fw fac t c nchan scratch) as [[b s1]|] eqn:E1; [|discriminate H].
    destruct (flag_baseline sel ampl flagged corrs slots_used tw fw fac t r nchan s1) as [[bs1 s2]|] eqn:E2; [|discriminate H].
    injection H as <- <-. apply IH in E2 as [L K]. split; [cbn; congruence|]. intros [|i] c' E; cbn [nth_error] in *; [|now apply K].
    injection E as <-. intros (ip & I & F). f_equal. clear - E1 I F. revert scratch E1.
    induction corrs as [|jp q IH]; intros scratch H; [destruct I|]. cbn [flag_channel] in H.
    destruct (flagged t c jp) eqn:J; [injection H as <- <-; reflexivity|].
    destruct I as [->|I]; [congruence|].
    destruct (compute_factors sel ampl flagged slots_used tw fw c nchan jp scratch) as [[[z1 z2] s3]|]; [|discriminate H].
    destruct (qltb (z1 + fac * z2)%Qc (ampl t c jp)); [injection H as <- <-; reflexivity|]. now apply (IH I s3).
Qed.
Print Assumptions C36_flagged_samples.
Example C36_flagged_samples_case :
  option_map fst (flag_baseline (fun _ v => isort v) (fun _ _ _ => 1%Qc) (fun _ c p => (c =? 2)%Z && (p =? 1)) [0; 1] [1] 1 1 1%Qc 1
    (zrange 0 4) 4 (repeat 0%Qc 1)) = Some [false; false; true; false].
Proof. vm_compute. reflexivity. Qed.
(** and the amplitudes of flagged samples play no part in any decision. *)
Theorem C36_flagged_values sel ampl ampl' flagged corrs slots_used tw fw fac t nchan :
  (forall t c p, flagged t c p = false -> ampl t c p = ampl' t c p) -> forall chans scratch,
  flag_baseline sel ampl flagged corrs slots_used tw fw fac t chans nchan scratch =
  flag_baseline sel ampl' flagged corrs slots_used tw fw fac t chans nchan scratch.
Proof.
  intros A.
  assert (G : forall chan p, gather ampl flagged slots_used tw fw chan nchan p = gather ampl' flagged slots_used tw fw chan nchan p).
  { intros chan p. unfold gather. destruct (length slots_used <? tw); [reflexivity|]. f_equal.
    apply flat_map_ext. intros t'. apply flat_map_ext. intros c. destruct (flagged t' c p) eqn:F; [reflexivity|]. now rewrite A. }
  assert (C : forall c s, flag_channel sel ampl flagged corrs slots_used tw fw fac t c nchan s =
                          flag_channel sel ampl' flagged corrs slots_used tw fw fac t c nchan s).
  { intros c. induction corrs as [|ip r IH]; intros s; [reflexivity|]. cbn [flag_channel].
    destruct (flagged t c ip) eqn:F; [reflexivity|]. rewrite <- (A _ _ _ F). unfold compute_factors. rewrite G.
    destruct (gather ampl' flagged slots_used tw fw c nchan ip) as [v|]; [|reflexivity].
    destruct (length s <? length v); [reflexivity|]. destruct (length v =? 0).
    { destruct (qltb _ _); [reflexivity|]. apply IH. }
    destruct (median sel (v ++ skipn (length v) s)) as [z1 v1]. cbv zeta.
    destruct (median sel _) as [z2 v3]. destruct (qltb _ _); [reflexivity|]. apply IH. }
  induction chans as [|c r IH]; intros s; [reflexivity|]. cbn [flag_baseline]. rewrite C.
  destruct (flag_channel sel ampl' flagged corrs slots_used tw fw fac t c nchan s) as [[b s1]|]; [|reflexivity].
  now rewrite IH.
Qed.
Print Assumptions C36_flagged_values.
Example C36_flagged_values_case :
  let ampl := fun (t : nat) c (p : nat) => if (c =? 2)%Z then qn 100 else 1%Qc in
  let f := fun (t : nat) c (p : nat) => (c =? 2)%Z in
  (forall t c p, f t c p = false -> ampl t c p = 1%Qc) /\
  option_map fst (flag_baseline (fun _ v => isort v) ampl f [0] [1] 1 1 1%Qc 1 (zrange 0 4) 4 (repeat 1%Qc 1)) =
  Some [false; false; true; false].
Proof. split; [|vm_compute; reflexivity]. cbv zeta. intros t c p ->. reflexivity. Qed.

(** * C54: flags of autocorrelations *)
(** Applying the autocorrelations: afterwards a sample is flagged exactly if it was, or if its baseline is a cross-correlation
    of suitable length whose first correlation in the channel was not flagged yet, and the autocorrelation of one of its
    antennas exists and is flagged in its first correlation. *)
Theorem C54_autocorrelations auto in_range ant nbl nchan ncorr fl :
  (forall a, (0 <= auto a)%Z -> ant (Z.to_nat (auto a)) = (a, a)) ->
  forall b c p, b < nbl -> c < nchan -> p < ncorr ->
  (auto_flags auto in_range ant nbl nchan ncorr fl b c p = true <->
   fl b c p = true \/
   (fst (ant b) <> snd (ant b) /\ in_range b = true /\ fl b c 0 = false /\
    exists a, (a = fst (ant b) \/ a = snd (ant b)) /\ (0 <= auto a)%Z /\ fl (Z.to_nat (auto a)) c 0 = true)).
Proof.
  intros HA b c p Hb Hc Hp. unfold auto_flags. rewrite auto_flags_from by (exact HA || apply seq_NoDup).
  unfold newly, cross, auto_bad. rewrite in_seq. split; (intros [H|H]; [now left|right]).
  - tauto.
  - split; [lia|]. tauto.
Qed.
Print Assumptions C54_autocorrelations.
(** Everything else keeps its flags. *)
Theorem C54_untouched auto in_range ant nbl nchan ncorr fl : (forall a, (0 <= auto a)%Z -> ant (Z.to_nat (auto a)) = (a, a)) ->
  forall b c p, nbl <= b \/ nchan <= c \/ ncorr <= p -> auto_flags auto in_range ant nbl nchan ncorr fl b c p = fl b c p.
Proof.
  intros HA b c p H. apply eq_true_iff_eq. unfold auto_flags. rewrite auto_flags_from by (exact HA || apply seq_NoDup).
  rewrite in_seq. split; [|now left]. intros [X|(I & J & K & _)]; [exact X|lia].
Qed.
Print Assumptions C54_untouched.
Example C54_case : let ant b := nth b [(0, 0); (0, 1); (1, 2); (2, 2)] (0, 0) in let auto a := nth a [0; -1; 3]%Z (-1)%Z in
  (forall a, (0 <= auto a)%Z -> ant (Z.to_nat (auto a)) = (a, a)) /\
  let out := auto_flags auto (fun _ => true) ant 4 2 2 (fun b c p => (b =? 3) && (c =? 1) && (p =? 0)) in
  map (fun b => map (fun c => map (out b c) [0; 1]) [0; 1]) [0; 1; 2; 3] =
  let no := [[false; false]; [false; false]] in [no; no; [[false; false]; [true; true]]; [[false; false]; [true; false]]].
Proof.
  cbv zeta. split; [|reflexivity]. intros a. destruct a as [|[|[|a]]]; cbn; try reflexivity; try lia. destruct a; cbn; lia.
Qed.
