From Coq Require Import ZArith List Reals Lia Lra.
From Flocq Require Import Core.
From Verif Require Import BaselineModel.
Import ListNotations.
Open Scope Z_scope.

(** Triangular numbers. *)
Definition tri (k : Z) : Z := k * (k + 1) / 2.

Lemma tri_double k : 2 * tri k = k * (k + 1).
Proof.
  unfold tri. assert (H : (k * (k + 1)) mod 2 = 0).
  { destruct (Z.Even_or_Odd k) as [[m ->]|[m ->]].
    - replace (2 * m * (2 * m + 1)) with (m * (2 * m + 1) * 2) by ring. apply Z_mod_mult.
    - replace ((2 * m + 1) * (2 * m + 1 + 1)) with ((2 * m + 1) * (m + 1) * 2) by ring.
      apply Z_mod_mult. }
  pose proof (Z.div_mod (k * (k + 1)) 2). lia.
Qed.

Lemma w64_small x : 0 <= x < 2 ^ 64 -> w64 x = x.
Proof. intros; now apply Z.mod_small. Qed.

Lemma tri_div k : k * (k + 1) / 2 = tri k.
Proof. reflexivity. Qed.

Lemma mulm1_div k : k * (k - 1) / 2 = tri (k - 1).
Proof. unfold tri. f_equal. ring. Qed.

Lemma n_baselines_eq n : 0 <= n <= 2 ^ 31 -> n_baselines n = tri n.
Proof.
  intros H. unfold n_baselines.
  destruct (Z.eq_dec n 0) as [->|Hn]; [reflexivity|].
  rewrite (w64_small (n - 1)) by lia.
  rewrite (w64_small (n * (n - 1))) by nia.
  rewrite mulm1_div. pose proof (tri_double (n - 1)). pose proof (tri_double n).
  rewrite w64_small by nia. nia.
Qed.

Lemma index_col a b n : 0 <= a <= b -> b < n -> n <= 2 ^ 31 ->
  baseline_index a b n ColumnMajor = tri b + a.
Proof.
  intros Ha Hb Hn. unfold baseline_index.
  rewrite Z.min_l, Z.max_r by lia.
  rewrite (w64_small (b * (b + 1))) by nia. rewrite tri_div.
  pose proof (tri_double b). apply w64_small. nia.
Qed.

Lemma index_row a b n : 0 <= a <= b -> b < n -> n <= 2 ^ 31 ->
  baseline_index a b n RowMajor = a * n + b - tri a.
Proof.
  intros Ha Hb Hn. unfold baseline_index.
  rewrite Z.min_l, Z.max_r by lia.
  rewrite (w64_small (a * (a + 1))) by nia. rewrite tri_div.
  pose proof (tri_double a). apply w64_small. nia.
Qed.

Lemma index_sym a b n o : baseline_index a b n o = baseline_index b a n o.
Proof. unfold baseline_index. now rewrite Z.min_comm, Z.max_comm. Qed.

Lemma index_range a b n o : 0 <= a < n -> 0 <= b < n -> n <= 2 ^ 31 ->
  0 <= baseline_index a b n o < n_baselines n.
Proof.
  intros Ha Hb Hn. rewrite n_baselines_eq by lia.
  assert (W : forall x y, 0 <= x <= y -> y < n -> 0 <= baseline_index x y n o < tri n).
  { intros x y Hx Hy. pose proof (tri_double n). destruct o.
    - rewrite index_col by lia. pose proof (tri_double y). nia.
    - rewrite index_row by lia. pose proof (tri_double x). nia. }
  destruct (Z.le_ge_cases a b); [apply W|rewrite index_sym; apply W]; lia.
Qed.

Lemma index_inj_le a b c d n o :
  0 <= a <= b -> b < n -> 0 <= c <= d -> d < n -> n <= 2 ^ 31 ->
  baseline_index a b n o = baseline_index c d n o -> a = c /\ b = d.
Proof.
  intros. destruct o.
  - rewrite !index_col in * by lia.
    pose proof (tri_double b); pose proof (tri_double d).
    assert (b = d) by (destruct (Z.lt_trichotomy b d) as [?|[?|?]]; nia). subst. lia.
  - rewrite !index_row in * by lia.
    pose proof (tri_double a); pose proof (tri_double c).
    assert (a = c) by (destruct (Z.lt_trichotomy a c) as [?|[?|?]]; nia). subst. lia.
Qed.

(** Surjectivity: every index is reached. *)
Lemma tri_cover m : 0 <= m -> exists k, 1 <= k /\ tri (k - 1) <= m < tri k.
Proof.
  intros H. pattern m. apply natlike_ind; [| |exact H].
  - exists 1. split; [lia|]. split; vm_compute; congruence.
  - intros x Hx (k & Hk & Hlo & Hhi).
    destruct (Z.lt_ge_cases (Z.succ x) (tri k)) as [Hc|Hc].
    + exists k. lia.
    + exists (k + 1). replace (k + 1 - 1) with k by ring.
      pose proof (tri_double k); pose proof (tri_double (k + 1)). nia.
Qed.

Lemma index_surj n o idx : 0 <= n <= 2 ^ 31 -> 0 <= idx < n_baselines n ->
  exists a b, 0 <= a <= b /\ b < n /\ baseline_index a b n o = idx.
Proof.
  intros Hn Hi. rewrite n_baselines_eq in Hi by lia. destruct o.
  - destruct (tri_cover idx) as (k & Hk & Hlo & Hhi); [lia|].
    exists (idx - tri (k - 1)), (k - 1).
    pose proof (tri_double k); pose proof (tri_double (k - 1)); pose proof (tri_double n).
    assert (k <= n) by nia.
    rewrite index_col; nia.
  - destruct (tri_cover (tri n - idx - 1)) as (k & Hk & Hlo & Hhi); [lia|].
    pose proof (tri_double k); pose proof (tri_double (k - 1)); pose proof (tri_double n).
    assert (k <= n) by nia.
    exists (n - k), (idx - (tri n - n - tri (k - 1))).
    pose proof (tri_double (n - k)).
    rewrite index_row; nia.
Qed.

(** The square root computation. *)
Local Notation fexp := (FLT_exp (-1074) 53).

Lemma gf_dyadic m e : Z.abs m < 2 ^ 53 -> -1074 <= e ->
  generic_format radix2 fexp (IZR m * bpow radix2 e).
Proof.
  intros Hm He. apply generic_format_FLT.
  apply FLT_spec with (Float radix2 m e); simpl; auto.
Qed.

Lemma gf_int m : Z.abs m < 2 ^ 53 -> generic_format radix2 fexp (IZR m).
Proof.
  intros Hm. replace (IZR m) with (IZR m * bpow radix2 0)%R by (simpl; ring).
  apply gf_dyadic; lia.
Qed.

Lemma rnd64_id x : generic_format radix2 fexp x -> rnd64 x = x.
Proof. intros; apply round_generic; auto with typeclass_instances. Qed.

Lemma rnd64_mono x y : (x <= y)%R -> (rnd64 x <= rnd64 y)%R.
Proof. intros; apply round_le; auto with typeclass_instances. apply FLT_exp_valid. reflexivity. Qed.

Lemma half_root_spec k x :
  1 <= k -> (2 * k - 1) ^ 2 <= x -> x <= (2 * k + 1) ^ 2 - 8 -> x < 2 ^ 53 ->
  half_root x = k.
Proof.
  intros Hk Hlo Hhi Hx.
  assert (Hk2 : 2 * k - 1 < 2 ^ 27) by nia.
  unfold half_root. rewrite (rnd64_id (IZR x)) by (apply gf_int; nia).
  set (r := rnd64 (sqrt (IZR x))).
  (* lower bound *)
  assert (Hr1 : (IZR (2 * k - 1) <= r)%R).
  { unfold r. rewrite <- (rnd64_id (IZR (2 * k - 1))) by (apply gf_int; lia).
    apply rnd64_mono. rewrite <- (sqrt_Rsqr (IZR (2 * k - 1))) by (apply IZR_le; lia).
    apply sqrt_le_1_alt. unfold Rsqr. rewrite <- mult_IZR. apply IZR_le. nia. }
  (* upper bound: y = 2k+1 - 2^-25 *)
  set (y := (IZR ((2 * k + 1) * 2 ^ 25 - 1) * bpow radix2 (-25))%R).
  assert (Hb25 : (bpow radix2 (-25) * IZR (2 ^ 25) = 1)%R).
  { change (IZR (2 ^ 25)) with (bpow radix2 25). rewrite <- bpow_plus. reflexivity. }
  assert (Hbpos : (0 < bpow radix2 (-25))%R) by apply bpow_gt_0.
  assert (Hk27 : 2 * k + 2 < 2 ^ 27).
  { assert (2 * k - 1 <= 94906265) by nia. lia. }
  assert (Hysq : (sqrt (IZR x) <= y)%R).
  { assert (Hy0 : (0 <= y)%R).
    { unfold y. apply Rmult_le_pos; [apply IZR_le; lia|lra]. }
    rewrite <- (sqrt_Rsqr y) by exact Hy0. apply sqrt_le_1_alt. unfold Rsqr, y.
    set (b := bpow radix2 (-25)) in *.
    assert (Hint : (x * 2 ^ 50 <= ((2 * k + 1) * 2 ^ 25 - 1) * ((2 * k + 1) * 2 ^ 25 - 1))).
    { nia. }
    apply IZR_le in Hint. rewrite !mult_IZR in Hint.
    assert (E50 : (IZR (2 ^ 50) = IZR (2 ^ 25) * IZR (2 ^ 25))%R).
    { rewrite <- mult_IZR. f_equal. }
    rewrite E50 in Hint.
    assert (Hb2 : (0 < b * b)%R) by nra.
    apply (Rmult_le_compat_l (b * b)) in Hint; [|lra].
    replace (b * b * (IZR x * (IZR (2 ^ 25) * IZR (2 ^ 25))))%R
      with (IZR x * (b * IZR (2 ^ 25)) * (b * IZR (2 ^ 25)))%R in Hint by ring.
    rewrite Hb25 in Hint. lra. }
  assert (Hr2 : (r <= y)%R).
  { unfold r. rewrite <- (rnd64_id y).
    - now apply rnd64_mono.
    - apply gf_dyadic; lia. }
  set (s := rnd64 (1 + r)).
  assert (Hs1 : (IZR (2 * k) <= s)%R).
  { unfold s. rewrite <- (rnd64_id (IZR (2 * k))) by (apply gf_int; lia).
    apply rnd64_mono. rewrite minus_IZR in Hr1. lra. }
  set (z := (IZR ((2 * k + 2) * 2 ^ 25 - 1) * bpow radix2 (-25))%R).
  assert (Hz : (1 + y = z)%R).
  { unfold y, z. replace ((2 * k + 2) * 2 ^ 25 - 1) with (2 ^ 25 + ((2 * k + 1) * 2 ^ 25 - 1)) by ring.
    rewrite (plus_IZR (2 ^ 25)). rewrite Rmult_plus_distr_r. rewrite (Rmult_comm (IZR (2 ^ 25))), Hb25. ring. }
  assert (Hs2 : (s <= z)%R).
  { unfold s. rewrite <- (rnd64_id z).
    - apply rnd64_mono. lra.
    - apply gf_dyadic; lia. }
  assert (Ht1 : (IZR k <= rnd64 (s / 2))%R).
  { rewrite <- (rnd64_id (IZR k)) by (apply gf_int; lia).
    apply rnd64_mono. rewrite mult_IZR in Hs1. lra. }
  assert (Ht2 : (rnd64 (s / 2) < IZR (k + 1))%R).
  { apply Rle_lt_trans with (z / 2)%R.
    - assert (E : (z / 2 = IZR ((2 * k + 2) * 2 ^ 25 - 1) * bpow radix2 (-26))%R).
      { unfold z. change (-26) with (-25 + -1). rewrite bpow_plus.
        assert (E1 : bpow radix2 (-1) = (/ 2)%R) by reflexivity.
        rewrite E1. unfold Rdiv. ring. }
      rewrite <- (rnd64_id (z / 2)).
      + apply rnd64_mono. lra.
      + rewrite E. apply gf_dyadic; lia.
    - unfold z. rewrite minus_IZR, mult_IZR.
      set (b := bpow radix2 (-25)) in *.
      replace ((IZR (2 * k + 2) * IZR (2 ^ 25) - 1) * b)%R
        with (IZR (2 * k + 2) * (b * IZR (2 ^ 25)) - b)%R by ring.
      rewrite Hb25. replace (2 * k + 2) with (2 * (k + 1)) by ring. rewrite mult_IZR. lra. }
  rewrite Ztrunc_floor.
  - apply Zfloor_imp. lra.
  - apply Rle_trans with (IZR k); [apply IZR_le; lia|exact Ht1].
Qed.

Lemma half_root_tri k m : 1 <= k -> tri (k - 1) <= m < tri k -> m < 2 ^ 50 ->
  half_root (1 + 8 * m) = k.
Proof.
  intros Hk Hm Hb. pose proof (tri_double k); pose proof (tri_double (k - 1)).
  apply half_root_spec; nia.
Qed.

Lemma tri_bounds k : 0 <= k <= 2 ^ 25 -> 0 <= tri k <= 2 ^ 49 + 2 ^ 24.
Proof.
  intros Hk. pose proof (tri_double k) as H. set (t := tri k) in *. clearbody t.
  assert (0 <= k * (k + 1) <= 2 ^ 25 * (2 ^ 25 + 1)) by nia. lia.
Qed.

Lemma inverse_row a b n : 0 <= a <= b -> b < n -> n <= 2 ^ 25 ->
  baseline_of_index (baseline_index a b n RowMajor) n RowMajor = (a, b).
Proof.
  intros Ha Hb Hn. rewrite index_row by lia.
  unfold baseline_of_index. rewrite n_baselines_eq by lia.
  set (idx := a * n + b - tri a).
  pose proof (tri_double n); pose proof (tri_double a).
  pose proof (tri_double (n - a)); pose proof (tri_double (n - a - 1)).
  assert (Hm : tri (n - a - 1) <= tri n - idx - 1 < tri (n - a)).
  { unfold idx. set (t1 := tri n) in *. set (t2 := tri a) in *.
    set (t3 := tri (n - a)) in *. set (t4 := tri (n - a - 1)) in *.
    clearbody t1 t2 t3 t4. clear -H H0 H1 H2 Ha Hb. split; lia. }
  pose proof (tri_bounds (n - a - 1) ltac:(lia)) as Hb1.
  pose proof (tri_bounds (n - a) ltac:(lia)) as Hb2.
  assert (Hmm : 0 <= tri n - idx - 1 < 2 ^ 50) by (clear -Hm Hb1 Hb2; lia).
  rewrite (w64_small (tri n - idx - 1)) by lia.
  rewrite (w64_small (1 + 8 * _)) by lia.
  rewrite (half_root_tri (n - a)) by lia.
  rewrite (w64_small (n - (n - a))) by lia.
  assert (Hq : 0 <= (n - a) * (n - a - 1) < 2 ^ 64).
  { clear -Ha Hb Hn. assert (0 < n - a <= 2 ^ 25) by lia. nia. }
  rewrite (w64_small ((n - a) * (n - a - 1))) by exact Hq.
  replace ((n - a) * (n - a - 1) / 2) with (tri (n - a - 1)) by (unfold tri; f_equal; ring).
  assert (Hd : tri n - n - tri (n - a - 1) = a * n - tri a) by nia.
  assert (Hp : 0 <= a * n - tri a < 2 ^ 60).
  { set (t2 := tri a) in *. clearbody t2. clear -H0 Ha Hb Hn.
    assert (0 <= a * (2 * n - a - 1) <= 2 ^ 25 * 2 ^ 26) by nia. lia. }
  rewrite Hd, (w64_small (a * n - tri a)) by lia.
  f_equal; [lia|]. unfold idx. replace (a * n + b - tri a - (a * n - tri a)) with b by ring.
  apply w64_small; lia.
Qed.

Lemma inverse_col a b n : 0 <= a <= b -> b < n -> n <= 2 ^ 16 ->
  baseline_of_index (baseline_index a b n ColumnMajor) n ColumnMajor = (a, b).
Proof.
  intros Ha Hb Hn. rewrite index_col by lia.
  unfold baseline_of_index.
  pose proof (tri_double b); pose proof (tri_double (b + 1)).
  rewrite (w64_small (1 + 8 * _)) by nia.
  rewrite (half_root_tri (b + 1)); [|lia|replace (b + 1 - 1) with b by ring; nia|nia].
  replace (b + 1 - 1) with b by ring.
  rewrite (w64_small ((b + 1) * b)) by nia.
  replace ((b + 1) * b / 2) with (tri b) by (unfold tri; f_equal; ring).
  assert (E : to_int32 (tri b) = tri b).
  { unfold to_int32. rewrite Z.mod_small; nia. }
  rewrite E. rewrite (w64_small (tri b)) by nia.
  f_equal; rewrite w64_small; lia.
Qed.

(** Round trip from the index side. *)
Lemma roundtrip n o idx :
  0 <= n -> n <= 2 ^ 16 -> 0 <= idx < n_baselines n ->
  let '(a, b) := baseline_of_index idx n o in
  0 <= a <= b /\ b < n /\ baseline_index a b n o = idx.
Proof.
  intros Hn0 Hn Hi.
  destruct (index_surj n o idx) as (a & b & Ha & Hb & <-); [lia|exact Hi|].
  destruct o.
  - rewrite inverse_col by lia. lia.
  - rewrite inverse_row by lia. lia.
Qed.

Lemma roundtrip_row_large n idx :
  0 <= n -> n <= 2 ^ 25 -> 0 <= idx < n_baselines n ->
  let '(a, b) := baseline_of_index idx n RowMajor in
  0 <= a <= b /\ b < n /\ baseline_index a b n RowMajor = idx.
Proof.
  intros Hn0 Hn Hi.
  destruct (index_surj n RowMajor idx) as (a & b & Ha & Hb & <-); [lia|exact Hi|].
  rewrite inverse_row by lia. lia.
Qed.

(** The conversion to int makes column-major fail for more than 65537 antennas. *)
Lemma col_int_truncation :
  exists idx n, n = 65537 /\ 0 <= idx < n_baselines n /\
    (let '(a, b) := baseline_of_index idx n ColumnMajor in
     ~ (0 <= a <= b /\ b < n)).
Proof.
  exists (tri 65536), 65537. split; [reflexivity|split].
  - rewrite n_baselines_eq by lia. split; vm_compute; congruence.
  - unfold baseline_of_index.
    replace (w64 (1 + 8 * tri 65536)) with (1 + 8 * tri 65536) by (vm_compute; reflexivity).
    rewrite (half_root_tri 65537); [|lia|split; vm_compute; congruence|vm_compute; reflexivity].
    vm_compute. intros [[_ H] _]. apply H. reflexivity.
Qed.

(** The list of baselines of an antenna. *)
Lemma baseline_list_spec antenna n o idx :
  0 <= antenna < Z.of_nat n -> Z.of_nat n <= 2 ^ 31 ->
  (In idx (baseline_list antenna n o) <->
   exists a b, 0 <= a <= b /\ b < Z.of_nat n /\ (a = antenna \/ b = antenna) /\
               baseline_index a b (Z.of_nat n) o = idx).
Proof.
  intros Ha Hn. unfold baseline_list. rewrite in_map_iff. split.
  - intros (i & <- & Hi). apply in_seq in Hi.
    destruct (Z.le_ge_cases antenna (Z.of_nat i)).
    + exists antenna, (Z.of_nat i). repeat split; try lia.
    + exists (Z.of_nat i), antenna. rewrite (index_sym antenna). repeat split; try lia.
  - intros (a & b & Hab & Hb & [-> | ->] & <-).
    + exists (Z.to_nat b). rewrite Z2Nat.id by lia. split; auto. apply in_seq. lia.
    + exists (Z.to_nat a). rewrite Z2Nat.id by lia. split; [apply index_sym|]. apply in_seq. lia.
Qed.

Lemma index_row_lt a b c d n : 0 <= a <= b -> b < n -> 0 <= c <= d -> d < n -> n <= 2 ^ 31 ->
  a < c \/ a = c /\ b < d -> baseline_index a b n RowMajor < baseline_index c d n RowMajor.
Proof.
  intros H1 H2 H3 H4 Hn H. rewrite !index_row by lia. destruct H as [H|[-> H]]; [|lia].
  pose proof (tri_double a) as Ta. pose proof (tri_double c) as Tc.
  assert (E : exists k, 1 <= k /\ c = a + k) by (exists (c - a); lia). destruct E as (k & Hk & ->).
  assert (X : 0 <= (k - 1) * (n - (a + k + 1))) by (apply Z.mul_nonneg_nonneg; lia). nia.
Qed.
Lemma index_col_lt a b c d n : 0 <= a <= b -> b < n -> 0 <= c <= d -> d < n -> n <= 2 ^ 31 ->
  b < d \/ b = d /\ a < c -> baseline_index a b n ColumnMajor < baseline_index c d n ColumnMajor.
Proof.
  intros H1 H2 H3 H4 Hn H. rewrite !index_col by lia. destruct H as [H|[-> H]]; [|lia].
  pose proof (tri_double b) as Tb. pose proof (tri_double d) as Td. nia.
Qed.
