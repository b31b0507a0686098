(** Properties C03 and C04. *)
From Coq Require Import ZArith List Lia.
From Verif Require Import BaselineModel BaselineProofs.
Import ListNotations.
Open Scope Z_scope.

(** C03: the numbering of unordered antenna pairs is a bijection onto
    0 .. n(n+1)/2 - 1, in both orders (n up to 2^31, so that the 64-bit
    products cannot wrap). *)
Theorem C03_index_bijection : forall n o, 0 <= n <= 2 ^ 31 ->
  n_baselines n = n * (n + 1) / 2 /\
  (forall a b, baseline_index a b n o = baseline_index b a n o) /\
  (forall a b, 0 <= a < n -> 0 <= b < n -> 0 <= baseline_index a b n o < n_baselines n) /\
  (forall a b c d, 0 <= a <= b -> b < n -> 0 <= c <= d -> d < n ->
     baseline_index a b n o = baseline_index c d n o -> a = c /\ b = d) /\
  (forall idx, 0 <= idx < n_baselines n ->
     exists a b, 0 <= a <= b /\ b < n /\ baseline_index a b n o = idx).
Proof.
  intros n o Hn. split; [exact (n_baselines_eq n Hn)|].
  split; [intros; apply index_sym|].
  split; [intros; apply index_range; lia|].
  split; [intros; eapply index_inj_le; eauto; lia|].
  intros; apply index_surj; auto.
Qed.
Print Assumptions C03_index_bijection.

Example C03_example :
  baseline_index 3 1 5 RowMajor = 7 /\ baseline_index 3 1 5 ColumnMajor = 7 /\
  baseline_index 2 4 5 RowMajor = 11 /\ baseline_index 2 4 5 ColumnMajor = 12 /\ n_baselines 5 = 15.
Proof. repeat split. Qed.

(** Row-major order runs through all pairs of the lower antenna first, column-major order through all
    pairs of the higher antenna first. *)
Theorem C03_order : forall a b c d n, 0 <= a <= b -> b < n -> 0 <= c <= d -> d < n -> n <= 2 ^ 31 ->
  (baseline_index a b n RowMajor < baseline_index c d n RowMajor <-> a < c \/ a = c /\ b < d) /\
  (baseline_index a b n ColumnMajor < baseline_index c d n ColumnMajor <-> b < d \/ b = d /\ a < c).
Proof.
  intros a b c d n H1 H2 H3 H4 Hn. split; (split; [|now apply index_row_lt || now apply index_col_lt]); intros H.
  - destruct (Z.lt_trichotomy a c) as [X|[->|X]]; [auto| |].
    + destruct (Z.lt_trichotomy b d) as [Y|[->|Y]]; [auto|lia|]. pose proof (index_row_lt c d c b n ltac:(lia) ltac:(lia) ltac:(lia) ltac:(lia) ltac:(lia) ltac:(lia)). lia.
    + pose proof (index_row_lt c d a b n ltac:(lia) ltac:(lia) ltac:(lia) ltac:(lia) ltac:(lia) ltac:(lia)). lia.
  - destruct (Z.lt_trichotomy b d) as [X|[->|X]]; [auto| |].
    + destruct (Z.lt_trichotomy a c) as [Y|[->|Y]]; [auto|lia|]. pose proof (index_col_lt c d a d n ltac:(lia) ltac:(lia) ltac:(lia) ltac:(lia) ltac:(lia) ltac:(lia)). lia.
    + pose proof (index_col_lt c d a b n ltac:(lia) ltac:(lia) ltac:(lia) ltac:(lia) ltac:(lia) ltac:(lia)). lia.
Qed.
Print Assumptions C03_order.
Example C03_order_example : baseline_index 0 4 5 RowMajor < baseline_index 1 1 5 RowMajor /\ baseline_index 1 1 5 ColumnMajor < baseline_index 0 4 5 ColumnMajor.
Proof. split; reflexivity. Qed.

(** The baselines of one antenna are exactly those containing it. *)
Theorem C03_baseline_list : forall antenna n o idx,
  0 <= antenna < Z.of_nat n -> Z.of_nat n <= 2 ^ 31 ->
  (In idx (baseline_list antenna n o) <->
   exists a b, 0 <= a <= b /\ b < Z.of_nat n /\ (a = antenna \/ b = antenna) /\
               baseline_index a b (Z.of_nat n) o = idx).
Proof. exact baseline_list_spec. Qed.
Print Assumptions C03_baseline_list.

(** C04: round trip through double precision square roots. *)
Theorem C04_index_to_pair_inverse : forall n o idx,
  0 <= n -> n <= 2 ^ 16 -> 0 <= idx < n_baselines n ->
  let '(a, b) := baseline_of_index idx n o in
  0 <= a <= b /\ b < n /\ baseline_index a b n o = idx.
Proof. exact roundtrip. Qed.
Print Assumptions C04_index_to_pair_inverse.

(** In row-major order up to 2^25 antennas. *)
Theorem C04_row_major_inverse_large : forall n idx,
  0 <= n -> n <= 2 ^ 25 -> 0 <= idx < n_baselines n ->
  let '(a, b) := baseline_of_index idx n RowMajor in
  0 <= a <= b /\ b < n /\ baseline_index a b n RowMajor = idx.
Proof. exact roundtrip_row_large. Qed.
Print Assumptions C04_row_major_inverse_large.

(** The bound on column-major order is sharp: with 65537 antennas the
    conversion to a 32-bit int destroys the result. *)
Theorem C04_column_major_int_truncation_refuted :
  exists idx n, n = 65537 /\ 0 <= idx < n_baselines n /\
    (let '(a, b) := baseline_of_index idx n ColumnMajor in
     ~ (0 <= a <= b /\ b < n)).
Proof. exact col_int_truncation. Qed.
Print Assumptions C04_column_major_int_truncation_refuted.

Example C04_example : 0 <= 11 < n_baselines 5 /\ baseline_of_index 11 5 RowMajor = (2, 4).
Proof.
  split; [split; vm_compute; congruence|].
  change 11 with (baseline_index 2 4 5 RowMajor). apply inverse_row; lia.
Qed.
