(** The times in the solution file with double precision: ddecal/SolutionWriter.cc:45-67. *)
From Coq Require Import Reals Lra List Bool Arith Lia ZArith.
From Flocq Require Import Core Relative IEEE754.BinarySingleNaN IEEE754.Binary IEEE754.Bits.
From Verif Require Import AverageModel ResampleModel ResampleSpec ResampleProps.
Import ListNotations.
Open Scope nat_scope.

(** * Numbers of the machine *)
(** Doubles of IEEE 754 as in Flocq; the arithmetic of ddecal/SolutionWriter.cc:57-60 rounds to nearest *)
Definition d_of_Z (z : Z) : binary64 := Binary.binary_normalize 53 1024 eq_refl eq_refl mode_NE z 0 false.
(** The literal 0.5 of ddecal/SolutionWriter.cc:58-60 *)
Definition d_half : binary64 := Binary.binary_normalize 53 1024 eq_refl eq_refl mode_NE 1 (-1) false.
(** The comparison of ddecal/SolutionWriter.cc:59-60 *)
Definition d_lt (x y : binary64) : bool := match b64_compare x y with Some Lt => true | _ => false end.
(** steps/DDECal.cc:970-986 with doubles *)
Definition write_solutions_d {G} := @write_solutions binary64 (b64_plus mode_NE) (b64_minus mode_NE) (b64_mult mode_NE) d_half (fun n => d_of_Z (Z.of_nat n)) d_lt G.
(** base/DPInfo.cc:62-81 (setTimes): the number of time slots, with conversion to an integer; 1.5 is three times a half *)
Definition n_times_d (first_time last_time interval : binary64) : Z :=
  Binary.Btrunc 53 1024 (b64_plus mode_NE (b64_div mode_NE (b64_minus mode_NE last_time first_time) interval) (b64_mult mode_NE (d_of_Z 3) d_half)).

(** The last solution may be missing in the file.  The end that DDECal gives to the writer is the centroid of the last slot and not its end, so that the margin of half
    a slot is gone: for a solution that starts with the last slot both sides of the comparison are the same number, and rounding decides.  Here two slots of 1.00139008 s
    at 4871389388.127568 and 4871389389.128958 (MJD, in seconds) with a solution for each: there are two solutions, and one is written. *)
Theorem C73_last_refuted : exists first last interval times values,
  n_times_d first last interval = 2%Z /\ length [[[7]]; [[8]]] = intervals 2 1 /\
  write_solutions_d [[[7]]; [[8]]] first last interval 1 [1] 1 1 = Ok (times, values) /\ length times = 1 /\ values = [7].
Proof.
  set (first := b64_of_bits 4751902029247548037). set (last := b64_of_bits 4751902029248598070). set (interval := b64_of_bits 4607188679163787423).
  assert (E : match write_solutions_d [[[7]]; [[8]]] first last interval 1 [1] 1 1 with Ok (t, v) => (length t, v) = (1, [7]) | _ => False end) by (vm_compute; reflexivity).
  destruct (write_solutions_d _ first last interval 1 [1] 1 1) as [[t v]| |] eqn:W; [|easy|easy]. injection E as E1 E2.
  exists first, last, interval, t, v. split; [vm_compute; reflexivity|]. split; [reflexivity|]. split; [assumption|]. split; assumption.
Qed.
Print Assumptions C73_last_refuted.

(** * Real numbers with rounding *)
Section Rounded.
Open Scope R_scope.
(** ddecal/SolutionWriter.cc:57-60: rounding to double *)
Definition rnd (x : R) : R := round radix2 (FLT_exp (-1074) 53) ZnearestE x.
(** ddecal/SolutionWriter.cc:59-60 *)
Definition r_lt (x y : R) : bool := if Rlt_dec x y then true else false.
(** ddecal/SolutionWriter.cc:45-67 with rounding; the conversion of a number to double is exact below 2^53 *)
Definition solution_times_r : nat -> R -> R -> R -> R -> list R :=
  solution_times (fun x y => rnd (x + y)) (fun x y => rnd (x - y)) (fun x y => rnd (x * y)) (/ 2) INR r_lt.

#[local] Instance prec53 : Prec_gt_0 53 := eq_refl.
Lemma rnd_error x : Rabs x <= IZR (2 ^ 33) -> Rabs (rnd x - x) <= bpow radix2 (-20).
Proof.
  intros H. unfold rnd. pose proof (error_le_half_ulp radix2 (FLT_exp (-1074) 53) (fun z => negb (Z.even z)) x) as E.
  assert (U : ulp radix2 (FLT_exp (-1074) 53) x <= bpow radix2 (-19)).
  { apply Rle_trans with (ulp radix2 (FLT_exp (-1074) 53) (bpow radix2 33)).
    - apply ulp_le; [typeclasses eauto|typeclasses eauto|]. rewrite (Rabs_pos_eq (bpow radix2 33)) by apply bpow_ge_0. exact H.
    - rewrite ulp_bpow. apply Rle_refl. }
  apply (Rle_trans _ _ _ E). change (bpow radix2 (-20)) with (/ 2 * bpow radix2 (-19)) || (replace (bpow radix2 (-20)) with (/ 2 * bpow radix2 (-19)) by (cbn; lra)). lra.
Qed.
Lemma rnd_relative x : bpow radix2 (-1022) <= x -> Rabs (rnd x - x) <= bpow radix2 (-53) * x.
Proof.
  intros H. assert (P : 0 < x) by (apply Rlt_le_trans with (2 := H); apply bpow_gt_0).
  pose proof (relative_error_N_FLT radix2 (-1074) 53 eq_refl (fun z => negb (Z.even z)) x) as E. rewrite Rabs_pos_eq in E by lra.
  specialize (E H). unfold rnd. replace (bpow radix2 (-53)) with (/ 2 * bpow radix2 (- 53 + 1)) by (cbn; lra). exact E.
Qed.

(** The part that holds with rounding: if the last interval has more than one slot, all intervals are written, and no other.  For data that ends before
    2^33 s, which is in the year 2131, with slots of at least 1 ms. *)
Theorem C73_times_rounded_partial n total r first last dt :
  (0 < n)%nat -> (0 < r)%nat -> (n <= total * r)%nat -> ((n - 1) mod r <> 0)%nat ->
  0 <= first -> bpow radix2 (-10) <= dt -> first + INR (n + r) * dt <= IZR (2 ^ 33) - 1 ->
  Rabs (last - (first + INR (n - 1) * dt)) <= bpow radix2 (-20) ->
  length (solution_times_r total (rnd (first - rnd (/ 2 * dt))) last (rnd (dt * INR r)) dt) = intervals n r.
Proof.
  intros Hn Hr Ht Hm Hf Hd Hb Hl.
  pose proof (Nat.div_mod (n - 1) r ltac:(lia)) as D. pose proof (Nat.mod_upper_bound (n - 1) r ltac:(lia)) as M.
  assert (I : intervals n r = S ((n - 1) / r)).
  { unfold intervals. replace (n + r - 1)%nat with (n - 1 + 1 * r)%nat by lia. rewrite Nat.div_add by lia. lia. }
  rewrite I. set (q := ((n - 1) / r)%nat) in *. clearbody q.
  set (eps := bpow radix2 (-20)) in *. assert (Ee : eps = / 1048576) by reflexivity.
  assert (Ed : / 1024 <= dt) by (change (/ 1024) with (bpow radix2 (-10)); exact Hd).
  assert (Two : IZR (2 ^ 33) = 8589934592) by reflexivity.
  assert (Hnr : 0 <= INR (n + r)) by apply pos_INR.
  assert (Pnr : 1 <= INR r) by (change 1 with (INR 1); apply le_INR; lia).
  assert (Pn1 : 1 <= INR n) by (change 1 with (INR 1); apply le_INR; lia).
  rewrite plus_INR in *. 
  assert (Dd : dt <= IZR (2 ^ 33) - 1 - first) by (clear - Hb Pnr Pn1 Ed; nra).
  assert (H1 : Rabs (rnd (/ 2 * dt) - / 2 * dt) <= eps) by (apply rnd_error; rewrite Rabs_pos_eq; lra).
  assert (H2 : Rabs (rnd (first - rnd (/ 2 * dt)) - (first - rnd (/ 2 * dt))) <= eps).
  { apply rnd_error. apply Rabs_le. apply Rabs_def2b in H1 || (apply Rabs_le_inv in H1). lra. }
  set (s := rnd (first - rnd (/ 2 * dt))) in *. set (h := rnd (/ 2 * dt)) in *.
  apply Rabs_le_inv in H1. apply Rabs_le_inv in H2.
  assert (H3 : Rabs (rnd (dt * INR r) - dt * INR r) <= bpow radix2 (-53) * (dt * INR r)).
  { apply rnd_relative. apply Rle_trans with (bpow radix2 (-10)); [apply bpow_le; lia|]. clear - Hd Pnr. pose proof (bpow_gt_0 radix2 (-10)). nra. }
  set (si := rnd (dt * INR r)) in *. apply Rabs_le_inv in H3.
  apply Rabs_le_inv in Hl.
  assert (N1 : INR (n - 1) = INR n - 1) by (rewrite minus_INR by lia; reflexivity).
  assert (H4 : Rabs (rnd (last - h) - (last - h)) <= eps).
  { apply rnd_error. apply Rabs_le. rewrite N1 in *. clear H2 H3. assert (0 <= (INR n - 1) * dt) by (clear - Pn1 Ed; nra).
    assert ((INR n - 1) * dt <= (INR n + INR r) * dt - dt) by (clear - Pnr Ed; nra). lra. }
  apply Rabs_le_inv in H4.
  (* all comparisons *)
  assert (P : forall t, (t <= S q)%nat -> let a := INR (t * r) * dt in Rabs (rnd (s + rnd (INR t * si)) - (first - / 2 * dt + a)) <= 5 * eps).
  { intros t Ht' a. assert (T : (t * r <= n - 1 + r)%nat) by (assert (t * r <= S q * r)%nat by (apply Nat.mul_le_mono_r; lia); lia).
    assert (A : 0 <= a <= (INR n + INR r) * dt - dt).
    { unfold a. split; [apply Rmult_le_pos; [apply pos_INR|lra]|]. apply le_INR in T. rewrite plus_INR, N1 in T. clear - T Ed. nra. }
    assert (A2 : INR t * (dt * INR r) = a) by (unfold a; rewrite mult_INR; ring).
    assert (Pt : 0 <= INR t) by apply pos_INR.
    assert (H5 : - (bpow radix2 (-53) * a) <= INR t * si - a <= bpow radix2 (-53) * a).
    { rewrite <- A2. set (z := dt * INR r) in *. clearbody z. clear - H3 Pt. destruct H3. split; nra. }
    assert (H6 : bpow radix2 (-53) * a <= eps).
    { apply Rle_trans with (bpow radix2 (-53) * IZR (2 ^ 33)); [apply Rmult_le_compat_l; [apply bpow_ge_0|lra]|]. rewrite Ee. cbn. lra. }
    assert (H7 : Rabs (rnd (INR t * si) - INR t * si) <= eps) by (apply rnd_error; apply Rabs_le; lra).
    apply Rabs_le_inv in H7.
    assert (H8 : Rabs (rnd (s + rnd (INR t * si)) - (s + rnd (INR t * si))) <= eps) by (apply rnd_error; apply Rabs_le; lra).
    apply Rabs_le_inv in H8. apply Rabs_le. lra. }
  unfold solution_times_r, solution_times.
  rewrite (times_from_count _ _ _ _ _ _ s last si dt total 0 (S q)).
  - now rewrite map_length, seq_length.
  - assert (q * r < total * r)%nat by lia. apply Nat.mul_lt_mono_pos_r in H; lia.
  - intros i Hi. cbn [Nat.add]. unfold r_lt. destruct (Rlt_dec _ _) as [L|]; [|reflexivity]. exfalso.
    specialize (P i ltac:(lia)). cbn zeta in P. apply Rabs_le_inv in P.
    assert (C : (i * r + 1 <= n - 1)%nat) by (assert (i * r <= q * r)%nat by (apply Nat.mul_le_mono_r; lia); lia).
    apply le_INR in C. rewrite plus_INR in C. change (INR 1) with 1 in C.
    assert (INR (i * r) * dt + dt <= INR (n - 1) * dt) by (clear - C Ed; nra). fold h in L. lra.
  - intros Hi. cbn [Nat.add]. unfold r_lt. destruct (Rlt_dec _ _) as [|L]; [reflexivity|]. exfalso. apply L. clear L.
    specialize (P (S q) (le_n _)). cbn zeta in P. apply Rabs_le_inv in P. fold h.
    assert (C : (n - 1 + 1 <= S q * r)%nat) by (cbn; lia).
    apply le_INR in C. rewrite plus_INR in C. change (INR 1) with 1 in C.
    assert (INR (n - 1) * dt + dt <= INR (S q * r) * dt) by (clear - C Ed; nra). lra.
Qed.
End Rounded.
Print Assumptions C73_times_rounded_partial.
(** Ten slots of 1 s from 4871389388 s, intervals of four slots *)
Example C73_times_rounded_example : let first := 4871389388%R in
  ((10 - 1) mod 4 <> 0)%nat /\ (bpow radix2 (-10) <= 1)%R /\ (first + INR (10 + 4) * 1 <= IZR (2 ^ 33) - 1)%R /\ intervals 10 4 = 3%nat.
Proof. cbn zeta. repeat split; [discriminate|cbn; lra|cbn; lra]. Qed.
