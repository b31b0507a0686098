(** Properties of what the reader of a measurement set delivers for a time slot (steps/MsReader.cc). *)
From Coq Require Import QArith Qround Qcanon List Bool Arith ZArith Lia.
From Verif Require Import QcUtil AverageModel InfoModel InfoProofs CellsModel CellsSpec CellsProofs.
Import ListNotations.
Open Scope nat_scope.

Definition q (z : Z) : Qc := Q2Qc (inject_Z z).

(** * C40: channel selection *)

Lemma floor_unique x z : (q z <= x)%Qc -> (x < q z + 1)%Qc -> Qfloor (this x) = z.
Proof.
  intros H1 H2. unfold Qcle, Qclt in *. rewrite this_plus in H2. unfold q in *. rewrite this_Q2Qc in *.
  pose proof (Qfloor_le (this x)) as F1. pose proof (Qlt_floor (this x)) as F2.
  assert (inject_Z z < inject_Z (Qfloor (this x) + 1))%Q by (eapply Qle_lt_trans; eauto). rewrite <- Zlt_Qlt in H.
  assert (inject_Z (Qfloor (this x)) < inject_Z z + 1)%Q by (eapply Qle_lt_trans; eauto).
  change 1%Q with (inject_Z 1) in H0. rewrite <- inject_Z_plus, <- Zlt_Qlt in H0. lia.
Qed.
Lemma to_unsigned_floor x z : (0 <= z < 2 ^ 32)%Z -> (q z <= x)%Qc -> (x < q z + 1)%Qc -> to_unsigned x = Some z.
Proof.
  intros Hz H1 H2. unfold to_unsigned.
  replace (qltb x 0) with false.
  - rewrite (floor_unique x z) by auto. replace ((0 <=? z) && (z <? 2 ^ 32))%Z with true by (symmetry; apply andb_true_iff; lia). reflexivity.
  - symmetry. apply qltb_false. eapply Qcle_trans; [|exact H1]. unfold Qcle, q. rewrite !this_Q2Qc. change 0%Q with (inject_Z 0). rewrite <- Zle_Qle. lia.
Qed.

(** The channels are those that are asked for; zero channels means all from the start on; and there are no more than there are
    in the measurement set.  The values may be off a bit by rounding in the expression. *)
Theorem C40_selected : forall s n z m n_all,
  (0 <= z < 2 ^ 32)%Z -> (0 <= m < 2 ^ 32)%Z ->
  (q z - Q2Qc (1 # 1000) <= s)%Qc -> (s < q z + Q2Qc (999 # 1000))%Qc ->
  (q m - Q2Qc (1 # 10000) <= n)%Qc -> (n < q m + Q2Qc (9999 # 10000))%Qc ->
  parse_channels s n n_all =
    if (z <? n_all)%Z then Ok (z, if (m =? 0)%Z then n_all - z else Z.min m (n_all - z))%Z else Throw.
Proof.
  intros s n z m n_all Hz Hm S1 S2 N1 N2. unfold parse_channels.
  assert (C1 : forall x y, (x < y + Q2Qc (999 # 1000) -> x + Q2Qc (1 # 1000) < y + 1)%Qc).
  { intros x y H. replace 1%Qc with (Q2Qc (999 # 1000) + Q2Qc (1 # 1000))%Qc by (apply Qc_is_canon; reflexivity). qclra. }
  assert (C2 : forall x y, (x < y + Q2Qc (9999 # 10000) -> x + Q2Qc (1 # 10000) < y + 1)%Qc).
  { intros x y H. replace 1%Qc with (Q2Qc (9999 # 10000) + Q2Qc (1 # 10000))%Qc by (apply Qc_is_canon; reflexivity). qclra. }
  rewrite (to_unsigned_floor _ z), (to_unsigned_floor _ m); auto; try qclra.
  destruct (Z.leb_spec n_all z), (Z.ltb_spec z n_all); try lia; auto.
Qed.
Print Assumptions C40_selected.
(** Whatever is accepted is a range of existing channels. *)
Theorem C40_inside : forall s n n_all z m, parse_channels s n n_all = Ok (z, m) -> (0 <= z /\ 1 <= m /\ z + m <= n_all)%Z.
Proof.
  intros s n n_all z m H. unfold parse_channels in H.
  assert (P : forall x y, to_unsigned x = Some y -> (0 <= y)%Z).
  { intros x y E. unfold to_unsigned in E. destruct (_ && _)%bool eqn:B; [|discriminate]. injection E as <-. apply andb_true_iff in B as [B _]. now apply Z.leb_le in B. }
  destruct (to_unsigned _) as [a|] eqn:E1; [|discriminate]. destruct (to_unsigned (n + _)%Qc) as [b|] eqn:E2; [|discriminate].
  apply P in E1, E2. destruct (Z.leb_spec n_all a); [discriminate|]. injection H as <- <-. destruct (Z.eqb_spec b 0); lia.
Qed.
Print Assumptions C40_inside.
Example C40_case : parse_channels (q 3) (q 10) 8 = Ok (3, 5)%Z /\ parse_channels (Q2Qc (2999999 # 1000000)) (q 0) 8 = Ok (3, 5)%Z /\
  parse_channels (q 2) (q 4) 8 = Ok (2, 4)%Z /\ parse_channels (q 8) (q 1) 8 = Throw.
Proof. repeat split; vm_compute; reflexivity. Qed.
(** A negative number is not refused: minus one is taken as zero, and the conversion of others is undefined behaviour. *)
Theorem C40_negative_refuted : exists s n, (s < 0)%Qc /\ (n < 0)%Qc /\
  parse_channels s 0%Qc 8 = Undefined /\ parse_channels 0%Qc n 8 = Undefined /\ parse_channels (q (-1)) (q (-1)) 8 = Ok (0, 8)%Z.
Proof. exists (q (-2)), (q (-2)). repeat split; vm_compute; reflexivity. Qed.
Print Assumptions C40_negative_refuted.

(** * C41: visibilities and flags *)

Section Reader.
Variables (D : Type) (zero : D) (finite : D -> bool) (re : D -> Qc).

(** The rows of a time slot in a measurement set of [n_all] channels, of which the selected ones exist *)
Definition well_formed (s : settings) (n_all : nat) (rows : list (row D)) : Prop :=
  start s + n_chan s <= n_all /\ length rows = n_bl s /\
  Forall (fun r => shaped n_all (n_corr s) (r_data r) /\ shaped n_all (n_corr s) (r_flag r) /\ length (r_weight r) = n_corr s /\
                   shaped n_all (n_corr s) (r_spectrum r)) rows.
Definition no_row : row D := MkRow [] [] false [] [].

Lemma column_length {A} s n_all rows (f : row D -> list (list A)) : start s + n_chan s <= n_all ->
  Forall (fun r => shaped n_all (n_corr s) (f r)) rows -> length (column s f rows) = length rows * (n_chan s * n_corr s).
Proof.
  intros H F. apply length_flat_blocks. eapply Forall_impl; [|exact F]. cbn. intros r Hr. now apply slice_shape with n_all.
Qed.
Lemma column_value {A} s n_all rows (f : row D -> list (list A)) b c p d : start s + n_chan s <= n_all ->
  Forall (fun r => shaped n_all (n_corr s) (f r)) rows -> b < length rows -> c < n_chan s -> p < n_corr s ->
  value (n_chan s) (n_corr s) (column s f rows) b c p d = stored (f (nth b rows no_row)) (start s + c) p d.
Proof.
  intros H F Hb Hc Hp. unfold column. rewrite blocks_value with (dx := no_row); auto.
  - apply slice_nth with n_all; auto. rewrite Forall_forall in F. apply F. now apply nth_In.
  - eapply Forall_impl; [|exact F]. cbn. intros r Hr. now apply slice_shape with n_all.
Qed.

(** The flags before non-finite data is looked for *)
Lemma flags_value s n_all rows b c p : well_formed s n_all rows -> b < n_bl s -> c < n_chan s -> p < n_corr s ->
  let flags := if use_flags s then flat_map (fun r => if r_flag_row r then repeat true (n_chan s * n_corr s) else slice s (r_flag r)) rows
               else repeat false (n_bl s * n_chan s * n_corr s) in
  length flags = n_bl s * n_chan s * n_corr s /\
  value (n_chan s) (n_corr s) flags b c p false =
    use_flags s && (r_flag_row (nth b rows no_row) || stored (r_flag (nth b rows no_row)) (start s + c) p false).
Proof.
  intros (H & L & F) Hb Hc Hp flags. subst flags. destruct (use_flags s); cbn [andb].
  - assert (G : Forall (fun r : row D => length (if r_flag_row r then repeat true (n_chan s * n_corr s) else slice s (r_flag r)) = n_chan s * n_corr s) rows).
    { eapply Forall_impl; [|exact F]. cbn. intros r (_ & R & _). destruct (r_flag_row r); [apply repeat_length|now apply slice_shape with n_all]. }
    split. { rewrite (length_flat_blocks _ _ _ G). nia. }
    rewrite blocks_value with (dx := no_row) by (auto; lia). destruct (r_flag_row _); cbn [orb].
    + apply nth_repeat'. nia.
    + apply slice_nth with n_all; auto. rewrite Forall_forall in F. apply F. apply nth_In. lia.
  - split; [apply repeat_length|]. apply nth_repeat'. now apply below_cube.
Qed.

(** A stored time slot: the visibilities are those of the selected channels of the measurement set.  All correlations of a
    sample are flagged exactly if one of them is flagged in the measurement set (and the user wants its flags), the row is, or
    one of them is not finite. *)
Theorem C41_stored : forall s n_all rows counts out counts',
  well_formed s n_all rows -> missing_data s = false -> read_data s = true -> read_flags s = true ->
  read_cells zero finite re s (Some rows) counts = Ok (out, counts') ->
  length (c_data out) = n_bl s * n_chan s * n_corr s /\ length (c_flags out) = n_bl s * n_chan s * n_corr s /\
  forall b c p, b < n_bl s -> c < n_chan s -> p < n_corr s ->
    let r := nth b rows no_row in
    value (n_chan s) (n_corr s) (c_data out) b c p zero = stored (r_data r) (start s + c) p zero /\
    value (n_chan s) (n_corr s) (c_flags out) b c p false =
      any (n_corr s) (fun k => (use_flags s && (r_flag_row r || stored (r_flag r) (start s + c) k false)) ||
                               negb (finite (stored (r_data r) (start s + c) k zero))).
Proof.
  intros s n_all rows counts out counts' W Hm Hd Hf H. pose proof W as (Hs & L & F).
  unfold read_cells in H. rewrite L, Nat.eqb_refl, Hm, Hd, Hf in H. cbn [negb] in H. unfold get_flags in H.
  set (flags := if use_flags s then _ else _) in H.
  assert (Fd : Forall (fun r : row D => shaped n_all (n_corr s) (r_data r)) rows) by (eapply Forall_impl; [|exact F]; cbn; tauto).
  set (data := column s r_data rows) in *.
  assert (Ld : length data = n_bl s * n_chan s * n_corr s) by (subst data; rewrite (column_length s n_all); auto; nia).
  destruct (flag_infinity_nan zero finite (n_corr s) data (flags, counts)) as [f1 c1] eqn:E.
  assert (O : c_data out = data /\ c_flags out = f1).
  { destruct (read_weights s); [destruct (get_weights _ _ _ _ _); try discriminate|]; injection H as <- <-; auto. }
  clear H. destruct O as [-> ->]. split; auto. destruct (Nat.eq_dec (n_bl s * n_chan s * n_corr s) 0) as [Z0|NZ].
  { assert (flags = []).
    { apply length_zero_iff_nil. rewrite Z0 in Ld. subst flags. destruct (use_flags s).
      - rewrite length_flat_blocks with (n := n_chan s * n_corr s); [lia|]. eapply Forall_impl; [|exact F]. cbn. intros r (_ & R & _).
        destruct (r_flag_row r); [apply repeat_length|now apply slice_shape with n_all].
      - rewrite repeat_length. lia. }
    rewrite H in E. rewrite Z0 in Ld. apply length_zero_iff_nil in Ld. rewrite Ld in E. cbn in E. injection E as <- <-. split; [cbn; lia|].
    intros b c p Hb Hc Hp. exfalso. apply Nat.eq_mul_0 in Z0. nia. }
  assert (Hlen : length flags = n_bl s * n_chan s * n_corr s).
  { pose proof (flags_value s n_all rows 0 0 0 W ltac:(nia) ltac:(nia) ltac:(nia)) as [G _]. exact G. }
  unfold flag_infinity_nan in E. destruct data as [|d0 dr] eqn:Edata; [cbn in Ld; lia|]. rewrite <- Edata in *.
  pose proof (samples D zero finite (n_corr s) data (length data / n_corr s) 0 flags counts) as G.
  rewrite Ld in G, E. rewrite Nat.div_mul in G, E by nia. cbn [Nat.add] in G. destruct G as (G1 & _ & G3 & _); [lia|]. rewrite E in G1, G3. cbn [fst] in G1, G3.
  split; [lia|]. intros b c p Hb Hc Hp r. split. { subst data. apply column_value with n_all; auto. lia. }
  unfold value. rewrite G3 by (rewrite Hlen; now apply below_cube). replace (0 * n_corr s <=? _) with true by reflexivity.
  replace ((b * n_chan s + c) * n_corr s + p <? n_bl s * n_chan s * n_corr s) with true by (symmetry; apply Nat.ltb_lt; now apply below_cube). cbn [andb].
  replace (((b * n_chan s + c) * n_corr s + p) / n_corr s) with (b * n_chan s + c) by (apply Nat.div_unique with p; lia).
  unfold any. replace (seq ((b * n_chan s + c) * n_corr s) (n_corr s)) with (map (fun k => (b * n_chan s + c) * n_corr s + k) (seq 0 (n_corr s))).
  2: { generalize (n_corr s) at 2 4. intros n. generalize ((b * n_chan s + c) * n_corr s). intros a.
       assert (M : forall n k, map (fun k => a + k) (seq k n) = seq (a + k) n).
       { induction n0; intros k; cbn; auto. f_equal. rewrite IHn0. f_equal. lia. }
       rewrite M. f_equal. lia. }
  clear G3 G1 E.
  assert (Q : forall l, (forall k, In k l -> k < n_corr s) ->
    existsb (hit D zero finite data flags) (map (fun k => (b * n_chan s + c) * n_corr s + k) l) =
    existsb (fun k => (use_flags s && (r_flag_row r || stored (r_flag r) (start s + c) k false)) || negb (finite (stored (r_data r) (start s + c) k zero))) l).
  { induction l as [|k l IH]; intros Hl; cbn [map existsb]; auto. rewrite IH by (intros; apply Hl; now right). f_equal.
    assert (Hk : k < n_corr s) by (apply Hl; now left). unfold hit, bad.
    pose proof (column_value s n_all rows r_data b c k zero Hs Fd ltac:(lia) Hc Hk) as V1. unfold value in V1. fold r in V1.
    pose proof (flags_value s n_all rows b c k W Hb Hc Hk) as [_ V2]. fold flags in V2. unfold value in V2. fold r in V2.
    rewrite V2, orb_comm. f_equal. do 2 f_equal. exact V1. }
  apply Q. intros k Hk. now apply in_seq in Hk.
Qed.

(** A time slot that is inserted is flagged and has weight zero and visibilities zero; it counts no flags. *)
Theorem C41_inserted : forall s counts, exists out,
  read_cells zero finite re s None counts = Ok (out, counts) /\
  (read_flags s = true -> c_flags out = repeat true (n_bl s * n_chan s * n_corr s)) /\
  (read_weights s = true -> c_weights out = repeat 0%Qc (n_bl s * n_chan s * n_corr s)) /\
  (read_data s = true -> c_data out = repeat zero (n_bl s * n_chan s * n_corr s)).
Proof.
  intros s counts. eexists. split; [reflexivity|]. cbn. repeat split; intros ->; reflexivity.
Qed.
(** So is one without a column of data, except for the weights. *)
Theorem C41_no_column : forall s rows counts out counts', missing_data s = true ->
  read_cells zero finite re s (Some rows) counts = Ok (out, counts') ->
  counts' = counts /\ (read_flags s = true -> c_flags out = repeat true (n_bl s * n_chan s * n_corr s)) /\
  (read_data s = true -> c_data out = repeat zero (n_bl s * n_chan s * n_corr s)).
Proof.
  intros s rows counts out counts' Hm H. unfold read_cells in H. rewrite Hm in H. destruct (negb _); [discriminate|].
  destruct (read_weights s); [destruct (get_weights _ _ _ _ _); try discriminate|]; injection H as <- <-; cbn; repeat split; intros ->; reflexivity.
Qed.
(** A time slot with another number of rows is refused. *)
Theorem C41_irregular : forall s rows counts, length rows <> n_bl s -> read_cells zero finite re s (Some rows) counts = Throw.
Proof. intros s rows counts H. unfold read_cells. apply Nat.eqb_neq in H. now rewrite H. Qed.

(** The count of a correlation is that of the samples in which it is not finite and no earlier correlation is flagged or not
    finite. *)
Theorem C41_counted : forall s n_all rows counts out counts',
  well_formed s n_all rows -> missing_data s = false -> read_data s = true -> read_flags s = true -> length counts = n_corr s ->
  read_cells zero finite re s (Some rows) counts = Ok (out, counts') ->
  forall p, p < n_corr s -> nth p counts' 0 = nth p counts 0 +
    number (fun bc : nat * nat =>
      let r := nth (fst bc) rows no_row in let ch := start s + snd bc in
      negb (finite (stored (r_data r) ch p zero)) &&
      negb (any p (fun k => (use_flags s && (r_flag_row r || stored (r_flag r) ch k false)) || negb (finite (stored (r_data r) ch k zero)))))
    (list_prod (seq 0 (n_bl s)) (seq 0 (n_chan s))).
Proof.
  intros s n_all rows counts out counts' W Hm Hd Hf Hc0 H p Hp. pose proof W as (Hs & L & F).
  unfold read_cells in H. rewrite L, Nat.eqb_refl, Hm, Hd, Hf in H. cbn [negb] in H. unfold get_flags in H.
  set (flags := if use_flags s then _ else _) in H.
  assert (Fd : Forall (fun r : row D => shaped n_all (n_corr s) (r_data r)) rows) by (eapply Forall_impl; [|exact F]; cbn; tauto).
  set (data := column s r_data rows) in *.
  assert (Ld : length data = n_bl s * n_chan s * n_corr s) by (subst data; rewrite (column_length s n_all); auto; nia).
  destruct (flag_infinity_nan zero finite (n_corr s) data (flags, counts)) as [f1 c1] eqn:E.
  assert (O : counts' = c1).
  { destruct (read_weights s); [destruct (get_weights _ _ _ _ _); try discriminate|]; injection H as <- <-; auto. }
  clear H. subst counts'. destruct (Nat.eq_dec (n_bl s * n_chan s) 0) as [Z0|NZ].
  { rewrite Z0 in Ld. apply length_zero_iff_nil in Ld. rewrite Ld in E. cbn in E. injection E as <- <-.
    assert (list_prod (seq 0 (n_bl s)) (seq 0 (n_chan s)) = []) as ->; [|cbn; lia].
    apply length_zero_iff_nil. rewrite prod_length, !seq_length. auto. }
  assert (Hlen : length flags = n_bl s * n_chan s * n_corr s).
  { pose proof (flags_value s n_all rows 0 0 0 W ltac:(nia) ltac:(nia) ltac:(nia)) as [G _]. exact G. }
  unfold flag_infinity_nan in E. destruct data as [|d0 dr] eqn:Edata; [cbn in Ld; nia|]. rewrite <- Edata in *.
  pose proof (samples D zero finite (n_corr s) data (length data / n_corr s) 0 flags counts) as G.
  rewrite Ld in G, E. rewrite Nat.div_mul in G, E by nia. cbn [Nat.add] in G. destruct G as (_ & _ & _ & G4); [lia|]. rewrite E in G4. cbn [snd] in G4.
  rewrite G4 by lia. f_equal. clear G4 E. unfold number.
  assert (P : seq 0 (n_bl s * n_chan s) = map (fun bc : nat * nat => fst bc * n_chan s + snd bc) (list_prod (seq 0 (n_bl s)) (seq 0 (n_chan s)))).
  { generalize (n_bl s) (n_chan s). intros m n. clear. assert (G : forall m k, seq (k * n) (m * n) = map (fun bc : nat * nat => fst bc * n + snd bc) (list_prod (seq k m) (seq 0 n))).
    { induction m0; intros k; cbn [Nat.mul seq list_prod map]; auto. rewrite seq_app, map_app. f_equal.
      - rewrite map_map. cbn [fst snd]. generalize (k * n). intros a. assert (M : forall n j, seq (a + j) n = map (fun x => a + x) (seq j n)).
        { induction n0; intros j; cbn; auto. f_equal. rewrite <- IHn0. f_equal. lia. }
        rewrite <- M. f_equal. lia.
      - replace (k * n + n) with (S k * n) by lia. apply IHm0. }
    exact (G m 0). }
  rewrite P. clear P.
  assert (Q : forall l, (forall bc, In bc l -> fst bc < n_bl s /\ snd bc < n_chan s) ->
    length (filter (fun g => bad D zero finite data (g * n_corr s + p) && negb (existsb (hit D zero finite data flags) (seq (g * n_corr s) p)))
             (map (fun bc : nat * nat => fst bc * n_chan s + snd bc) l)) =
    length (filter (fun bc : nat * nat =>
      let r := nth (fst bc) rows no_row in let ch := start s + snd bc in
      negb (finite (stored (r_data r) ch p zero)) &&
      negb (any p (fun k => (use_flags s && (r_flag_row r || stored (r_flag r) ch k false)) || negb (finite (stored (r_data r) ch k zero))))) l)).
  { induction l as [|[b c] l IH]; intros Hl; cbn [map filter]; auto. specialize (IH (fun bc H => Hl bc (or_intror H))).
    destruct (Hl (b, c) (or_introl eq_refl)) as [Hb Hc]. cbn [fst snd] in *. set (r := nth b rows no_row) in *. cbv zeta.
    assert (V1 : forall k, k < n_corr s -> nth ((b * n_chan s + c) * n_corr s + k) data zero = stored (r_data r) (start s + c) k zero).
    { intros k Hk. pose proof (column_value s n_all rows r_data b c k zero Hs Fd ltac:(lia) Hc Hk) as V. unfold value in V. fold r in V. exact V. }
    assert (V2 : forall k, k < n_corr s -> nth ((b * n_chan s + c) * n_corr s + k) flags false = use_flags s && (r_flag_row r || stored (r_flag r) (start s + c) k false)).
    { intros k Hk. exact (proj2 (flags_value s n_all rows b c k W Hb Hc Hk)). }
    assert (X : existsb (hit D zero finite data flags) (seq ((b * n_chan s + c) * n_corr s) p) =
      any p (fun k => (use_flags s && (r_flag_row r || stored (r_flag r) (start s + c) k false)) || negb (finite (stored (r_data r) (start s + c) k zero)))).
    { unfold any. assert (M : forall n j, j + n <= n_corr s -> existsb (hit D zero finite data flags) (seq ((b * n_chan s + c) * n_corr s + j) n) =
        existsb (fun k => (use_flags s && (r_flag_row r || stored (r_flag r) (start s + c) k false)) || negb (finite (stored (r_data r) (start s + c) k zero))) (seq j n)).
      { induction n; intros j Hj; cbn [seq existsb]; auto. rewrite <- IHn by lia. f_equal; [|do 2 f_equal; lia].
        unfold hit, bad. rewrite V1, V2 by lia. apply orb_comm. }
      rewrite <- M by lia. do 2 f_equal. lia. }
    unfold bad at 1. rewrite V1, X by auto. destruct (_ && _); cbn [length]; now rewrite IH. }
  apply Q. intros [b c] Hbc. apply in_prod_iff in Hbc as [Hb Hc]. apply in_seq in Hb, Hc. cbn. lia.
Qed.

(** * C59: weights *)

(** The weight in the measurement set; a weight of zero for the whole spectrum means one *)
Definition ms_weight (s : settings) (r : row D) (c p : nat) : Qc :=
  if has_spectrum s then stored (r_spectrum r) (start s + c) p 0%Qc
  else if Qc_eq_bool (nth p (r_weight r) 0%Qc) 0 then 1%Qc else nth p (r_weight r) 0%Qc.
Definition plain_weights (s : settings) (rows : list (row D)) : list Qc :=
  if has_spectrum s then column s r_spectrum rows
  else flat_map (fun r => concat (repeat (map (fun x => if Qc_eq_bool x 0 then 1%Qc else x) (r_weight r)) (n_chan s))) rows.

Lemma plain_value s n_all rows : well_formed s n_all rows ->
  length (plain_weights s rows) = n_bl s * n_chan s * n_corr s /\
  forall b c p, b < n_bl s -> c < n_chan s -> p < n_corr s ->
  value (n_chan s) (n_corr s) (plain_weights s rows) b c p 0%Qc = ms_weight s (nth b rows no_row) c p.
Proof.
  intros (Hs & L & F). unfold plain_weights, ms_weight. destruct (has_spectrum s).
  - assert (Fs : Forall (fun r : row D => shaped n_all (n_corr s) (r_spectrum r)) rows) by (eapply Forall_impl; [|exact F]; cbn; tauto).
    split. { rewrite (column_length s n_all) by auto. nia. }
    intros b c p Hb Hc Hp. apply column_value with n_all; auto. lia.
  - assert (R : forall r : row D, length (r_weight r) = n_corr s ->
       Forall (fun x => length x = n_corr s) (repeat (map (fun x => if Qc_eq_bool x 0 then 1%Qc else x) (r_weight r)) (n_chan s))).
    { intros r Hr. apply Forall_forall. intros x Hx. apply repeat_spec in Hx as ->. now rewrite map_length. }
    assert (G : Forall (fun r : row D => length (concat (repeat (map (fun x => if Qc_eq_bool x 0 then 1%Qc else x) (r_weight r)) (n_chan s))) = n_chan s * n_corr s) rows).
    { eapply Forall_impl; [|exact F]. cbn. intros r (_ & _ & Hr & _). rewrite concat_blocks, length_flat_blocks with (n := n_corr s) by auto. now rewrite repeat_length. }
    split. { rewrite (length_flat_blocks _ _ _ G). nia. }
    intros b c p Hb Hc Hp. rewrite blocks_value with (dx := no_row) by (auto; lia).
    assert (Hr : length (r_weight (nth b rows no_row)) = n_corr s) by (rewrite Forall_forall in F; apply F, nth_In; lia).
    rewrite concat_blocks, nth_flat_blocks with (n := n_corr s) (dx := []) by (auto; rewrite repeat_length; auto).
    rewrite nth_repeat' by auto. set (f := fun x => if Qc_eq_bool x 0 then 1%Qc else x). 
    rewrite nth_indep with (d' := f 0%Qc) by (rewrite map_length; lia). rewrite map_nth. reflexivity.
Qed.

(** Without automatic weights *)
Theorem C59_stored : forall s n_all rows counts out counts',
  well_formed s n_all rows -> read_weights s = true -> auto_weight s = false ->
  read_cells zero finite re s (Some rows) counts = Ok (out, counts') ->
  length (c_weights out) = n_bl s * n_chan s * n_corr s /\
  forall b c p, b < n_bl s -> c < n_chan s -> p < n_corr s ->
    value (n_chan s) (n_corr s) (c_weights out) b c p 0%Qc = ms_weight s (nth b rows no_row) c p.
Proof.
  intros s n_all rows counts out counts' W Hw Ha H. unfold read_cells in H. destruct (negb _); [discriminate|]. rewrite Hw in H.
  unfold get_weights in H. rewrite Ha in H. fold (plain_weights s rows) in H.
  destruct (if missing_data s then _ else _) as [[data flags] counts1]. injection H as <- <-. cbn [c_weights]. now apply plain_value with n_all.
Qed.

(** The autocorrelation of a station *)
Definition autocorrelation (s : settings) (a k : nat) : Prop := k < n_bl s /\ nth k (ant1 s) 0 = a /\ nth k (ant2 s) 0 = a.
Lemma auto_index_some s a k : (forall k k', autocorrelation s a k -> autocorrelation s a k' -> k = k') -> autocorrelation s a k -> auto_index s a = Some k.
Proof.
  intros U (Hk & H1 & H2). unfold auto_index.
  assert (G : forall n j r, j + n <= n_bl s -> (j <= k < j + n \/ r = Some k) -> (r = None \/ r = Some k) ->
    fold_left (fun r b => if (nth b (ant1 s) 0 =? a) && (nth b (ant2 s) 0 =? a) then Some b else r) (seq j n) r = Some k).
  { induction n; intros j r Hn Hj Hr; cbn [seq fold_left]. { destruct Hj; [lia|auto]. }
    destruct ((nth j (ant1 s) 0 =? a) && (nth j (ant2 s) 0 =? a)) eqn:E.
    - apply andb_true_iff in E as [E1 E2]. apply Nat.eqb_eq in E1, E2.
      assert (j = k) as -> by (apply U; split; auto; lia). apply IHn; auto. lia.
    - apply IHn; auto; try lia. destruct Hj as [Hj|Hj]; auto. left. destruct (Nat.eq_dec j k) as [->|]; [|lia].
      rewrite H1, H2, Nat.eqb_refl in E. discriminate. }
  apply G; auto; lia.
Qed.
Lemma auto_index_none s a : (forall k, ~ autocorrelation s a k) -> auto_index s a = None.
Proof.
  intros U. unfold auto_index.
  assert (G : forall n j, j + n <= n_bl s ->
    fold_left (fun r b => if (nth b (ant1 s) 0 =? a) && (nth b (ant2 s) 0 =? a) then Some b else r) (seq j n) (@None nat) = None).
  { induction n; intros j Hn; cbn [seq fold_left]; auto.
    destruct ((nth j (ant1 s) 0 =? a) && (nth j (ant2 s) 0 =? a)) eqn:E; [|apply IHn; lia].
    apply andb_true_iff in E as [E1 E2]. apply Nat.eqb_eq in E1, E2. exfalso. apply (U j). split; auto. lia. }
  apply G. lia.
Qed.

Lemma auto_sample_length npol w a1 a2 l : length (auto_weight_sample npol w a1 a2 l) = length l.
Proof. unfold auto_weight_sample. repeat (destruct (_ || _) || destruct (npol =? _)); rewrite ?set_nth_length; auto. Qed.
Lemma auto_sample_nth npol w a1 a2 l p : length l = npol -> p < npol -> In npol [1; 2; 4] ->
  nth p (auto_weight_sample npol w a1 a2 l) 0%Qc =
    let '(i, j) := feeds npol p in
    let needed := if p =? 0 then [0] else [0; npol - 1] in
    if forallb (fun k => negb (Qc_eq_bool (a1 k) 0) && negb (Qc_eq_bool (a2 k) 0)) needed
    then (nth p l 0 * (w / (a1 i * a2 j)))%Qc else nth p l 0%Qc.
Proof.
  intros Hl Hp Hn. unfold auto_weight_sample.
  cbn in Hn. destruct Hn as [<-|[<-|[<-|[]]]]; cbn [Nat.eqb Nat.sub].
  - destruct l as [|x [|? ?]]; try discriminate. assert (p = 0) as -> by lia. cbn. destruct (Qc_eq_bool (a1 0) 0), (Qc_eq_bool (a2 0) 0); reflexivity.
  - destruct l as [|x [|y [|? ?]]]; try discriminate. destruct p as [|[|?]]; try lia; cbn;
      destruct (Qc_eq_bool (a1 0) 0), (Qc_eq_bool (a2 0) 0); cbn; try reflexivity; destruct (Qc_eq_bool (a1 1) 0), (Qc_eq_bool (a2 1) 0); reflexivity.
  - destruct l as [|x [|y [|z [|u [|? ?]]]]]; try discriminate. destruct p as [|[|[|[|?]]]]; try lia; cbn;
      destruct (Qc_eq_bool (a1 0) 0), (Qc_eq_bool (a2 0) 0); cbn; try reflexivity; destruct (Qc_eq_bool (a1 3) 0), (Qc_eq_bool (a2 3) 0); reflexivity.
Qed.

Lemma auto_value s n_all rows data : well_formed s n_all rows -> In (n_corr s) [1; 2; 4] ->
  length (auto_weights zero re s data (plain_weights s rows)) = n_bl s * n_chan s * n_corr s /\
  forall b c p, b < n_bl s -> c < n_chan s -> p < n_corr s ->
  value (n_chan s) (n_corr s) (auto_weights zero re s data (plain_weights s rows)) b c p 0%Qc =
  match auto_index s (nth b (ant1 s) 0), auto_index s (nth b (ant2 s) 0) with
  | Some k1, Some k2 =>
    let '(i, j) := feeds (n_corr s) p in
    let a1 k := re (value (n_chan s) (n_corr s) data k1 c k zero) in
    let a2 k := re (value (n_chan s) (n_corr s) data k2 c k zero) in
    if forallb (fun k => negb (Qc_eq_bool (a1 k) 0) && negb (Qc_eq_bool (a2 k) 0)) (if p =? 0 then [0] else [0; n_corr s - 1])
    then (ms_weight s (nth b rows no_row) c p * (nth c (widths s) 0 * interval s / (a1 i * a2 j)))%Qc
    else ms_weight s (nth b rows no_row) c p
  | _, _ => ms_weight s (nth b rows no_row) c p
  end.
Proof.
  intros W Hn. destruct (plain_value s n_all rows W) as [Lp Vp]. unfold auto_weights. set (w := plain_weights s rows) in *.
  set (cell := auto_cell zero re s data w).
  assert (Lc : forall b c, b < n_bl s -> c < n_chan s -> length (firstn (n_corr s) (skipn ((b * n_chan s + c) * n_corr s) w)) = n_corr s).
  { intros b c Hb Hc. rewrite firstn_length, skipn_length, Lp. pose proof (Nat.mul_le_mono_r (b * n_chan s + c + 1) (n_bl s * n_chan s) (n_corr s)) as M.
    pose proof (below b c _ _ Hb Hc). lia. }
  assert (Lcell : forall b c, b < n_bl s -> c < n_chan s -> length (cell b c) = n_corr s).
  { intros b c Hb Hc. subst cell. unfold auto_cell. cbv zeta. destruct (auto_index _ _); [destruct (auto_index _ _)|]; rewrite ?auto_sample_length; auto. }
  assert (Lblock : Forall (fun b => length (flat_map (cell b) (seq 0 (n_chan s))) = n_chan s * n_corr s) (seq 0 (n_bl s))).
  { apply Forall_forall. intros b Hb. apply in_seq in Hb. rewrite length_flat_blocks with (n := n_corr s); [now rewrite seq_length|].
    apply Forall_forall. intros c Hc. apply in_seq in Hc. apply Lcell; lia. }
  split. { rewrite (length_flat_blocks _ _ _ Lblock), seq_length. nia. }
  intros b c p Hb Hc Hp. rewrite blocks_value with (dx := 0) by (auto; rewrite ?seq_length; auto). rewrite seq_nth by auto. cbn [Nat.add].
  rewrite nth_flat_blocks with (n := n_corr s) (dx := 0).
  2: { apply Forall_forall. intros c' Hc'. apply in_seq in Hc'. apply Lcell; lia. }
  2: { now rewrite seq_length. } 2: { auto. }
  rewrite seq_nth by auto. cbn [Nat.add]. subst cell. unfold auto_cell. cbv zeta.
  assert (Eo : nth p (firstn (n_corr s) (skipn ((b * n_chan s + c) * n_corr s) w)) 0%Qc = ms_weight s (nth b rows no_row) c p).
  { rewrite nth_firstn', nth_skipn' by auto. apply Vp; auto. }
  destruct (auto_index s (nth b (ant1 s) 0)) as [k1|]; auto. destruct (auto_index s (nth b (ant2 s) 0)) as [k2|]; auto.
  rewrite auto_sample_nth by auto. unfold value. rewrite Eo. reflexivity.
Qed.

(** With automatic weights: each weight is divided by the product of the two autocorrelations, per bandwidth and time; *)
Theorem C59_auto : forall s n_all rows counts out counts',
  well_formed s n_all rows -> missing_data s = false -> read_data s = true -> read_weights s = true -> auto_weight s = true ->
  In (n_corr s) [1; 2; 4] ->
  (forall a k k', autocorrelation s a k -> autocorrelation s a k' -> k = k') ->
  read_cells zero finite re s (Some rows) counts = Ok (out, counts') ->
  forall b c p k1 k2, b < n_bl s -> c < n_chan s -> p < n_corr s ->
    autocorrelation s (nth b (ant1 s) 0) k1 -> autocorrelation s (nth b (ant2 s) 0) k2 ->
    let auto k p := re (stored (r_data (nth k rows no_row)) (start s + c) p zero) in
    (forall k, In k [0; n_corr s - 1] -> auto k1 k <> 0%Qc /\ auto k2 k <> 0%Qc) ->
    let '(i, j) := feeds (n_corr s) p in
    value (n_chan s) (n_corr s) (c_weights out) b c p 0%Qc =
      (ms_weight s (nth b rows no_row) c p * (nth c (widths s) 0 * interval s / (auto k1 i * auto k2 j)))%Qc.
Proof.
  intros s n_all rows counts out counts' W Hm Hd Hw Ha Hn U H b c p k1 k2 Hb Hc Hp A1 A2 auto NZ.
  unfold read_cells in H. destruct (negb _); [discriminate|]. rewrite Hm, Hd, Hw in H. unfold get_weights in H. rewrite Ha, Hd in H.
  fold (plain_weights s rows) in H. set (data := column s r_data rows) in *.
  assert (c_weights out = auto_weights zero re s data (plain_weights s rows)) as ->.
  { destruct (read_flags s); [destruct (get_flags _ _ _ _ _ _)|]; injection H as <- <-; reflexivity. }
  clear H. destruct (auto_value s n_all rows data W Hn) as [_ V]. specialize (V b c p Hb Hc Hp).
  rewrite (auto_index_some s _ k1), (auto_index_some s _ k2) in V; auto; try (intros; eapply U; eauto).
  assert (E : forall k p', k < n_bl s -> p' < n_corr s -> re (value (n_chan s) (n_corr s) data k c p' zero) = auto k p').
  { intros k p' Hk Hp'. destruct W as (Hs & L & F). unfold auto. f_equal. subst data. apply column_value with n_all; auto; try lia.
    eapply Forall_impl; [|exact F]. cbn. tauto. }
  destruct A1 as [A1 _], A2 as [A2 _]. destruct (feeds (n_corr s) p) as [i j] eqn:Ef. rewrite V. clear V. cbv zeta beta.
  assert (I : i < n_corr s /\ j < n_corr s).
  { cbn in Hn. destruct Hn as [N|[N|[N|[]]]]; rewrite <- N in *; destruct p as [|[|[|[|?]]]]; try lia; cbn in Ef; injection Ef as <- <-; lia. }
  match goal with |- context [if ?f then _ else _] => replace f with true end; [now rewrite !E by tauto|]. symmetry. apply forallb_forall. intros k Hk.
  assert (Hk' : In k [0; n_corr s - 1]) by (destruct (p =? 0); cbn in *; tauto).
  assert (k < n_corr s) by (cbn in Hk'; destruct Hk' as [<-|[<-|[]]]; lia).
  rewrite !E by auto. destruct (NZ k Hk') as [N1 N2]. apply andb_true_iff.
  split; apply negb_true_iff, not_true_iff_false; intros X; apply Qc_eq_bool_correct in X; auto.
Qed.
(** and if an autocorrelation is missing or zero, it stays the one of the measurement set. *)
Theorem C59_auto_not : forall s n_all rows counts out counts',
  well_formed s n_all rows -> missing_data s = false -> read_data s = true -> read_weights s = true -> auto_weight s = true ->
  In (n_corr s) [1; 2; 4] ->
  (forall a k k', autocorrelation s a k -> autocorrelation s a k' -> k = k') ->
  read_cells zero finite re s (Some rows) counts = Ok (out, counts') ->
  forall b c p, b < n_bl s -> c < n_chan s -> p < n_corr s ->
    ((forall k, ~ autocorrelation s (nth b (ant1 s) 0) k) \/ (forall k, ~ autocorrelation s (nth b (ant2 s) 0) k) \/
     (exists k, (autocorrelation s (nth b (ant1 s) 0) k \/ autocorrelation s (nth b (ant2 s) 0) k) /\
        re (stored (r_data (nth k rows no_row)) (start s + c) 0 zero) = 0%Qc)) ->
    value (n_chan s) (n_corr s) (c_weights out) b c p 0%Qc = ms_weight s (nth b rows no_row) c p.
Proof.
  intros s n_all rows counts out counts' W Hm Hd Hw Ha Hn U H b c p Hb Hc Hp C.
  unfold read_cells in H. destruct (negb _); [discriminate|]. rewrite Hm, Hd, Hw in H. unfold get_weights in H. rewrite Ha, Hd in H.
  fold (plain_weights s rows) in H. set (data := column s r_data rows) in *.
  assert (c_weights out = auto_weights zero re s data (plain_weights s rows)) as ->.
  { destruct (read_flags s); [destruct (get_flags _ _ _ _ _ _)|]; injection H as <- <-; reflexivity. }
  clear H. destruct (auto_value s n_all rows data W Hn) as [_ V]. rewrite (V b c p Hb Hc Hp). clear V.
  destruct C as [C|[C|(k & A & Z0)]].
  - now rewrite auto_index_none.
  - rewrite (auto_index_none s _ C). now destruct (auto_index _ _).
  - assert (E : value (n_chan s) (n_corr s) data k c 0 zero = stored (r_data (nth k rows no_row)) (start s + c) 0 zero).
    { destruct W as (Hs & L & F). subst data. apply column_value with n_all; auto; try lia.
      - eapply Forall_impl; [|exact F]. cbn. tauto.
      - rewrite L. destruct A as [[A _]|[A _]]; auto. }
    destruct (auto_index s (nth b (ant1 s) 0)) as [k1|] eqn:E1; auto. destruct (auto_index s (nth b (ant2 s) 0)) as [k2|] eqn:E2; auto.
    destruct (feeds (n_corr s) p) as [i j]. cbv zeta beta. match goal with |- context [if forallb ?f ?l then _ else _] => replace (forallb f l) with false end; auto. symmetry. apply not_true_iff_false. intros X.
    rewrite forallb_forall in X. specialize (X 0 ltac:(destruct (p =? 0); cbn; auto)). apply andb_true_iff in X as [X1 X2].
    destruct A as [A|A].
    + rewrite (auto_index_some s _ k) in E1; auto; [|intros; eapply U; eauto]. injection E1 as <-. rewrite E, Z0 in X1. discriminate.
    + rewrite (auto_index_some s _ k) in E2; auto; [|intros; eapply U; eauto]. injection E2 as <-. rewrite E, Z0 in X2. discriminate.
Qed.
End Reader.
Print Assumptions C41_stored.
Print Assumptions C41_inserted.
Print Assumptions C41_no_column.
Print Assumptions C41_irregular.
Print Assumptions C41_counted.
Print Assumptions C59_stored.
Print Assumptions C59_auto.
Print Assumptions C59_auto_not.

(** The case: two stations, three baselines, two of three channels, two correlations.  A visibility is a real number, and
    negative ones are not finite. *)
Definition case_settings (data auto : bool) : settings :=
  MkSettings 3 [0; 0; 1] [0; 1; 1] 1 2 [q 3; q 5] (q 10) 2 data true true true auto false false.
Definition case_row (k : Z) (flag : bool) : row Qc :=
  MkRow [[q 0; q 0]; [q k; q (k + 1)]; [q (k - 9); q 2]] [[true; true]; [false; flag]; [false; false]] false [q 0; q k] [[q 1; q 1]; [q 1; q 1]; [q 1; q 1]].
Definition case_rows : list (row Qc) := [case_row 2 false; case_row 10 true; case_row 9 false].
Definition case_finite (x : Qc) : bool := negb (qltb x 0).
Example case_well_formed data auto : well_formed Qc (case_settings data auto) 3 case_rows.
Proof. split; [cbn; lia|]. split; [reflexivity|]. repeat constructor. Qed.
Example case_autocorrelation data auto : autocorrelation (case_settings data auto) 0 0 /\ autocorrelation (case_settings data auto) 1 2.
Proof. repeat split; cbn; lia. Qed.
Definition shown (o : outcome (cells Qc * list nat)) : option (list Q * list bool * list Q * list nat) :=
  match o with Ok (c, n) => Some (map this (c_data c), c_flags c, map this (c_weights c), n) | _ => None end.
Example C41_case : shown (read_cells 0%Qc case_finite (fun x => x) (case_settings true false) (Some case_rows) [7; 7]) =
  Some ([2; 3; -7; 2;  10; 11; 1; 2;  9; 10; 0; 2]%Q,
        [false; false; true; true;  true; true; false; false;  false; false; false; false],
        [1; 2; 1; 2;  1; 10; 1; 10;  1; 9; 1; 9]%Q, [8; 7]).
Proof. vm_compute. reflexivity. Qed.
Example C59_case : shown (read_cells 0%Qc case_finite (fun x => x) (case_settings true true) (Some case_rows) [7; 7]) =
  Some ([2; 3; -7; 2;  10; 11; 1; 2;  9; 10; 0; 2]%Q,
        [false; false; true; true;  true; true; false; false;  false; false; false; false],
        [15 # 2; 20 # 3; 50 # 49; 25;  5 # 3; 10; 1; 10;  10 # 27; 27 # 10; 1; 9]%Q, [8; 7]).
Proof. vm_compute. reflexivity. Qed.

(** If no step needs the visibilities they are not read, and the flags that are delivered are other ones: those of the other
    correlations and of non-finite data are not set. *)
Theorem C41_without_data_refuted : exists s s' out out' n n',
  read_flags s = true /\ s' = MkSettings (n_bl s) (ant1 s) (ant2 s) (start s) (n_chan s) (widths s) (interval s) (n_corr s) (negb (read_data s))
    (read_flags s) (read_weights s) (use_flags s) (auto_weight s) (missing_data s) (has_spectrum s) /\
  read_cells 0%Qc case_finite (fun x => x) s (Some case_rows) [0; 0] = Ok (out, n) /\
  read_cells 0%Qc case_finite (fun x => x) s' (Some case_rows) [0; 0] = Ok (out', n') /\ c_flags out <> c_flags out'.
Proof.
  exists (case_settings true false). eexists _, _, _, _, _. split; [reflexivity|]. split; [reflexivity|].
  split; [vm_compute; reflexivity|]. split; [vm_compute; reflexivity|]. cbn. discriminate.
Qed.
Print Assumptions C41_without_data_refuted.
(** The counts that are shown are not those of the non-finite values per correlation: here the second correlation of a sample
    is not finite, and is not counted. *)
Theorem C41_count_refuted : exists (rows : list (row Qc)) s out n, well_formed Qc s 1 rows /\
  read_cells 0%Qc case_finite (fun x => x) s (Some rows) [0; 0] = Ok (out, n) /\
  exists r, In r rows /\ case_finite (stored (r_data r) 0 1 0%Qc) = false /\ nth 1 n 0 = 0.
Proof.
  exists [MkRow [[q (-1); q (-1)]] [[false; false]] false [q 1; q 1] [[q 1; q 1]]],
         (MkSettings 1 [0] [1] 0 1 [q 1] (q 1) 2 true true false true false false false).
  eexists _, _. split; [repeat constructor|]. split; [vm_compute; reflexivity|]. eexists. split; [now left|]. split; reflexivity.
Qed.
Print Assumptions C41_count_refuted.
(** Automatic weights without visibilities read outside of the data. *)
Theorem C59_without_data_refuted : exists s rows counts, auto_weight s = true /\ read_weights s = true /\
  read_cells 0%Qc case_finite (fun x => x) s (Some rows) counts = Undefined.
Proof. exists (case_settings false true), case_rows, [0; 0]. repeat split; vm_compute; reflexivity. Qed.
Print Assumptions C59_without_data_refuted.
