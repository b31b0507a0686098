From Coq Require Import Reals List Bool Arith Lia Lra.
From Verif Require Import UvwFlagModel UvwFlagSpec.
Import ListNotations.
Open Scope R_scope.

Lemma rltb_true x y : rltb x y = true <-> x < y.
Proof. unfold rltb. destruct (Rlt_dec x y); split; auto; discriminate. Qed.
Lemma rltb_false x y : rltb x y = false <-> ~ x < y.
Proof. unfold rltb. destruct (Rlt_dec x y); split; auto; [discriminate|contradiction]. Qed.

Fixpoint in_pairs (x : R) (l : list R) : Prop :=
  match l with a :: b :: r => a < x < b \/ in_pairs x r | _ => False end.

Lemma test_range_iff x : forall n l, (length l <= n)%nat -> (test_range x l = true <-> in_pairs x l).
Proof.
  induction n; intros l H.
  - destruct l; [cbn; split; [discriminate|tauto]|cbn in H; lia].
  - destruct l as [|a [|b r]]; try (cbn; split; [discriminate|tauto]). cbn [test_range in_pairs length] in *.
    destruct (rltb a x && rltb x b) eqn:E.
    + apply andb_true_iff in E. rewrite !rltb_true in E. split; auto.
    + rewrite IHn by lia. split; [auto|]. intros [Hx|]; auto. exfalso. apply andb_false_iff in E. rewrite !rltb_false in E. destruct E; tauto.
Qed.

Lemma in_pairs_app x : forall n l m, length l = (2 * n)%nat -> (in_pairs x (l ++ m) <-> in_pairs x l \/ in_pairs x m).
Proof.
  induction n; intros l m H.
  - destruct l; [cbn; tauto|cbn in H; lia].
  - destruct l as [|a [|b r]]; cbn [length] in H; try lia. cbn [app in_pairs]. rewrite IHn by lia. tauto.
Qed.

Lemma flat_len s : exists n, length (flat_map range_values s) = (2 * n)%nat.
Proof.
  induction s as [|r s [n IH]]; [now exists 0%nat|]. exists (S n). cbn [flat_map]. rewrite app_length, IH.
  unfold range_values. destruct (u_pm r); cbn; lia.
Qed.

Lemma in_flat x (f : R -> R) s : in_pairs x (map f (flat_map range_values s)) <->
  exists r, In r s /\ if u_pm r then f (u_v1 r - u_v2 r) < x < f (u_v1 r + u_v2 r) else f (u_v1 r) < x < f (u_v2 r).
Proof.
  induction s as [|r s IH]; cbn [flat_map].
  - cbn. split; [tauto|]. intros (r & [] & _).
  - rewrite map_app, (in_pairs_app x 1) by (rewrite map_length; unfold range_values; destruct (u_pm r); reflexivity). rewrite IH.
    assert (E : in_pairs x (map f (range_values r)) <-> if u_pm r then f (u_v1 r - u_v2 r) < x < f (u_v1 r + u_v2 r) else f (u_v1 r) < x < f (u_v2 r)).
    { unfold range_values. destruct (u_pm r); cbn [map in_pairs]; tauto. }
    rewrite E. split.
    + intros [H|(r' & Hr & H)]; [exists r; split; [now left|exact H]|exists r'; split; [now right|exact H]].
    + intros (r' & [->|Hr] & H); [left; exact H|right; exists r'; auto].
Qed.

Lemma fill_map s (f : R -> R) : map f (flat_map range_values (s_ranges s) ++ (if rltb 0 (s_min s) then [- huge; s_min s] else []) ++ (if rltb 0 (s_max s) then [s_max s; huge] else []))
  = map f (flat_map range_values (s_ranges s)) ++ map f (if rltb 0 (s_min s) then [- huge; s_min s] else []) ++ map f (if rltb 0 (s_max s) then [s_max s; huge] else []).
Proof. now rewrite !map_app. Qed.

Lemma fill_pairs s (f : R -> R) x : in_pairs x (map f ((flat_map range_values (s_ranges s) ++ (if rltb 0 (s_min s) then [- huge; s_min s] else [])) ++ (if rltb 0 (s_max s) then [s_max s; huge] else []))) <->
  (exists r, In r (s_ranges s) /\ if u_pm r then f (u_v1 r - u_v2 r) < x < f (u_v1 r + u_v2 r) else f (u_v1 r) < x < f (u_v2 r)) \/
  (0 < s_min s /\ f (- huge) < x < f (s_min s)) \/ (0 < s_max s /\ f (s_max s) < x < f huge).
Proof.
  destruct (flat_len (s_ranges s)) as [n Hn]. rewrite <- app_assoc, fill_map, (in_pairs_app x n) by now rewrite map_length. rewrite in_flat.
  assert (E1 : forall m, in_pairs x (map f (if rltb 0 (s_min s) then [- huge; s_min s] else []) ++ m) <-> (0 < s_min s /\ f (- huge) < x < f (s_min s)) \/ in_pairs x m).
  { intros m. destruct (rltb 0 (s_min s)) eqn:E; [apply rltb_true in E|apply rltb_false in E]; cbn [map app in_pairs]; tauto. }
  rewrite E1.
  assert (E2 : in_pairs x (map f (if rltb 0 (s_max s) then [s_max s; huge] else [])) <-> (0 < s_max s /\ f (s_max s) < x < f huge)).
  { destruct (rltb 0 (s_max s)) eqn:E; [apply rltb_true in E|apply rltb_false in E]; cbn [map app in_pairs]; tauto. }
  rewrite E2. tauto.
Qed.

Lemma fill_plain s x : moderate x -> (in_pairs x (fill_uvw s false) <-> wanted s x).
Proof.
  intros Hx. unfold fill_uvw.
  rewrite <- (map_id ((flat_map range_values (s_ranges s) ++ _) ++ _)). rewrite fill_pairs. unfold wanted, moderate, huge in *.
  split; intros [H|[H|H]]; auto; right; [left|right|left|right]; (split; [tauto|]); lra.
Qed.

Lemma huge_pos : 1 < huge. Proof. unfold huge. simpl. lra. Qed.

Lemma square_pos x : 0 <= x -> square_value x = x * x.
Proof. intros H. unfold square_value. destruct (Req_EM_T x (- huge)) as [->|]; auto. exfalso. pose proof huge_pos. lra. Qed.
Lemma square_huge : square_value (- huge) = - huge.
Proof. unfold square_value. destruct (Req_EM_T (- huge) (- huge)); congruence. Qed.

Lemma sq_iff a b : 0 <= a -> 0 <= b -> (a * a < b * b <-> a < b).
Proof. intros Ha Hb. split; intros H; nra. Qed.

Lemma fill_square s d : distance_ranges s -> 0 <= d -> moderate d -> (in_pairs (d * d) (fill_uvw s true) <-> wanted s d).
Proof.
  intros Hs H0 Hx. unfold fill_uvw. rewrite fill_pairs. unfold wanted. pose proof huge_pos as Hh. rewrite square_huge.
  assert (E1 : (exists r, In r (s_ranges s) /\ if u_pm r then square_value (u_v1 r - u_v2 r) < d * d < square_value (u_v1 r + u_v2 r) else square_value (u_v1 r) < d * d < square_value (u_v2 r)) <->
    (exists r, In r (s_ranges s) /\ if u_pm r then u_v1 r - u_v2 r < d < u_v1 r + u_v2 r else u_v1 r < d < u_v2 r)).
  { split; intros (r & Hr & H); exists r; (split; [exact Hr|]); specialize (Hs r Hr); destruct (u_pm r);
    rewrite !square_pos, !sq_iff in * by lra; exact H. }
  rewrite E1.
  assert (E2 : 0 < s_min s /\ - huge < d * d < square_value (s_min s) <-> 0 < s_min s /\ d < s_min s).
  { split; intros [H1 H2]; (split; [exact H1|]); rewrite ?square_pos in * by lra.
    - apply sq_iff; lra.
    - split; [nra|apply sq_iff; lra]. }
  assert (E3 : 0 < s_max s /\ square_value (s_max s) < d * d < square_value huge <-> 0 < s_max s /\ s_max s < d).
  { unfold moderate in Hx. fold huge in Hx. split; intros [H1 H2]; (split; [exact H1|]); rewrite ?square_pos in * by lra.
    - apply sq_iff; lra.
    - split; apply sq_iff; lra. }
  rewrite E2, E3. tauto.
Qed.

(** * Flags *)
Lemma fill_true_nth pos n f i d : (pos + n <= length f)%nat ->
  nth i (fill_true pos n f) d = if ((pos <=? i) && (i <? pos + n))%nat then true else nth i f d.
Proof.
  intros H. unfold fill_true.
  assert (L : length (firstn pos f) = pos) by (rewrite firstn_length; lia).
  destruct (Nat.leb_spec pos i); cbn [andb].
  - rewrite app_nth2, L by lia. destruct (Nat.ltb_spec i (pos + n)).
    + rewrite app_nth1 by (rewrite repeat_length; lia). rewrite nth_indep with (d' := true) by (rewrite repeat_length; lia). apply nth_repeat.
    + rewrite app_nth2, repeat_length by (rewrite repeat_length; lia).
      rewrite <- (firstn_skipn (pos + n) f) at 2. rewrite app_nth2 by (rewrite firstn_length; lia). f_equal. rewrite firstn_length. lia.
  - rewrite app_nth1 by lia. rewrite <- (firstn_skipn pos f) at 2. now rewrite app_nth1 by lia.
Qed.
Lemma fill_true_length pos n f : (pos + n <= length f)%nat -> length (fill_true pos n f) = length f.
Proof. intros H. unfold fill_true. rewrite !app_length, firstn_length, repeat_length, skipn_length. lia. Qed.

Section Row.
Variables (ncorr : nat) (recwavel : list R).
Notation nchan := (length recwavel).

Lemma block_lt c n p : (c < n)%nat -> (p < ncorr)%nat -> (c * ncorr + p < n * ncorr)%nat.
Proof. intros. nia. Qed.
Lemma in_block c j p : (p < ncorr)%nat -> ((j * ncorr <=? c * ncorr + p) && (c * ncorr + p <? j * ncorr + ncorr))%nat = (j =? c)%nat.
Proof.
  intros Hp. destruct (Nat.eqb_spec j c) as [->|Hn].
  - apply andb_true_iff. split; [apply Nat.leb_le|apply Nat.ltb_lt]; lia.
  - apply not_true_is_false. rewrite andb_true_iff, Nat.leb_le, Nat.ltb_lt. intros [H1 H2]. destruct (Nat.lt_ge_cases j c); nia.
Qed.

Lemma test_lambda_spec x ranges f : length f = (nchan * ncorr)%nat ->
  length (test_lambda x ranges ncorr recwavel f) = length f /\
  forall c p, (c < nchan)%nat -> (p < ncorr)%nat ->
    nth (c * ncorr + p) (test_lambda x ranges ncorr recwavel f) false = nth (c * ncorr + p) f false || test_range (x * nth c recwavel 0) ranges.
Proof.
  intros Hf. unfold test_lambda.
  assert (G : forall n k, (k + n <= nchan)%nat -> forall f, length f = (nchan * ncorr)%nat ->
    let f' := fold_left (fun f j => if test_range (x * nth j recwavel 0) ranges then fill_true (j * ncorr) ncorr f else f) (seq k n) f in
    length f' = length f /\ forall c p, (c < nchan)%nat -> (p < ncorr)%nat ->
      nth (c * ncorr + p) f' false = nth (c * ncorr + p) f false || (((k <=? c) && (c <? k + n))%nat && test_range (x * nth c recwavel 0) ranges)).
  { induction n; intros k Hk g Hg; cbn [seq fold_left].
    - split; [reflexivity|]. intros c p Hc Hp. replace ((k <=? c) && (c <? k + 0))%nat with false; [now rewrite orb_false_r|].
      symmetry. apply not_true_is_false. rewrite andb_true_iff, Nat.leb_le, Nat.ltb_lt. lia.
    - assert (Hb : (k * ncorr + ncorr <= length g)%nat) by (rewrite Hg; nia).
      set (g' := if test_range (x * nth k recwavel 0) ranges then fill_true (k * ncorr) ncorr g else g).
      assert (Lg : length g' = length g) by (unfold g'; destruct (test_range _ _); [now apply fill_true_length|reflexivity]).
      destruct (IHn (S k) ltac:(lia) g' ltac:(congruence)) as [L N]. split; [congruence|]. intros c p Hc Hp. rewrite N by assumption.
      assert (E : nth (c * ncorr + p) g' false = nth (c * ncorr + p) g false || ((k =? c)%nat && test_range (x * nth c recwavel 0) ranges)).
      { unfold g'. destruct (Nat.eqb_spec k c) as [->|Hn].
        - destruct (test_range _ _); [|now rewrite orb_false_r]. rewrite fill_true_nth by exact Hb. rewrite in_block by exact Hp. rewrite Nat.eqb_refl. now rewrite orb_true_r.
        - rewrite orb_false_r. destruct (test_range _ _); [|reflexivity]. rewrite fill_true_nth by exact Hb. rewrite in_block by exact Hp.
          destruct (Nat.eqb_spec k c); [contradiction|reflexivity]. }
      rewrite E, <- orb_assoc. f_equal. rewrite <- andb_orb_distrib_l. f_equal.
      destruct (Nat.eqb_spec k c), (Nat.leb_spec (S k) c), (Nat.ltb_spec c (S k + n)), (Nat.leb_spec k c), (Nat.ltb_spec c (k + S n)); try reflexivity; lia. }
  destruct (G nchan 0%nat ltac:(lia) f Hf) as [L N]. split; [exact L|]. intros c p Hc Hp. rewrite N by assumption.
  replace ((0 <=? c) && (c <? 0 + nchan))%nat with true; [reflexivity|]. symmetry. apply andb_true_iff. split; [apply Nat.leb_le|apply Nat.ltb_lt]; lia.
Qed.

Lemma lambda_opt_spec x ranges f : length f = (nchan * ncorr)%nat ->
  length (lambda_opt x ranges ncorr recwavel f) = length f /\
  forall c p, (c < nchan)%nat -> (p < ncorr)%nat ->
    nth (c * ncorr + p) (lambda_opt x ranges ncorr recwavel f) false = nth (c * ncorr + p) f false || test_range (x * nth c recwavel 0) ranges.
Proof.
  intros Hf. unfold lambda_opt. destruct ranges as [|a r]; [|now apply test_lambda_spec].
  split; [reflexivity|]. intros. cbn. now rewrite orb_false_r.
Qed.

Lemma metre_opt_eq b x ranges : metre_opt b x ranges = b || test_range x ranges.
Proof. unfold metre_opt. destruct b; auto. destruct ranges; reflexivity. Qed.

Definition hit (g : uranges) (uvw : R * R * R) (rw : R) : bool :=
  let '(u, v, w) := uvw in
  test_range (u * u + v * v) (g_uvm g) || test_range u (g_um g) || test_range v (g_vm g) || test_range w (g_wm g) ||
  test_range (sqrt (u * u + v * v) * rw) (g_uvl g) || test_range (u * rw) (g_ul g) || test_range (v * rw) (g_vl g) || test_range (w * rw) (g_wl g).

Lemma do_flag_spec g uvw f : length f = (nchan * ncorr)%nat ->
  length (do_flag g uvw ncorr nchan recwavel f) = length f /\
  forall c p, (c < nchan)%nat -> (p < ncorr)%nat ->
    nth (c * ncorr + p) (do_flag g uvw ncorr nchan recwavel f) false = nth (c * ncorr + p) f false || hit g uvw (nth c recwavel 0).
Proof.
  intros Hf. destruct uvw as [[u v] w]. unfold do_flag, hit. rewrite !metre_opt_eq. cbn [orb].
  destruct (test_range (u * u + v * v) (g_uvm g) || test_range u (g_um g) || test_range v (g_vm g) || test_range w (g_wm g)).
  - rewrite (Nat.mul_comm ncorr nchan). split; [apply fill_true_length; lia|]. intros c p Hc Hp. rewrite fill_true_nth by lia.
    pose proof (block_lt c nchan p Hc Hp). replace ((0 <=? c * ncorr + p) && (c * ncorr + p <? 0 + nchan * ncorr))%nat with true; [cbn; now rewrite orb_true_r|].
    symmetry. apply andb_true_iff. split; [apply Nat.leb_le|apply Nat.ltb_lt]; lia.
  - destruct (lambda_opt_spec (sqrt (u * u + v * v)) (g_uvl g) f Hf) as [L1 N1].
    set (f1 := lambda_opt (sqrt (u * u + v * v)) (g_uvl g) ncorr recwavel f) in *.
    destruct (lambda_opt_spec u (g_ul g) f1 ltac:(congruence)) as [L2 N2].
    set (f2 := lambda_opt u (g_ul g) ncorr recwavel f1) in *.
    destruct (lambda_opt_spec v (g_vl g) f2 ltac:(congruence)) as [L3 N3].
    set (f3 := lambda_opt v (g_vl g) ncorr recwavel f2) in *.
    destruct (lambda_opt_spec w (g_wl g) f3 ltac:(congruence)) as [L4 N4].
    split; [congruence|]. intros c p Hc Hp. rewrite N4, N3, N2, N1 by assumption. now rewrite !orb_assoc, orb_false_r.
Qed.
End Row.

Lemma hit_iff t uvw freq : distance_ranges (t_uvm t) -> uvw_moderate uvw freq ->
  (hit (make_ranges t) uvw (freq * (1 / light)) = true <-> uvw_wanted t uvw freq).
Proof.
  destruct uvw as [[u v] w]. unfold hit, uvw_wanted, uvw_moderate. cbn zeta. intros Hs (Hf & Hd & Hu & Hv & Hw & Hdl & Hul & Hvl & Hwl).
  assert (E : forall x, x / (299792458 / freq) = x * (freq * (1 / light))) by (intros x; unfold light; field; lra).
  rewrite E in Hdl, Hul, Hvl, Hwl. rewrite !E. clear E.
  rewrite !orb_true_iff. rewrite !(test_range_iff _ _ _ (le_n _)). cbn [make_ranges g_uvm g_um g_vm g_wm g_uvl g_ul g_vl g_wl].
  rewrite !fill_plain by assumption.
  rewrite <- (sqrt_sqrt (u * u + v * v)) at 1 by nra. rewrite fill_square by (auto; apply sqrt_pos). tauto.
Qed.

Lemma degenerate_hit g uvw rw : degenerate g = true -> hit g uvw rw = false.
Proof.
  unfold degenerate. intros H. apply Nat.eqb_eq in H. destruct uvw as [[u v] w]. unfold hit.
  assert (E : g_uvm g = [] /\ g_um g = [] /\ g_vm g = [] /\ g_wm g = [] /\ g_uvl g = [] /\ g_ul g = [] /\ g_vl g = [] /\ g_wl g = []).
  { repeat split; apply length_zero_iff_nil; lia. }
  destruct E as (-> & -> & -> & -> & -> & -> & -> & ->). reflexivity.
Qed.

(** Blocks of equal length. *)
Lemma nth_blocks {A} (g : nat -> list A) n d : forall k s, (forall b, length (g b) = n) -> forall b i, (b < k)%nat -> (i < n)%nat ->
  nth (b * n + i) (flat_map g (seq s k)) d = nth i (g (s + b)%nat) d.
Proof.
  intros k. induction k; intros s Hg b i Hb Hi; [lia|]. cbn [seq flat_map]. destruct b.
  - rewrite app_nth1 by (rewrite Hg; lia). cbn [Nat.mul Nat.add]. now rewrite Nat.add_0_r.
  - rewrite app_nth2 by (rewrite Hg; cbn; lia). rewrite Hg. replace (S b * n + i - n)%nat with (b * n + i)%nat by (cbn; lia).
    rewrite IHk by (auto; lia). do 2 f_equal. lia.
Qed.
Lemma blocks_length {A} (g : nat -> list A) n : forall k s, (forall b, (b < s + k)%nat -> length (g b) = n) -> length (flat_map g (seq s k)) = (k * n)%nat.
Proof.
  intros k. induction k; intros s Hg; [reflexivity|]. cbn [seq flat_map]. rewrite app_length, Hg, IHk by (intros; try apply Hg; lia). reflexivity.
Qed.
Lemma nth_blocks' {A} (g : nat -> list A) n d : forall k, (forall b, (b < k)%nat -> length (g b) = n) -> forall b i, (b < k)%nat -> (i < n)%nat ->
  nth (b * n + i) (flat_map g (seq 0 k)) d = nth i (g b) d.
Proof.
  intros k Hg b i Hb Hi.
  assert (E : flat_map g (seq 0 k) = flat_map (fun b => if (b <? k)%nat then g b else repeat d n) (seq 0 k)).
  { rewrite !flat_map_concat_map. f_equal. apply map_ext_in. intros x Hx. apply in_seq in Hx. destruct (Nat.ltb_spec x k); [reflexivity|lia]. }
  rewrite E, (nth_blocks _ n); [|intros x; destruct (Nat.ltb_spec x k); [auto|apply repeat_length]|exact Hb|exact Hi]. cbn [Nat.add].
  destruct (Nat.ltb_spec b k); [reflexivity|lia].
Qed.

Lemma nth_slice {A} : forall (f : list A) s n i d, (i < n)%nat -> nth i (firstn n (skipn s f)) d = nth (s + i) f d.
Proof.
  induction f as [|a f IH]; intros s n i d H.
  - rewrite skipn_nil, firstn_nil. now rewrite !nth_overflow by (cbn; lia).
  - destruct s.
    + cbn [skipn Nat.add]. destruct n; [lia|]. destruct i; cbn [firstn nth]; [reflexivity|]. exact (IH 0%nat n i d ltac:(lia)).
    + cbn [skipn Nat.add nth]. now apply IH.
Qed.

Lemma regular_spec g uvw nbl ncorr recwavel f :
  let nchan := length recwavel in
  length f = (nbl * (ncorr * nchan))%nat ->
  let f' := process_regular g uvw nbl nchan ncorr recwavel f in
  length f' = length f /\
  forall b c p, (b < nbl)%nat -> (c < nchan)%nat -> (p < ncorr)%nat ->
    nth ((b * nchan + c) * ncorr + p) f' false = nth ((b * nchan + c) * ncorr + p) f false || hit g (uvw b) (nth c recwavel 0).
Proof.
  intros nchan Hf f'. unfold f', process_regular. destruct (degenerate g) eqn:E.
  - split; [reflexivity|]. intros. now rewrite degenerate_hit, orb_false_r.
  - set (stride := (ncorr * nchan)%nat) in *. set (row := fun b => do_flag g (uvw b) ncorr nchan recwavel (firstn stride (skipn (b * stride) f))).
    assert (Ls : forall b, (b < nbl)%nat -> length (firstn stride (skipn (b * stride) f)) = (nchan * ncorr)%nat).
    { intros b Hb. rewrite firstn_length, skipn_length, Hf. unfold stride in *. nia. }
    assert (Lr : forall b, (b < nbl)%nat -> length (row b) = stride).
    { intros b Hb. unfold row. destruct (do_flag_spec ncorr recwavel g (uvw b) _ (Ls b Hb)) as [L _]. fold nchan in L. rewrite L, (Ls b Hb). unfold stride. lia. }
    split.
    + rewrite (blocks_length row stride) by (intros; now apply Lr). now rewrite Hf.
    + intros b c p Hb Hc Hp. replace ((b * nchan + c) * ncorr + p)%nat with (b * stride + (c * ncorr + p))%nat by (unfold stride; ring).
      assert (Hi : (c * ncorr + p < stride)%nat) by (unfold stride; nia).
      rewrite (nth_blocks' row stride) by (auto; intros; now apply Lr). unfold row.
      destruct (do_flag_spec ncorr recwavel g (uvw b) _ (Ls b Hb)) as [_ N]. fold nchan in N. rewrite N by assumption.
      now rewrite nth_slice by exact Hi.
Qed.

Lemma rec_nth freqs c : (c < length freqs)%nat -> nth c (rec_wavelengths freqs) 0 = nth c freqs 0 * (1 / light).
Proof.
  intros H. unfold rec_wavelengths. rewrite (nth_indep _ 0 (0 * (1 / light))) by now rewrite map_length.
  exact (map_nth (fun f => f * (1 / light)) freqs 0 c).
Qed.

Theorem regular_flags t uvw nbl nchan ncorr freqs f : length freqs = nchan -> length f = (nbl * (ncorr * nchan))%nat ->
  distance_ranges (t_uvm t) ->
  let f' := process_regular (make_ranges t) uvw nbl nchan ncorr (rec_wavelengths freqs) f in
  length f' = length f /\
  forall b c p, (b < nbl)%nat -> (c < nchan)%nat -> (p < ncorr)%nat -> uvw_moderate (uvw b) (nth c freqs 0) ->
    let i := ((b * nchan + c) * ncorr + p)%nat in
    (nth i f' false = true <-> nth i f false = true \/ uvw_wanted t (uvw b) (nth c freqs 0)).
Proof.
  intros Hn Hf Hs f'. subst nchan.
  assert (L : length (rec_wavelengths freqs) = length freqs) by (unfold rec_wavelengths; apply map_length).
  destruct (regular_spec (make_ranges t) uvw nbl ncorr (rec_wavelengths freqs) f ltac:(rewrite L; exact Hf)) as [L' N].
  rewrite L in L', N. split; [exact L'|]. intros b c p Hb Hc Hp Hm i. unfold f', i. rewrite N by assumption.
  rewrite orb_true_iff, rec_nth by assumption. now rewrite hit_iff.
Qed.

Theorem bda_flags t freqs rows i r : nth_error rows i = Some r ->
  length (freqs (w_bl r)) = w_nchan r -> length (w_flags r) = (w_nchan r * w_ncorr r)%nat ->
  distance_ranges (t_uvm t) ->
  exists r', nth_error (process_bda (make_ranges t) (fun b => rec_wavelengths (freqs b)) rows) i = Some r' /\
    length (w_flags r') = length (w_flags r) /\
    forall c p, (c < w_nchan r)%nat -> (p < w_ncorr r)%nat -> uvw_moderate (w_uvw r) (nth c (freqs (w_bl r)) 0) ->
      (nth (c * w_ncorr r + p) (w_flags r') false = true <->
       nth (c * w_ncorr r + p) (w_flags r) false = true \/ uvw_wanted t (w_uvw r) (nth c (freqs (w_bl r)) 0)).
Proof.
  intros Hi Hn Hf Hs. unfold process_bda. destruct (degenerate (make_ranges t)) eqn:E.
  - exists r. split; [exact Hi|]. split; [reflexivity|]. intros c p Hc Hp Hm. rewrite <- hit_iff by assumption.
    rewrite degenerate_hit by exact E. split; [auto|intros [H|H]; [exact H|discriminate]].
  - eexists. split; [erewrite map_nth_error by exact Hi; reflexivity|]. cbn [w_flags].
    assert (L : length (rec_wavelengths (freqs (w_bl r))) = w_nchan r) by (unfold rec_wavelengths; now rewrite map_length).
    destruct (do_flag_spec (w_ncorr r) (rec_wavelengths (freqs (w_bl r))) (make_ranges t) (w_uvw r) (w_flags r) ltac:(now rewrite L)) as [L' N].
    rewrite L in L', N. split; [exact L'|]. intros c p Hc Hp Hm. rewrite N by assumption. rewrite orb_true_iff, rec_nth by (rewrite Hn; exact Hc).
    now rewrite hit_iff.
Qed.

(** Without conditions: no flag is cleared. *)
Theorem regular_monotone g uvw nbl nchan ncorr recwavel f i : length recwavel = nchan -> length f = (nbl * (ncorr * nchan))%nat ->
  nth i f false = true -> nth i (process_regular g uvw nbl nchan ncorr recwavel f) false = true.
Proof.
  intros Hn Hf H. subst nchan. destruct (regular_spec g uvw nbl ncorr recwavel f Hf) as [L N]. set (nchan := length recwavel) in *.
  assert (Hi : (i < nbl * (ncorr * nchan))%nat).
  { rewrite <- Hf. destruct (Nat.lt_ge_cases i (length f)); auto. rewrite nth_overflow in H by assumption. discriminate. }
  assert (ncorr <> 0 /\ nchan <> 0)%nat as [Hc Hch] by (split; intros E; rewrite E in Hi; lia).
  set (p := (i mod ncorr)%nat). set (q := (i / ncorr)%nat). set (c := (q mod nchan)%nat). set (b := (q / nchan)%nat).
  assert (Ei : i = ((b * nchan + c) * ncorr + p)%nat).
  { unfold b, c. pose proof (Nat.div_mod q nchan Hch). pose proof (Nat.div_mod i ncorr Hc). fold p q in H1. nia. }
  assert (p < ncorr)%nat by now apply Nat.mod_upper_bound.
  assert (c < nchan)%nat by now apply Nat.mod_upper_bound.
  assert (b < nbl)%nat by (unfold b, q; apply Nat.div_lt_upper_bound; [exact Hch|]; apply Nat.div_lt_upper_bound; [exact Hc|]; lia).
  rewrite Ei, N by assumption. rewrite <- Ei, H. reflexivity.
Qed.

