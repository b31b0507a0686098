(** C83: AntennaFlagger *)
From Coq Require Import List Bool Arith ZArith Lia ZifyBool ZifyNat Permutation QArith Qcanon.
From Verif Require Import QcUtil Cplx AverageModel BaselineModel BaselineProofs MedianSpec MedianProofs InfoModel DdecalProofs AntFlagModel AntFlagSpec AntFlagProofs.
Import ListNotations.
Open Scope nat_scope.

(** Of every pair of antennas all flags are set if one of the antennas is bad, and no flag changes if none is; which antennas are bad is a matter of the visibilities of the pairs of antennas alone,
    not of the order of the baselines and not of the flags.  [place]: the place of a baseline in the buffer. *)
Theorem C83_flags (D : Type) qmedian median (deviation squares : list D -> ext * ext) log1 n_stations per n_corr o sigma_a sigma_s max_a max_s vis pair flags :
  (forall l, l <> [] -> is_median l (qmedian l)) -> (forall l, l <> [] -> is_emedian l (median l)) -> 0 < per -> let n := n_stations * per in (Z.of_nat n <= 2 ^ 31)%Z ->
  let place p q := Z.to_nat (baseline_index (Z.of_nat p) (Z.of_nat q) (Z.of_nat n) o) in
  (forall p q c, p <= q < n -> vis (place p q) c = pair p q c) ->
  let bad := bad qmedian median deviation squares log1 n_stations per n_corr sigma_a sigma_s max_a max_s pair in
  forall p q, p <= q < n ->
    nth_error (process deviation squares log1 n_stations per n_corr o sigma_a sigma_s max_a max_s vis flags) (place p q) =
      option_map (fun f => if bad p || bad q then map (map (fun _ => true)) f else f) (nth_error flags (place p q)).
Proof. intros Hq He Hp n Hn place Hv bad p q H. exact (process_ok qmedian median Hq He deviation squares log1 n_stations per n_corr o sigma_a sigma_s max_a max_s vis pair Hp Hn Hv flags p q H). Qed.
Print Assumptions C83_flags.
(** There are such medians *)
Example C83_medians : (forall l, l <> [] -> is_emedian l (emedian l)) /\ forall l, l <> [] -> is_median l (match emedian (map Fin l) with ApplyCalModel.Fin m => m | _ => 0%Qc end).
Proof.
  split.
  - intros l N. exists (esort l). split; [apply esort_perm|]. split; [apply esort_order|]. unfold emedian. assert (L : length (esort l) <> 0) by (rewrite <- (Permutation_length (esort_perm l)); destruct l; [congruence|discriminate]).
    assert (H : length (esort l) / 2 < length (esort l)) by (apply Nat.div_lt; lia). destruct (Nat.odd _); [now apply nth_error_nth'|].
    exists (nth (length (esort l) / 2 - 1) (esort l) Nan), (nth (length (esort l) / 2) (esort l) Nan). split; [apply nth_error_nth'; lia|]. split; [now apply nth_error_nth'|reflexivity].
  - intros l N. assert (M : exists m, is_median l m).
    { assert (L : length (isort l) <> 0) by (rewrite <- (Permutation_length (isort_perm l)); destruct l; [congruence|discriminate]). assert (H : length (isort l) / 2 < length (isort l)) by (apply Nat.div_lt; lia).
      destruct (length (isort l)) as [|k] eqn:Ek; [congruence|]. destruct (Nat.odd (S k)) eqn:Eo.
      - exists (nth (S k / 2) (isort l) 0%Qc), (isort l). split; [apply isort_perm|]. split; [apply isort_asc|]. cbv zeta. rewrite Ek, Eo. apply nth_error_nth'. now rewrite Ek.
      - eexists. exists (isort l). split; [apply isort_perm|]. split; [apply isort_asc|]. cbv zeta. rewrite Ek, Eo. exists (nth (S k / 2 - 1) (isort l) 0%Qc), (nth (S k / 2) (isort l) 0%Qc). split; [apply nth_error_nth'; lia|]. split; [apply nth_error_nth'; lia|reflexivity]. }
    destruct M as [m M]. now rewrite (emedian_fin l m N M).
Qed.

(** The outliers are those of the rounds of the specification, however early the loop stops *)
Theorem C83_outliers qmedian sigma max n x : (forall l, l <> [] -> is_median l (qmedian l)) -> find_outliers sigma max (map x (seq 0 n)) = map (outlier n x (qmedian (finites n x)) sigma max) (seq 0 n).
Proof. intros H. rewrite (find_outliers_ok qmedian) by exact H. reflexivity. Qed.
Print Assumptions C83_outliers.

(** The step accepts all baselines of up to 2^16 antennas in one of both orders, and knows their places *)
Lemma combine_seq_In {A} (l : list A) i x : In (i, x) (combine (seq 0 (length l)) l) <-> nth_error l i = Some x.
Proof.
  split.
  - intros I. apply In_nth_error in I. destruct I as [k E]. rewrite combine_nth_error, seq_nth_error in E. destruct (Nat.ltb_spec k (length l)); [|discriminate]. destruct (nth_error l k) eqn:El; [|discriminate]. injection E as <- <-. exact El.
  - intros E. assert (i < length l) by (apply nth_error_Some; congruence). apply (nth_error_In _ i). rewrite combine_nth_error, seq_nth_error, E. now replace (i <? length l) with true by lia.
Qed.
Lemma has_order_ok o n baselines : (Z.of_nat n <= 2 ^ 16)%Z -> Z.of_nat (length baselines) = n_baselines (Z.of_nat n) -> has_order o n baselines = true <-> laid_out o n baselines.
Proof.
  intros Hn L. unfold has_order. rewrite forallb_forall. split.
  - intros H. split; [exact L|]. intros p q Hp. set (i := Z.to_nat _). assert (R : (0 <= baseline_index (Z.of_nat p) (Z.of_nat q) (Z.of_nat n) o < n_baselines (Z.of_nat n))%Z) by (apply index_range; lia).
    destruct (nth_error baselines i) as [[a b]|] eqn:E; [|apply nth_error_None in E; lia]. specialize (H (i, (a, b)) (proj2 (combine_seq_In baselines i (a, b)) E)). cbn [fst snd] in H.
    pose proof (roundtrip (Z.of_nat n) o (Z.of_nat i)) as T. destruct (baseline_of_index (Z.of_nat i) (Z.of_nat n) o) as [a' b']. destruct T as (T1 & T2 & T3); [lia|lia|lia|]. apply andb_true_iff in H. destruct H as [H1 H2].
    apply Z.eqb_eq in H1, H2. subst a' b'. assert (X : Z.of_nat a = Z.of_nat p /\ Z.of_nat b = Z.of_nat q) by (apply (index_inj_le _ _ _ _ (Z.of_nat n) o); lia). f_equal. f_equal; lia.
  - intros [_ H] [i [a b]] I. apply combine_seq_In in I. cbn [fst snd]. assert (Li : i < length baselines) by (apply nth_error_Some; congruence).
    pose proof (roundtrip (Z.of_nat n) o (Z.of_nat i)) as T. destruct (baseline_of_index (Z.of_nat i) (Z.of_nat n) o) as [a' b']. destruct T as (T1 & T2 & T3); [lia|lia|lia|].
    specialize (H (Z.to_nat a') (Z.to_nat b') ltac:(lia)). rewrite !Z2Nat.id in H by lia. rewrite T3, Nat2Z.id in H. rewrite H in I. injection I as <- <-. rewrite !Z2Nat.id by lia. now rewrite !Z.eqb_refl.
Qed.
Theorem C83_order n a12 baselines : (Z.of_nat n <= 2 ^ 16)%Z ->
  (forall o n_stations per, update_info n a12 baselines = Ok (o, n_stations, per) -> laid_out o n baselines /\ n_stations * per = n /\ per = (if a12 then 48 else 1)) /\
  ((exists o, laid_out o n baselines) -> (a12 = true -> n mod 48 = 0) -> exists r, update_info n a12 baselines = Ok r) /\
  (~ (exists o, laid_out o n baselines) -> update_info n a12 baselines = Throw).
Proof.
  intros Hn. unfold update_info. destruct (Z.eqb_spec (n_baselines (Z.of_nat n)) (Z.of_nat (length baselines))) as [L|L]; cbn [negb].
  2: { split; [discriminate|]. split; [intros [o [X _]]; lia|auto]. }
  pose proof (has_order_ok ColumnMajor n baselines Hn (eq_sym L)) as C. pose proof (has_order_ok RowMajor n baselines Hn (eq_sym L)) as R.
  assert (Dv : forall (o o' : order) (n_stations per : nat), (if a12 then if n mod 48 =? 0 then Ok (o, n / 48, 48) else Throw else Ok (o, n, 1)) = Ok (o', n_stations, per) -> o = o' /\ n_stations * per = n /\ per = (if a12 then 48 else 1)).
  { intros o o' s p E. destruct a12.
    - destruct (Nat.eqb_spec (n mod 48) 0) as [M|M]; [|discriminate]. injection E as <- <- <-. split; [reflexivity|]. split; [|reflexivity]. rewrite Nat.mul_comm. symmetry. apply Nat.div_exact; [discriminate|exact M].
    - injection E as <- <- <-. split; [reflexivity|]. split; [lia|reflexivity]. }
  assert (Ac : forall o : order, (a12 = true -> n mod 48 = 0) -> exists r, (if a12 then if n mod 48 =? 0 then Ok (o, n / 48, 48) else Throw else Ok (o, n, 1)) = Ok r).
  { intros o M. destruct a12; [rewrite M by reflexivity|]; eexists; reflexivity. }
  destruct (has_order ColumnMajor n baselines).
  - split; [intros o s p E; apply Dv in E; destruct E as [<- E]; split; [now apply C|exact E]|]. split; [intros _; apply Ac|]. intros N. exfalso. apply N. exists ColumnMajor. now apply C.
  - destruct (has_order RowMajor n baselines).
    + split; [intros o s p E; apply Dv in E; destruct E as [<- E]; split; [now apply R|exact E]|]. split; [intros _; apply Ac|]. intros N. exfalso. apply N. exists RowMajor. now apply R.
    + split; [discriminate|]. split; [|reflexivity]. intros [[|] X]; [apply C in X|apply R in X]; discriminate.
Qed.
Print Assumptions C83_order.

(** The documentation says that in every iteration only the data that is not flagged is analysed.  The code replaces what it flags by the median instead and keeps counting it, so the standard deviation becomes smaller than that of the
    data that is not flagged, and more is flagged (antennaflagger/Flagger.cc:37-48).  Of the values 3, 3, 3, 3, 5, 100 both find 100, but only the code finds 5. *)
Theorem C83_documented_refuted : exists n x sigma qmedian, (forall l, l <> [] -> is_median l (qmedian l)) /\
  find_outliers sigma 5 (map (fun i => Some (x i)) (seq 0 n)) = [false; false; false; false; true; true] /\ map (documented qmedian n x sigma 5) (seq 0 n) = [false; false; false; false; false; true].
Proof.
  exists 6, (fun i => nth i (map qn [3; 3; 3; 3; 5; 100]) 0%Qc), ((1 + 1 + half)%Qc), (fun l => match emedian (map Fin l) with ApplyCalModel.Fin m => m | _ => 0%Qc end). split; [apply C83_medians|]. split; vm_compute; reflexivity.
Qed.
Print Assumptions C83_documented_refuted.

(** The statistics of two channels with visibilities that have a standard deviation that is a fraction: half the distance *)
Definition dev2 (l : list cplx) : ext * ext :=
  let abs x := if qltb x 0 then (- x)%Qc else x in match l with [a; b] => (Fin (abs (half * (re a - re b))), Fin (abs (half * (im a - im b))))%Qc | _ => (Nan, Nan) end.
Definition sq2 (l : list cplx) : ext * ext := (Fin (qsum (map (fun a => re a * re a) l)), Fin (qsum (map (fun a => im a * im a) l)))%Qc.
(** The value of a pair of stations of which the first [good] have data *)
Definition pair_data (good : nat) (bl : nat) : list cplx :=
  let '(p, q) := nth bl [(0, 0); (0, 1); (1, 1); (0, 2); (1, 2); (2, 2); (0, 3); (1, 3); (2, 3); (3, 3); (0, 4); (1, 4); (2, 4); (3, 4); (4, 4)] (0, 0) in
  if (p <? good) && (q <? good) then [C 1 1; C (- (1)) (- (1))]%Qc else [c0; c0].
(** If more than half of the stations have no data (zeros), the median of the statistics is zero; the statistics are divided by it, nothing is finite, and all stations are flagged, also those with data.
    With three of five stations with data no station is flagged. *)
Theorem C83_zero_median_refuted : exists vis, bad_stations dev2 sq2 5 1 1 ColumnMajor (1 + 1 + half)%Qc 5 vis = [true; true; true; true; true] /\ vis 1 0 = [C 1 1; C (- (1)) (- (1))]%Qc /\
  bad_stations dev2 sq2 5 1 1 ColumnMajor (1 + 1 + half)%Qc 5 (fun bl _ => pair_data 3 bl) = [false; false; false; false; false].
Proof. exists (fun bl _ => pair_data 2 bl). split; [vm_compute; reflexivity|]. split; [reflexivity|vm_compute; reflexivity]. Qed.
Print Assumptions C83_zero_median_refuted.

(** Six stations; station 5 has data that are ten times larger: its baselines are flagged *)
Example C83_run :
  let n := 6 in
  let big := map (fun b => Z.to_nat (baseline_index 5 (Z.of_nat b) 6 RowMajor)) (seq 0 6) in
  let vis bl (c : nat) := if existsb (Nat.eqb bl) big then [C (1 + 1 + 1) (1 + 1); C (- (1)) (- (1))]%Qc else [C half half; C (- half) (- half)]%Qc in
  process dev2 sq2 (fun _ => (Some 0%Qc, Some 0%Qc)) n 1 1 RowMajor (1 + 1 + 1)%Qc 1%Qc 5 5 vis (repeat [[false]] 21) = map (fun bl => [[existsb (Nat.eqb bl) big]]) (seq 0 21).
Proof. vm_compute. reflexivity. Qed.
(** Three antennas in row order *)
Example C83_row : update_info 3 false [(0, 0); (0, 1); (0, 2); (1, 1); (1, 2); (2, 2)] = Ok (RowMajor, 3, 1) /\ laid_out RowMajor 3 [(0, 0); (0, 1); (0, 2); (1, 1); (1, 2); (2, 2)].
Proof.
  assert (L : laid_out RowMajor 3 [(0, 0); (0, 1); (0, 2); (1, 1); (1, 2); (2, 2)]).
  { split; [reflexivity|]. intros p q H. assert (E : (p, q) = (0, 0) \/ (p, q) = (0, 1) \/ (p, q) = (0, 2) \/ (p, q) = (1, 1) \/ (p, q) = (1, 2) \/ (p, q) = (2, 2)) by (destruct p as [|[|[|]]], q as [|[|[|]]]; try lia; auto 7).
    destruct E as [E|[E|[E|[E|[E|E]]]]]; injection E as -> ->; vm_compute; reflexivity. }
  split; [|exact L]. unfold update_info. assert (A : has_order RowMajor 3 [(0, 0); (0, 1); (0, 2); (1, 1); (1, 2); (2, 2)] = true) by (apply has_order_ok; [lia|reflexivity|exact L]).
  assert (B : has_order ColumnMajor 3 [(0, 0); (0, 1); (0, 2); (1, 1); (1, 2); (2, 2)] = false).
  { apply not_true_is_false. intros T. apply has_order_ok in T; [|lia|reflexivity]. destruct T as [_ T]. specialize (T 1 1 ltac:(lia)). vm_compute in T. discriminate. }
  rewrite A, B. reflexivity.
Qed.
