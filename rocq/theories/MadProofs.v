From Coq Require Import List Bool Arith ZArith QArith Qcanon Permutation Lia ZifyBool ZifyNat.
From Verif Require Import QcUtil AverageModel InfoModel InfoProofs MedianModel MedianSpec MedianProofs MadModel MadSpec.
Import ListNotations.
Open Scope nat_scope.
Ltac Zify.zify_post_hook ::= Z.div_mod_to_equations.

(** * Window sizes *)
Lemma freq_window_spec r n : (1 <= n)%Z -> let w := freq_window r n in (1 <= w <= n)%Z /\ Z.odd w = true /\
  ((1 <= r <= n)%Z -> (r - 1 <= w <= r)%Z).
Proof.
  intros H w. subst w. unfold freq_window. cbv zeta. set (w := Z.min (Z.max 1 r) n). assert (1 <= w <= n)%Z by lia.
  assert (O : forall z, (z mod 2 =? 0)%Z = Z.even z) by (intros; rewrite Zmod_even; destruct (Z.even z); reflexivity).
  rewrite O. destruct (Z.even w) eqn:E.
  - rewrite Z.odd_sub, <- (Z.negb_even w), E. cbn. assert (w <> 1)%Z by (intros K; rewrite K in E; discriminate). repeat split; lia.
  - rewrite <- Z.negb_even, E. cbn. repeat split; lia.
Qed.
Lemma time_window_spec r n : let w := time_window r n in
  (1 <= w)%Z /\ Z.odd w = true /\ ((1 <= n)%Z -> (w <= n)%Z) /\ ((1 <= r)%Z -> (n <= 0 \/ r <= n)%Z -> (r - 1 <= w <= r)%Z).
Proof.
  intros w. subst w. unfold time_window. cbv zeta.
  set (w := if ((0 <? n) && (n <? Z.max 1 r))%Z then n else Z.max 1 r). assert (Hw : (1 <= w)%Z /\ ((1 <= n)%Z -> (w <= n)%Z) /\ ((1 <= r)%Z -> (n <= 0 \/ r <= n)%Z -> w = r)).
  { subst w. destruct ((0 <? n) && (n <? Z.max 1 r))%Z eqn:E; lia. }
  clearbody w. assert (O : forall z, (z mod 2 =? 0)%Z = Z.even z) by (intros; rewrite Zmod_even; destruct (Z.even z); reflexivity).
  rewrite O. destruct (Z.even w) eqn:E.
  - rewrite Z.odd_sub, <- (Z.negb_even w), E. cbn. assert (w <> 1)%Z by (intros K; rewrite K in E; discriminate). repeat split; lia.
  - rewrite <- Z.negb_even, E. cbn. repeat split; lia.
Qed.

(** * Time slots *)
Section Time.
Variables (window hw n : nat).
Hypothesis Hodd : window = 2 * hw + 1.
Lemma half : window / 2 = hw.
Proof. rewrite Hodd. lia. Qed.

(** The ring holds slot [t] with its data unless it is done *)
Definition holds (r : list (option cell)) (m d t : nat) : Prop :=
  nth_error r (t mod window) = Some (Some {| slot := t; has_data := d <=? t |}).

Definition expected (t : nat) : event :=
  {| sent := t; complete := true; used := map Z.to_nat (centred (Z.of_nat n) (Z.of_nat t) hw) |}.

Definition inv (m d : nat) (s : state) : Prop :=
  length (ring s) = window /\ ntimes s = m /\ ndone s = d /\
  (forall t, t < m -> m <= t + window -> holds (ring s) m d t) /\
  events s = map expected (seq 0 d).

Lemma nth_error_set {X} (l : list X) i j x : i < length l -> nth_error (set_nth l i x) j = if j =? i then Some x else nth_error l j.
Proof.
  revert i j. induction l as [|y l IH]; intros i j H; [cbn in H; lia|].
  destruct i as [|i], j as [|j]; cbn; auto. cbn in H. rewrite IH by lia. reflexivity.
Qed.

Lemma look_spec r m d (f : nat -> nat) l : (forall t, t < m -> m <= t + window -> holds r m d t) ->
  (forall t, In t l -> t < m /\ m <= t + window) -> look r (map (fun t => t mod window) l) = Some l.
Proof.
  intros H HL. induction l as [|t l IH]; [reflexivity|]. cbn [map look].
  destruct (HL t (or_introl eq_refl)) as [H1 H2]. rewrite (H t H1 H2), IH by (intros; apply HL; now right). reflexivity.
Qed.

Lemma mod_neq a b : a < b -> b < a + window -> a mod window <> b mod window.
Proof.
  intros H1 H2 E. pose proof (Nat.div_mod a window ltac:(lia)). pose proof (Nat.div_mod b window ltac:(lia)).
  assert (b / window = a / window \/ b / window >= a / window + 1) as [K|K].
  { destruct (le_lt_dec (b / window) (a / window)); [left|right; lia].
    assert (a / window <= b / window) by (apply Nat.div_le_mono; lia). lia. }
  - rewrite K in *. lia.
  - assert (window * (a / window + 1) <= window * (b / window)) by (apply Nat.mul_le_mono_l; lia). lia.
Qed.

Lemma flag_inv m d s l : inv m d s -> d < m -> m <= d + window ->
  (forall t, In t l -> t < m /\ m <= t + window) -> l = map Z.to_nat (centred (Z.of_nat n) (Z.of_nat d) hw) ->
  exists s2, flag s (d mod window) (map (fun t => t mod window) l) = Some s2 /\
    inv m (d + 1) {| ring := ring s2; ntimes := ntimes s2; ndone := ndone s2 + 1; events := events s2 |}.
Proof.
  intros (I1 & I2 & I3 & I4 & I5) H1 H2 HL E. unfold flag. rewrite (I4 d H1 H2), Nat.leb_refl.
  rewrite (look_spec (ring s) m d (fun x => x)) by assumption. eexists. split; [reflexivity|].
  unfold inv. cbn [ring ntimes ndone events slot has_data]. rewrite set_nth_length.
  split; [exact I1|]. split; [exact I2|]. split; [now rewrite I3|]. split.
  - intros t Ht1 Ht2. unfold holds. rewrite nth_error_set by (rewrite I1; apply Nat.mod_upper_bound; lia).
    destruct (Nat.eqb_spec (t mod window) (d mod window)) as [K|K].
    + assert (t = d). { destruct (lt_eq_lt_dec t d) as [[L|L]|L]; auto; exfalso; [apply (mod_neq t d)|apply (mod_neq d t)]; try lia; congruence. }
      subst t. do 3 f_equal. destruct (Nat.leb_spec (d + 1) d); [lia|reflexivity].
    + rewrite (I4 t Ht1 Ht2). do 3 f_equal. destruct (Nat.leb_spec d t), (Nat.leb_spec (d + 1) t); auto; try lia.
      exfalso. apply K. f_equal. lia.
  - rewrite I5, Nat.add_1_r, seq_S, map_app. cbn. rewrite E. reflexivity.
Qed.

Lemma entries_eq d : entries window d = map (fun t => t mod window) (d :: flat_map (fun i => [absdiff d i; d + i]) (seq 1 hw)).
Proof.
  unfold entries. rewrite half. cbn [map]. f_equal. induction (seq 1 hw) as [|i l IH]; [reflexivity|].
  cbn [flat_map map app]. now rewrite IH.
Qed.
Lemma entries_end_eq d : entries_end window n d = map (fun t => t mod window)
  (d :: flat_map (fun i => [absdiff d i; if n <=? d + i then 2 * (n - 1) - (d + i) else d + i]) (seq 1 hw)).
Proof.
  unfold entries_end. rewrite half. cbn [map]. f_equal. induction (seq 1 hw) as [|i l IH]; [reflexivity|].
  cbn [flat_map map app]. now rewrite IH.
Qed.

Lemma centred_mid d : d + hw < n -> d :: flat_map (fun i => [absdiff d i; d + i]) (seq 1 hw) = map Z.to_nat (centred (Z.of_nat n) (Z.of_nat d) hw).
Proof.
  intros H. unfold centred. cbn [map]. f_equal.
  - unfold reflect. destruct (Z.ltb_spec (Z.of_nat d) 0), (Z.leb_spec (Z.of_nat n) (Z.of_nat d)); lia.
  - assert (K : forall l, (forall i, In i l -> 1 <= i <= hw) ->
      flat_map (fun i => [absdiff d i; d + i]) l = map Z.to_nat (flat_map (fun i => [reflect (Z.of_nat n) (Z.of_nat d - Z.of_nat i); reflect (Z.of_nat n) (Z.of_nat d + Z.of_nat i)]) l)).
    { induction l as [|i l IH]; intros HL; [reflexivity|]. specialize (HL i (or_introl eq_refl)) as Hi. cbn [flat_map map app].
      rewrite <- IH by (intros; apply HL; now right). unfold absdiff, reflect. f_equal; [|f_equal].
      - destruct (Z.ltb_spec (Z.of_nat d - Z.of_nat i) 0); [f_equal; lia|]. destruct (Z.leb_spec (Z.of_nat n) (Z.of_nat d - Z.of_nat i)); lia.
      - destruct (Z.ltb_spec (Z.of_nat d + Z.of_nat i) 0); [lia|]. destruct (Z.leb_spec (Z.of_nat n) (Z.of_nat d + Z.of_nat i)); lia. }
    apply K. intros i Hi. apply in_seq in Hi. lia.
Qed.
Lemma centred_end d : window <= n -> d < n -> n <= d + hw + 1 ->
  d :: flat_map (fun i => [absdiff d i; if n <=? d + i then 2 * (n - 1) - (d + i) else d + i]) (seq 1 hw) = map Z.to_nat (centred (Z.of_nat n) (Z.of_nat d) hw).
Proof.
  intros Hn Hd H. unfold centred. cbn [map]. f_equal.
  - unfold reflect. destruct (Z.ltb_spec (Z.of_nat d) 0), (Z.leb_spec (Z.of_nat n) (Z.of_nat d)); lia.
  - assert (K : forall l, (forall i, In i l -> 1 <= i <= hw) ->
      flat_map (fun i => [absdiff d i; if n <=? d + i then 2 * (n - 1) - (d + i) else d + i]) l = map Z.to_nat (flat_map (fun i => [reflect (Z.of_nat n) (Z.of_nat d - Z.of_nat i); reflect (Z.of_nat n) (Z.of_nat d + Z.of_nat i)]) l)).
    { induction l as [|i l IH]; intros HL; [reflexivity|]. specialize (HL i (or_introl eq_refl)) as Hi. cbn [flat_map map app].
      rewrite <- IH by (intros; apply HL; now right). unfold absdiff, reflect. f_equal; [|f_equal].
      - destruct (Z.ltb_spec (Z.of_nat d - Z.of_nat i) 0); [f_equal; lia|]. destruct (Z.leb_spec (Z.of_nat n) (Z.of_nat d - Z.of_nat i)); lia.
      - destruct (Nat.leb_spec n (d + i)), (Z.ltb_spec (Z.of_nat d + Z.of_nat i) 0), (Z.leb_spec (Z.of_nat n) (Z.of_nat d + Z.of_nat i)); lia. }
    apply K. intros i Hi. apply in_seq in Hi. lia.
Qed.

Lemma in_mid d t : In t (d :: flat_map (fun i => [absdiff d i; d + i]) (seq 1 hw)) -> t <= d + hw /\ d <= t + hw.
Proof.
  intros [<-|H]; [lia|]. apply in_flat_map in H as (i & Hi & H). apply in_seq in Hi. unfold absdiff in H.
  destruct H as [<-|[<-|[]]]; lia.
Qed.
Lemma in_end d t : window <= n -> d < n -> n <= d + hw + 1 ->
  In t (d :: flat_map (fun i => [absdiff d i; if n <=? d + i then 2 * (n - 1) - (d + i) else d + i]) (seq 1 hw)) -> t < n /\ n <= t + window.
Proof.
  intros Hn Hd H' [<-|H]; [lia|]. apply in_flat_map in H as (i & Hi & H). apply in_seq in Hi. unfold absdiff in H.
  destruct H as [<-|[<-|[]]]; [lia|]. destruct (Nat.leb_spec n (d + i)); lia.
Qed.

Lemma process_inv m s : m < n -> inv m (m - hw) s -> exists s', process window s = Some s' /\ inv (m + 1) (m + 1 - hw) s'.
Proof.
  intros Hm (I1 & I2 & I3 & I4 & I5). unfold process. cbv zeta. cbn [ntimes]. rewrite I2, half.
  set (s1 := {| ring := _; ntimes := m + 1; ndone := ndone s; events := events s |}).
  assert (S1 : inv (m + 1) (m - hw) s1).
  { unfold inv, s1. cbn [ring ntimes ndone events]. rewrite set_nth_length. repeat split; auto.
    intros t H1 H2. unfold holds. rewrite nth_error_set by (rewrite I1; apply Nat.mod_upper_bound; lia).
    destruct (Nat.eqb_spec (t mod window) (m mod window)) as [K|K].
    - assert (t = m). { destruct (Nat.eq_dec t m); auto. exfalso. apply (mod_neq t m); [lia|lia|exact K]. }
      subst t. do 3 f_equal. destruct (Nat.leb_spec (m - hw) m); [reflexivity|lia].
    - apply I4; [|lia]. destruct (Nat.eq_dec t m); [subst; congruence|lia]. }
  destruct (Nat.ltb_spec hw (m + 1)) as [L|L].
  - rewrite I3. destruct (flag_inv (m + 1) (m - hw) s1 (m - hw :: flat_map (fun i => [absdiff (m - hw) i; m - hw + i]) (seq 1 hw)) S1) as (s2 & F & J); try lia.
    + intros t Ht. apply in_mid in Ht. lia.
    + apply centred_mid. lia.
    + rewrite entries_eq. rewrite F. eexists. split; [reflexivity|]. replace (m + 1 - hw) with (m - hw + 1) by lia. exact J.
  - eexists. split; [reflexivity|]. replace (m + 1 - hw) with (m - hw) by lia. exact S1.
Qed.

Lemma slots_inv m : m <= n -> exists s, slots window m = Some s /\ inv m (m - hw) s.
Proof.
  induction m as [|m IH]; intros H.
  - exists (init window). split; [reflexivity|]. unfold inv, init. cbn. rewrite repeat_length. repeat split; auto. intros; lia.
  - destruct (IH ltac:(lia)) as (s & E & I). cbn [slots]. rewrite E.
    destruct (process_inv m s ltac:(lia) I) as (s' & P & J). exists s'. rewrite Nat.add_1_r in J. auto.
Qed.

Lemma remaining_inv k : forall d s, window <= n -> d + k = n -> n <= d + hw + 1 -> inv n d s ->
  exists s', remaining window k s = Some s' /\ inv n n s'.
Proof.
  induction k as [|k IH]; intros d s Hn Hd Hh I.
  - exists s. split; [reflexivity|]. replace n with d at 2 by lia. exact I.
  - cbn [remaining]. destruct I as (I1 & I2 & I3 & I4 & I5). rewrite I2, I3.
    destruct (flag_inv n d s (d :: flat_map (fun i => [absdiff d i; if n <=? d + i then 2 * (n - 1) - (d + i) else d + i]) (seq 1 hw))) as (s2 & F & J).
    + repeat split; auto.
    + lia.
    + lia.
    + intros t Ht. apply in_end in Ht; auto; lia.
    + apply centred_end; lia.
    + rewrite entries_end_eq, F. apply (IH (d + 1)); auto; lia.
Qed.

Lemma run_spec : window <= n -> run window n = Some (map expected (seq 0 n)).
Proof.
  intros Hn. unfold run. destruct (slots_inv n ltac:(lia)) as (s & E & I). rewrite E.
  pose proof I as (I1 & I2 & I3 & I4 & I5). unfold finish. rewrite I2.
  destruct (Nat.eqb_spec n 0); [lia|]. cbv zeta. unfold final_window. destruct (Nat.ltb_spec n window); [lia|].
  rewrite half, I3. replace (n - hw - (n - hw)) with 0 by lia. cbn [leading]. rewrite I2, I3.
  destruct (remaining_inv (n - (n - hw)) (n - hw) s) as (s' & R & J); auto; try lia.
  rewrite R. destruct J as (_ & _ & _ & _ & ->). reflexivity.
Qed.
End Time.

Lemma centred_in n x hw : (0 <= x < n)%Z -> (2 * Z.of_nat hw + 1 <= n)%Z -> Forall (fun z => 0 <= z < n)%Z (centred n x hw).
Proof.
  intros Hx Hn. rewrite Forall_forall. intros z Hz. unfold centred in Hz. destruct Hz as [<-|Hz].
  - unfold reflect. destruct (Z.ltb_spec x 0), (Z.leb_spec n x); lia.
  - apply in_flat_map in Hz as (i & Hi & Hz). apply in_seq in Hi. unfold reflect in Hz. destruct Hz as [<-|[<-|[]]].
    + destruct (Z.ltb_spec (x - Z.of_nat i) 0), (Z.leb_spec n (x - Z.of_nat i)); lia.
    + destruct (Z.ltb_spec (x + Z.of_nat i) 0), (Z.leb_spec n (x + Z.of_nat i)); lia.
Qed.
Lemma flat2_length {X} (f : nat -> X) (g : nat -> X) l : length (flat_map (fun i => [f i; g i]) l) = 2 * length l.
Proof. induction l; cbn in *; lia. Qed.
Lemma centred_length n x hw : length (centred n x hw) = 2 * hw + 1.
Proof. unfold centred. cbn [length]. rewrite flat2_length, seq_length. lia. Qed.
Lemma firstn_centred n x hw k : k <= hw -> firstn (2 * k + 1) (centred n x hw) = centred n x k.
Proof.
  intros H. unfold centred. rewrite Nat.add_1_r. cbn [firstn]. f_equal.
  replace hw with (k + (hw - k)) by lia. rewrite seq_app, flat_map_app, firstn_app, flat2_length, seq_length, Nat.sub_diag.
  cbn [firstn]. rewrite app_nil_r. apply firstn_all2. rewrite flat2_length, seq_length. lia.
Qed.

(** * Channels *)
Lemma zrange_in s e z : In z (zrange s e) <-> (s <= z < e)%Z.
Proof.
  unfold zrange. rewrite in_map_iff. split.
  - intros (i & <- & Hi). apply in_seq in Hi. lia.
  - intros H. exists (Z.to_nat (z - s)). split; [lia|]. apply in_seq. lia.
Qed.
Lemma zrange_app a b c : (a <= b <= c)%Z -> zrange a c = zrange a b ++ zrange b c.
Proof.
  intros H. unfold zrange. replace (Z.to_nat (c - a)) with (Z.to_nat (b - a) + Z.to_nat (c - b)) by lia.
  rewrite seq_app, map_app. f_equal. cbn [Nat.add].
  assert (E : seq (Z.to_nat (b - a)) (Z.to_nat (c - b)) = map (fun i => Z.to_nat (b - a) + i) (seq 0 (Z.to_nat (c - b)))).
  { clear. generalize (Z.to_nat (b - a)) as k. intros k. generalize (Z.to_nat (c - b)) as m. clear. intros m.
    assert (K : forall s, seq (k + s) m = map (fun i => k + i) (seq s m)).
    { induction m as [|m IH]; intros s; [reflexivity|]. cbn. f_equal. rewrite <- IH. f_equal. lia. }
    rewrite <- K. f_equal. lia. }
  rewrite E, map_map. apply map_ext. intros i. lia.
Qed.
Lemma zrange_cons a b : (a < b)%Z -> zrange a b = a :: zrange (a + 1) b.
Proof.
  intros H. rewrite (zrange_app a (a + 1) b) by lia. unfold zrange at 1. replace (Z.to_nat (a + 1 - a)) with 1 by lia. cbn.
  f_equal. lia.
Qed.
Lemma zrange_nil a b : (b <= a)%Z -> zrange a b = [].
Proof. intros H. unfold zrange. replace (Z.to_nat (b - a)) with 0 by lia. reflexivity. Qed.
Lemma zrange_snoc a b : (a < b)%Z -> zrange a b = zrange a (b - 1) ++ [(b - 1)%Z].
Proof. intros H. rewrite (zrange_app a (b - 1) b) by lia. f_equal. rewrite zrange_cons, zrange_nil by lia. reflexivity. Qed.

(** centred is a permutation of the reflections of x - hw .. x + hw *)
Lemma centred_perm n x hw : Permutation (centred n x hw) (map (reflect n) (zrange (x - Z.of_nat hw) (x + Z.of_nat hw + 1))).
Proof.
  unfold centred. induction hw as [|hw IH].
  - cbn. rewrite zrange_cons, zrange_nil by lia. cbn. replace (x - 0)%Z with x by lia. reflexivity.
  - rewrite seq_S, flat_map_app. cbn [flat_map app]. rewrite app_comm_cons.
    rewrite (zrange_cons (x - Z.of_nat (S hw))) by lia. rewrite (zrange_snoc (x - Z.of_nat (S hw) + 1)) by lia.
    cbn [map]. rewrite map_app. cbn [map].
    replace (x - Z.of_nat (S hw) + 1)%Z with (x - Z.of_nat hw)%Z by lia.
    replace (x + Z.of_nat (S hw) + 1 - 1)%Z with (x + Z.of_nat hw + 1)%Z by lia.
    replace (reflect n (x + Z.of_nat hw + 1)) with (reflect n (x + Z.of_nat (1 + hw))) by (f_equal; lia).
    replace (reflect n (x - Z.of_nat (S hw))) with (reflect n (x - Z.of_nat (1 + hw))) by (f_equal; lia).
    rewrite IH. set (m := map (reflect n) _).
    transitivity ([reflect n (x - Z.of_nat (1 + hw)); reflect n (x + Z.of_nat (1 + hw))] ++ m); [apply Permutation_app_comm|].
    cbn [app]. apply perm_skip. apply Permutation_cons_append.
Qed.

Lemma map_reflect_id n a b : (0 <= a)%Z -> (b <= n)%Z -> map (reflect n) (zrange a b) = zrange a b.
Proof.
  intros Ha Hb. rewrite <- (map_id (zrange a b)) at 2. apply map_ext_in. intros z Hz. apply zrange_in in Hz. unfold reflect.
  destruct (Z.ltb_spec z 0), (Z.leb_spec n z); lia.
Qed.
Lemma map_flip k a b : Permutation (map (fun z => k - z)%Z (zrange a b)) (zrange (k - b + 1) (k - a + 1)).
Proof.
  destruct (Z.le_gt_cases b a) as [H|H].
  - rewrite !zrange_nil by lia. reflexivity.
  - remember (Z.to_nat (b - a)) as m eqn:E. revert a H E. induction m as [|m IH]; intros a H E; [lia|].
    rewrite (zrange_cons a) by lia. cbn [map].
    destruct (Z.eq_dec (a + 1) b) as [Eb|N].
    + rewrite (zrange_nil (a + 1)) by lia. cbn [map]. rewrite zrange_cons, zrange_nil by lia. replace (k - b + 1)%Z with (k - a)%Z by lia. reflexivity.
    + rewrite (IH (a + 1)%Z) by lia. rewrite (zrange_snoc _ (k - a + 1)) by lia.
      replace (k - a + 1 - 1)%Z with (k - a)%Z by lia. replace (k - (a + 1) + 1)%Z with (k - a)%Z by lia. apply Permutation_cons_append.
Qed.

Lemma channels_spec hw chan nchan : (0 <= chan < nchan)%Z -> (0 <= hw)%Z -> (2 * hw + 1 <= nchan)%Z ->
  Permutation (channels (2 * hw + 1) chan nchan) (centred nchan chan (Z.to_nat hw)).
Proof.
  intros Hc Hh Hw. rewrite centred_perm, Z2Nat.id by lia. unfold channels. cbv zeta.
  replace ((2 * hw + 1) / 2)%Z with hw by lia.
  destruct (Z.ltb_spec (chan - hw) 0) as [L|L].
  - rewrite (zrange_app (chan - hw) 0 (chan + hw + 1)) by lia. rewrite map_app, (map_reflect_id nchan 0) by lia.
    rewrite Permutation_app_comm. apply Permutation_app_tail.
    rewrite (map_ext_in (reflect nchan) (fun z => 0 - z)%Z).
    + rewrite map_flip. replace (0 - 0 + 1)%Z with 1%Z by lia. replace (0 - (chan - hw) + 1)%Z with (- (chan - hw) + 1)%Z by lia. reflexivity.
    + intros z Hz. apply zrange_in in Hz. unfold reflect. destruct (Z.ltb_spec z 0); lia.
  - destruct (Z.ltb_spec nchan (chan + hw + 1)) as [L2|L2].
    + rewrite (zrange_app (chan - hw) nchan (chan + hw + 1)) by lia. rewrite map_app, (map_reflect_id nchan (chan - hw)) by lia.
      apply Permutation_app_head. rewrite (map_ext_in (reflect nchan) (fun z => 2 * (nchan - 1) - z)%Z).
      * rewrite map_flip. replace (2 * (nchan - 1) - (chan + hw + 1) + 1)%Z with (nchan + nchan - (chan + hw + 1) - 1)%Z by lia.
        replace (2 * (nchan - 1) - nchan + 1)%Z with (nchan - 1)%Z by lia. reflexivity.
      * intros z Hz. apply zrange_in in Hz. unfold reflect. destruct (Z.ltb_spec z 0), (Z.leb_spec nchan z); lia.
    + rewrite (zrange_nil 1 1), app_nil_r by lia. rewrite map_reflect_id by lia. reflexivity.
Qed.

(** * Correlations *)
Lemma valid_corrs_spec ncorr all l : Forall (fun i => i < length all) l ->
  valid_corrs ncorr all l = Ok (filter (fun c => c <? ncorr) (map (fun i => nth i all 0) l)).
Proof.
  induction 1 as [|i l Hi H IH]; [reflexivity|]. cbn [valid_corrs map filter].
  rewrite (nth_error_nth' all 0 Hi), IH. destruct (nth i all 0 <? ncorr); reflexivity.
Qed.
Lemma map_nth_seq (l : list nat) : map (fun i => nth i l 0) (seq 0 (length l)) = l.
Proof.
  assert (K : forall pre, map (fun i => nth i (pre ++ l) 0) (seq (length pre) (length l)) = l).
  { induction l as [|x l IH]; intros pre; [reflexivity|]. cbn [length seq map]. f_equal.
    - rewrite app_nth2, Nat.sub_diag by lia. reflexivity.
    - specialize (IH (pre ++ [x])). rewrite app_length, Nat.add_1_r, <- app_assoc in IH. exact IH. }
  exact (K []).
Qed.
Lemma Permutation_filter {X} (p : X -> bool) l m : Permutation l m -> Permutation (filter p l) (filter p m).
Proof.
  induction 1; cbn; auto.
  - destruct (p x); auto.
  - destruct (p x), (p y); auto. apply perm_swap.
  - etransitivity; eauto.
Qed.
Lemma flag_corr_spec ncorr l : 0 < ncorr -> l <> [] -> Permutation l (seq 0 (length l)) ->
  exists r, flag_corr ncorr l = Ok r /\ Permutation r (filter (fun c => c <? ncorr) l).
Proof.
  intros Hn Hl P. unfold flag_corr. destruct l as [|x l'] eqn:E; [congruence|]. rewrite <- E in *.
  rewrite valid_corrs_spec.
  2:{ rewrite Forall_forall. intros i Hi. apply (Permutation_in _ P), in_seq in Hi. lia. }
  assert (Q : Permutation (filter (fun c => c <? ncorr) (map (fun i => nth i l 0) l)) (filter (fun c => c <? ncorr) l)).
  { apply Permutation_filter. transitivity (map (fun i => nth i l 0) (seq 0 (length l))); [now apply Permutation_map|]. rewrite map_nth_seq. reflexivity. }
  destruct (filter (fun c => c <? ncorr) (map (fun i => nth i l 0) l)) as [|y r] eqn:F.
  - exfalso. apply Permutation_nil in Q. assert (I : In 0 (filter (fun c => c <? ncorr) l)).
    { apply filter_In. split; [|now apply Nat.ltb_lt]. apply (Permutation_in _ (Permutation_sym P)), in_seq. rewrite E. cbn. lia. }
    rewrite Q in I. destruct I.
  - exists (y :: r). split; [reflexivity|exact Q].
Qed.

(** * Medians *)
Lemma is_median_perm v w m : Permutation v w -> is_median v m -> is_median w m.
Proof. intros P (s & Q & H). exists s. split; [|exact H]. rewrite <- Q. now apply Permutation_sym. Qed.
Lemma median_snd_perm sel v : nth_element sel -> Nat.odd (length v) = true -> Permutation v (snd (median sel v)).
Proof.
  intros C O. unfold median. destruct v as [|x w] eqn:E; [discriminate|]. rewrite <- E in *. cbv zeta. rewrite O. cbn [snd].
  apply C. rewrite E. cbn [length]. apply Nat.div_lt; lia.
Qed.

Lemma Permutation_flat_map_ext {X Y} (f g : X -> list Y) l : (forall x, In x l -> Permutation (f x) (g x)) -> Permutation (flat_map f l) (flat_map g l).
Proof.
  induction l as [|x l IH]; intros H; [reflexivity|]. cbn. apply Permutation_app; [apply H; now left|apply IH; intros; apply H; now right].
Qed.
Lemma length_flat_const {X Y} (f : X -> list Y) l k : (forall x, In x l -> length (f x) = k) -> length (flat_map f l) = length l * k.
Proof.
  induction l as [|x l IH]; intros H; [reflexivity|]. cbn. rewrite app_length, H by now left. rewrite IH by (intros; apply H; now right). reflexivity.
Qed.
Lemma centred_len n x hw : length (centred n x hw) = 2 * hw + 1.
Proof. unfold centred. cbn [length]. rewrite (length_flat_const _ _ 2) by reflexivity. rewrite seq_length. lia. Qed.

Lemma absq_eq x : (if qltb x 0 then Qcopp x else x) = absolute x.
Proof.
  unfold absolute. destruct (qltb x 0) eqn:E, (Qclt_le_dec x 0) as [L|L]; try reflexivity.
  - apply qltb_true in E. exfalso. exact (Qcle_not_lt _ _ L E).
  - apply qltb_false in E. exfalso. exact (Qcle_not_lt _ _ E L).
Qed.

Lemma unflagged_map {X Y} (p : X -> bool) (f : X -> Y) l : (forall c, In c l -> p c = false) -> flat_map (fun c => if p c then [] else [f c]) l = map f l.
Proof. induction l as [|c l IH]; intros H; [reflexivity|]. cbn. rewrite H by now left. cbn. f_equal. apply IH. intros; apply H; now right. Qed.

Lemma factors_spec sel ampl flagged slots_used tw hw chan nchan corr scratch : nth_element sel ->
  Nat.odd tw = true -> tw <= length slots_used -> (0 <= chan < nchan)%Z -> (2 * Z.of_nat hw + 1 <= nchan)%Z ->
  (forall t c, In t (firstn tw slots_used) -> In c (centred nchan chan hw) -> flagged t c corr = false) ->
  length scratch = tw * (2 * hw + 1) ->
  exists z1 z2 s', compute_factors sel ampl flagged slots_used tw (2 * hw + 1) chan nchan corr scratch = Some (z1, z2, s') /\
    med_and_mad (window_vals ampl slots_used tw hw chan nchan corr) z1 z2 /\ length s' = length scratch.
Proof.
  intros C Ot Ht Hc Hw HF HS.
  assert (CH : Permutation (channels (Z.of_nat (2 * hw + 1)) chan nchan) (centred nchan chan hw)).
  { replace (Z.of_nat (2 * hw + 1)) with (2 * Z.of_nat hw + 1)%Z by lia. rewrite <- (Nat2Z.id hw) at 2. apply channels_spec; lia. }
  unfold compute_factors, gather. destruct (Nat.ltb_spec (length slots_used) tw); [lia|].
  set (vals := flat_map _ (firstn tw slots_used)). set (W := window_vals ampl slots_used tw hw chan nchan corr).
  assert (PV : Permutation vals W).
  { apply Permutation_flat_map_ext. intros t Ht'. rewrite unflagged_map; [now apply Permutation_map|].
    intros c Hc'. apply HF; [exact Ht'|]. apply (Permutation_in _ CH), Hc'. }
  assert (LW : length W = length scratch).
  { unfold W, window_vals. rewrite (length_flat_const _ _ (2 * hw + 1)) by (intros; rewrite map_length; apply centred_len).
    rewrite firstn_length, HS. f_equal. lia. }
  assert (LV : length vals = length scratch) by (rewrite <- LW; now apply Permutation_length).
  assert (OV : Nat.odd (length vals) = true).
  { rewrite LV, HS, Nat.odd_mul, Ot, Nat.odd_add, Nat.odd_mul. reflexivity. }
  clearbody vals. destruct (Nat.ltb_spec (length scratch) (length vals)); [lia|].
  rewrite LV, skipn_all, app_nil_r. rewrite LV in OV.
  destruct (Nat.eqb_spec (length scratch) 0) as [E0|_]; [rewrite E0 in OV; discriminate|].
  rewrite <- LV in OV. pose proof (median_odd sel vals C OV) as M1. pose proof (median_snd_perm sel vals C OV) as P1.
  destruct (median sel vals) as [z1 v1]. cbn [fst snd] in *.
  assert (L1 : length v1 = length scratch) by (rewrite <- LV; symmetry; now apply Permutation_length).
  rewrite <- L1, firstn_all, skipn_all, app_nil_r.
  set (v2 := map _ v1).
  assert (L2 : length v2 = length vals) by (unfold v2; rewrite map_length; lia).
  assert (OV2 : Nat.odd (length v2) = true) by now rewrite L2.
  pose proof (median_odd sel v2 C OV2) as M2. pose proof (median_snd_perm sel v2 C OV2) as P2.
  destruct (median sel v2) as [z2 v3]. cbn [fst snd] in *. exists z1, z2, v3. split; [reflexivity|]. split; [split|].
  - exact (is_median_perm _ _ _ PV M1).
  - refine (is_median_perm _ _ _ _ M2). unfold v2. rewrite (map_ext _ (fun x => absolute (x - z1)%Qc)) by (intros; apply absq_eq).
    apply Permutation_map. rewrite <- P1. exact PV.
  - apply Permutation_length in P2. lia.
Qed.

Lemma med_unique vals z m z' m' : med_and_mad vals z m -> med_and_mad vals z' m' -> z = z' /\ m = m'.
Proof.
  intros [A B] [A' B']. assert (z = z') by (eapply is_median_unique; eauto). subst z'. split; [reflexivity|]. eapply is_median_unique; eauto.
Qed.

Lemma flag_channel_spec sel ampl flagged corrs slots_used tw hw fac t chan nchan scratch : nth_element sel ->
  Nat.odd tw = true -> tw <= length slots_used -> (0 <= chan < nchan)%Z -> (2 * Z.of_nat hw + 1 <= nchan)%Z ->
  (forall ip t' c, In ip corrs -> In t' (firstn tw slots_used) -> In c (centred nchan chan hw) -> flagged t' c ip = false) ->
  (forall ip, In ip corrs -> flagged t chan ip = false) ->
  length scratch = tw * (2 * hw + 1) ->
  exists b s', flag_channel sel ampl flagged corrs slots_used tw (2 * hw + 1) fac t chan nchan scratch = Some (b, s') /\
    length s' = length scratch /\ (b = true <-> exists ip, In ip corrs /\ exceeds ampl slots_used tw hw fac t chan nchan ip).
Proof.
  intros C Ot Ht Hc Hw. revert scratch. induction corrs as [|ip r IH]; intros scratch HF HT HS.
  - exists false, scratch. split; [reflexivity|]. split; [reflexivity|]. split; [discriminate|]. intros (ip & [] & _).
  - cbn [flag_channel]. rewrite (HT ip) by now left.
    destruct (factors_spec sel ampl flagged slots_used tw hw chan nchan ip scratch C Ot Ht Hc Hw) as (z1 & z2 & s1 & E & M & L); [|exact HS|].
    { intros t' c Ht' Hc'. apply HF; auto. now left. }
    rewrite E. destruct (qltb (z1 + fac * z2)%Qc (ampl t chan ip)) eqn:Q.
    + apply qltb_true in Q. exists true, s1. split; [reflexivity|]. split; [exact L|]. split; [|reflexivity].
      intros _. exists ip. split; [now left|]. exists z1, z2. now split.
    + apply qltb_false in Q. destruct (IH s1) as (b & s' & E' & L' & B').
      { intros; apply HF; auto. now right. } { intros; apply HT; now right. } { lia. }
      exists b, s'. split; [exact E'|]. split; [lia|]. rewrite B'. split.
      * intros (ip' & I & X). exists ip'. split; [now right|exact X].
      * intros (ip' & [<-|I] & X); [|now exists ip']. destruct X as (z & m & M' & X). destruct (med_unique _ _ _ _ _ M M') as [-> ->].
        exfalso. exact (Qcle_not_lt _ _ Q X).
Qed.

Lemma flag_baseline_spec sel ampl flagged corrs slots_used tw hw fac t chans nchan : nth_element sel ->
  Nat.odd tw = true -> tw <= length slots_used -> (2 * Z.of_nat hw + 1 <= nchan)%Z ->
  (forall c, In c chans -> (0 <= c < nchan)%Z) ->
  (forall ip t' c, In ip corrs -> In t' (t :: slots_used) -> (0 <= c < nchan)%Z -> flagged t' c ip = false) ->
  forall scratch, length scratch = tw * (2 * hw + 1) ->
  exists bs s', flag_baseline sel ampl flagged corrs slots_used tw (2 * hw + 1) fac t chans nchan scratch = Some (bs, s') /\
    length s' = length scratch /\
    Forall2 (fun c b => b = true <-> exists ip, In ip corrs /\ exceeds ampl slots_used tw hw fac t c nchan ip) chans bs.
Proof.
  intros C Ot Ht Hw. induction chans as [|c r IH]; intros HC HF scratch HS.
  - exists [], scratch. repeat split. constructor.
  - cbn [flag_baseline].
    destruct (flag_channel_spec sel ampl flagged corrs slots_used tw hw fac t c nchan scratch C Ot Ht) as (b & s1 & E & L & B); try exact HS; try exact Hw.
    { apply HC; now left. }
    { intros ip t' c' I1 I2 I3. apply HF; [exact I1|right; rewrite <- (firstn_skipn tw slots_used); apply in_or_app; now left|].
      assert (CI := centred_in nchan c hw (HC c (or_introl eq_refl)) Hw). rewrite Forall_forall in CI. now apply CI. }
    { intros ip I1. apply HF; [exact I1|now left|apply HC; now left]. }
    rewrite E. destruct (IH (fun c' H => HC c' (or_intror H)) HF s1) as (bs & s2 & E2 & L2 & B2); [lia|].
    rewrite E2. exists (b :: bs), s2. split; [reflexivity|]. split; [lia|]. now constructor.
Qed.

(** * Autocorrelations *)
Section Auto.
Variables (auto : nat -> Z) (in_range : nat -> bool) (ant : nat -> nat * nat) (nchan ncorr : nat).
Definition cross (b : nat) : Prop := fst (ant b) <> snd (ant b).
Definition auto_bad (fl : nat -> nat -> nat -> bool) (b c : nat) : Prop :=
  exists a, (a = fst (ant b) \/ a = snd (ant b)) /\ (0 <= auto a)%Z /\ fl (Z.to_nat (auto a)) c 0 = true.
Definition newly (fl : nat -> nat -> nat -> bool) (b c : nat) : Prop :=
  cross b /\ in_range b = true /\ fl b c 0 = false /\ auto_bad fl b c.

Lemma chan_loop j1 j2 b (Hj : j1 <> b /\ j2 <> b) : forall cs fl, NoDup cs -> forall b' c' p',
  fold_left (fun (fl : nat -> nat -> nat -> bool) c =>
        if negb (fl b c 0) && (fl j1 c 0 || fl j2 c 0)
        then (fun b' c' p' => if (b' =? b) && (c' =? c) && (p' <? ncorr) then true else fl b' c' p') else fl) cs fl b' c' p' = true <->
  fl b' c' p' = true \/ (b' = b /\ In c' cs /\ p' < ncorr /\ fl b c' 0 = false /\ (fl j1 c' 0 = true \/ fl j2 c' 0 = true)).
Proof.
  induction cs as [|c cs IH]; intros fl ND b' c' p'.
  - cbn. split; [now left|]. intros [H|(_ & [] & _)]; exact H.
  - inversion_clear ND as [|? ? NI ND']. cbn [fold_left]. rewrite IH by exact ND'. clear IH.
    destruct (negb (fl b c 0) && (fl j1 c 0 || fl j2 c 0)) eqn:E.
    + apply andb_prop in E as [E1 E2]. apply negb_true_iff in E1. apply orb_true_iff in E2.
      destruct (Nat.eqb_spec b' b) as [->|N]; cbn [andb].
      * destruct (Nat.eqb_spec c' c) as [->|N']; cbn [andb].
        -- destruct (Nat.ltb_spec p' ncorr) as [L|L]; cbn [andb].
           ++ split; [intros _; right; repeat split; auto; now left|now left].
           ++ split; [intros [H|(_ & I & _)]; [now left|contradiction]|]. intros [H|(_ & _ & H & _)]; [now left|lia].
        -- destruct (Nat.eqb_spec j1 b); [tauto|]. destruct (Nat.eqb_spec j2 b); [tauto|]. cbn [andb].
           rewrite Nat.eqb_refl. cbn [andb]. destruct (Nat.eqb_spec c' c); [contradiction|]. cbn [andb].
           split; (intros [H|(_ & I & H)]; [now left|right]).
           ++ split; [reflexivity|]. split; [now right|exact H].
           ++ split; [reflexivity|]. destruct I as [->|I]; [contradiction|]. split; [exact I|exact H].
      * split; [intros [H|(-> & _)]; [now left|contradiction]|]. intros [H|(-> & _)]; [now left|contradiction].
    + split; (intros [H|(-> & I & L & H1 & H2)]; [now left|]).
      * right. repeat split; auto. now right.
      * destruct I as [->|I]; [|right; repeat split; auto]. exfalso. rewrite H1 in E. cbn in E. apply orb_false_iff in E as [X Y].
        destruct H2; congruence.
Qed.

Hypothesis Hauto : forall a, (0 <= auto a)%Z -> ant (Z.to_nat (auto a)) = (a, a).

Lemma auto_baseline_spec fl b b' c' p' : auto_baseline auto in_range ant nchan ncorr fl b b' c' p' = true <->
  fl b' c' p' = true \/ (b' = b /\ c' < nchan /\ p' < ncorr /\ newly fl b c').
Proof.
  unfold auto_baseline, newly, cross, auto_bad. destruct (ant b) as [a1 a2] eqn:A. cbn [fst snd].
  destruct (Nat.eqb_spec a1 a2) as [->|N]; cbn [negb andb].
  { split; [now left|]. intros [H|(_ & _ & _ & X & _)]; [exact H|contradiction]. }
  destruct (in_range b) eqn:R.
  2:{ split; [now left|]. intros [H|(_ & _ & _ & _ & X & _)]; [exact H|discriminate]. }
  assert (NB : forall a, (0 <= auto a)%Z -> Z.to_nat (auto a) <> b).
  { intros a Ha Hb. specialize (Hauto a Ha). rewrite Hb, A in Hauto. congruence. }
  destruct ((0 <=? auto a1)%Z || (0 <=? auto a2)%Z) eqn:O.
  2:{ split; [now left|]. intros [H|(_ & _ & _ & _ & _ & _ & a & [->| ->] & Ha & _)]; [exact H| |]; exfalso; lia. }
  rewrite chan_loop.
  2:{ split.
      - destruct (Z.ltb_spec (auto a1) 0); apply NB; lia.
      - destruct (Z.ltb_spec (auto a1) 0); [apply NB; lia|]. destruct (Z.ltb_spec (auto a2) 0); apply NB; lia. }
  2:{ apply seq_NoDup. }
  rewrite in_seq. split; (intros [H|(-> & L & P & H)]; [now left|right]); (split; [reflexivity|]); (split; [lia|]); (split; [exact P|]).
  - destruct H as [H1 H2]. split; [exact N|]. split; [reflexivity|]. split; [exact H1|].
    destruct (Z.ltb_spec (auto a1) 0), (Z.ltb_spec (auto a2) 0); try lia; destruct H2 as [H2|H2];
      first [exists a1; split; [now left|]; split; [assumption|exact H2] | exists a2; split; [now right|]; split; [assumption || lia|exact H2]].
  - destruct H as (_ & _ & H1 & a & Ha & Hp & H2). split; [exact H1|].
    destruct Ha as [->| ->]; destruct (Z.ltb_spec (auto a1) 0), (Z.ltb_spec (auto a2) 0); try lia; auto.
Qed.

Lemma auto_bad_stable fl fl' b c : (forall b' c', ~ cross b' -> fl' b' c' 0 = fl b' c' 0) -> auto_bad fl' b c <-> auto_bad fl b c.
Proof.
  intros H. unfold auto_bad. split; intros (a & A & P & F); exists a; (split; [exact A|]); (split; [exact P|]);
    (rewrite H in * || rewrite H); auto; unfold cross; rewrite Hauto by exact P; cbn; congruence.
Qed.

Lemma auto_flags_from : forall bs fl, NoDup bs -> forall b' c' p',
  fold_left (auto_baseline auto in_range ant nchan ncorr) bs fl b' c' p' = true <->
  fl b' c' p' = true \/ (In b' bs /\ c' < nchan /\ p' < ncorr /\ newly fl b' c').
Proof.
  induction bs as [|b bs IH]; intros fl ND b' c' p'.
  - cbn. split; [now left|]. intros [H|([] & _)]; exact H.
  - inversion_clear ND as [|? ? NI ND']. cbn [fold_left]. rewrite IH, auto_baseline_spec by exact ND'. clear IH.
    set (fl' := auto_baseline auto in_range ant nchan ncorr fl b).
    assert (ST : forall b'' c'', b'' <> b \/ ~ cross b'' -> fl' b'' c'' 0 = fl b'' c'' 0).
    { intros b'' c'' H. apply eq_true_iff_eq. unfold fl'. rewrite auto_baseline_spec. split; [|now left].
      intros [X|(-> & _ & _ & X & _)]; [exact X|]. exfalso. destruct H; auto. }
    assert (NW : forall b'' c'', b'' <> b -> newly fl' b'' c'' <-> newly fl b'' c'').
    { intros b'' c'' H. unfold newly. rewrite (auto_bad_stable fl fl') by (intros; apply ST; now right). rewrite ST by now left. reflexivity. }
    split.
    + intros [[H|(-> & H)]|(I & L & P & H)]; [now left|right; split; [now left|exact H]|right].
      split; [now right|]. split; [exact L|]. split; [exact P|]. apply NW; [intros ->; contradiction|exact H].
    + intros [H|([<-|I] & H)]; [left; now left|left; right; split; [reflexivity|exact H]|right].
      destruct H as (L & P & H). split; [exact I|]. split; [exact L|]. split; [exact P|]. apply NW; [intros ->; contradiction|exact H].
Qed.
End Auto.
