From Coq Require Import Ascii String List Bool Arith Permutation Lia.
From Verif Require Import StrModel StrProofs FlagCountModel FlagCountSpec.
Import ListNotations.
Open Scope nat_scope.

Lemma incr_eq f i j : incr f i j = f j + (if j =? i then 1 else 0).
Proof. unfold incr. destruct (j =? i); lia. Qed.

Definition counted (e x : event) : nat := if event_dec e x then 1 else 0.
Lemma count_occ_counted es x a : count_occ event_dec (es ++ [x]) a = count_occ event_dec es a + counted x a.
Proof. rewrite count_occ_app. unfold counted. cbn [count_occ]. destruct (event_dec x a); lia. Qed.

Lemma run_counts es :
  (forall b, n_bl (run es) b = count_occ event_dec es (IncrBaseline b)) /\
  (forall c, n_ch (run es) c = count_occ event_dec es (IncrChannel c)) /\
  (forall p, n_corr (run es) p = count_occ event_dec es (IncrCorrelation p)).
Proof.
  induction es as [|e es IH] using rev_ind; [repeat split|].
  unfold run in *. rewrite fold_left_app. cbn [fold_left]. destruct IH as (I1 & I2 & I3).
  repeat split; intros i; rewrite count_occ_counted; unfold counted;
    destruct e as [x|x|x]; cbn [count n_bl n_ch n_corr]; rewrite ?incr_eq, ?I1, ?I2, ?I3;
    match goal with |- context [event_dec ?p ?q] => destruct (event_dec p q) as [E|E] end;
    first [discriminate E
          |assert (i = x) by congruence; subst; rewrite ?Nat.eqb_refl; lia
          |lia
          |destruct (i =? x) eqn:K; [apply Nat.eqb_eq in K; subst; now destruct E|lia]].
Qed.

Lemma add_fold (l : list counter) (s : counter) i :
  n_bl (fold_left add l s) i = n_bl s i + list_sum (map (fun t => n_bl t i) l) /\
  n_ch (fold_left add l s) i = n_ch s i + list_sum (map (fun t => n_ch t i) l) /\
  n_corr (fold_left add l s) i = n_corr s i + list_sum (map (fun t => n_corr t i) l).
Proof.
  revert s. induction l as [|t l IH]; intros s; cbn [fold_left map list_sum fold_right]; [lia|].
  destruct (IH (add s t)) as (-> & -> & ->). cbn [add n_bl n_ch n_corr]. unfold list_sum. lia.
Qed.

Lemma count_occ_concat parts a :
  count_occ event_dec (concat parts) a = list_sum (map (fun p => count_occ event_dec p a) parts).
Proof. induction parts as [|p parts IH]; [reflexivity|]. cbn [concat map list_sum fold_right]. rewrite count_occ_app, IH. reflexivity. Qed.

Lemma merged parts es i : Permutation (concat parts) es ->
  n_bl (fold_left add (map run parts) zero_counts) i = count_occ event_dec es (IncrBaseline i) /\
  n_ch (fold_left add (map run parts) zero_counts) i = count_occ event_dec es (IncrChannel i) /\
  n_corr (fold_left add (map run parts) zero_counts) i = count_occ event_dec es (IncrCorrelation i).
Proof.
  intros P. pose proof (proj1 (Permutation_count_occ event_dec _ _) P) as Q.
  rewrite <- !Q, !count_occ_concat. destruct (add_fold (map run parts) zero_counts i) as (-> & -> & ->).
  cbn [zero_counts n_bl n_ch n_corr]. rewrite !map_map, !Nat.add_0_l.
  repeat split; f_equal; apply map_ext; intros p; apply run_counts.
Qed.

Lemma sum_count_occ (mk : nat -> event) (inj : forall a b, mk a = mk b -> a = b) es n
  (P : forall e, In e es -> forall i, e = mk i -> i < n) :
  list_sum (map (fun i => count_occ event_dec es (mk i)) (seq 0 n))
  = List.length (filter (fun e => existsb (fun i => if event_dec e (mk i) then true else false) (seq 0 n)) es).
Proof.
  induction es as [|e es IH].
  - cbn. induction (seq 0 n); cbn; auto.
  - cbn [filter]. rewrite (map_ext (fun i => count_occ event_dec (e :: es) (mk i)) (fun i => counted e (mk i) + count_occ event_dec es (mk i))).
    2:{ intros i. unfold counted. cbn [count_occ]. destruct (event_dec e (mk i)); lia. }
    assert (S : forall (f g : nat -> nat) l, list_sum (map (fun x => f x + g x) l) = list_sum (map f l) + list_sum (map g l)).
    { intros f g l. induction l as [|x l IHl]; cbn; [reflexivity|]. unfold list_sum in *. lia. }
    rewrite S, IH by (intros e' H' i' E'; apply (P e'); [now right|exact E']).
    assert (K : forall l, NoDup l -> list_sum (map (fun i => counted e (mk i)) l) =
      if existsb (fun i => if event_dec e (mk i) then true else false) l then 1 else 0).
    { intros l. induction l as [|x l IHl]; intros ND; [reflexivity|]. inversion ND; subst.
      cbn [map list_sum fold_right existsb]. unfold list_sum in IHl. rewrite IHl by assumption. unfold counted.
      destruct (event_dec e (mk x)) as [->|]; cbn [orb]; [|lia].
      destruct (existsb _ l) eqn:Ex; [|lia]. apply existsb_exists in Ex as (y & Hy & Ey).
      destruct (event_dec (mk x) (mk y)) as [E|]; [|discriminate]. apply inj in E. subst. contradiction. }
    rewrite K by apply seq_NoDup. destruct (existsb _ (seq 0 n)); cbn; lia.
Qed.

Lemma samples_counts (samples : list (nat * nat)) nbl nchan :
  Forall (fun bc => fst bc < nbl /\ snd bc < nchan) samples ->
  list_sum (map (n_bl (run (flat_map sample_events samples))) (seq 0 nbl)) = List.length samples /\
  list_sum (map (n_ch (run (flat_map sample_events samples))) (seq 0 nchan)) = List.length samples.
Proof.
  intros H. destruct (run_counts (flat_map sample_events samples)) as (R1 & R2 & _).
  rewrite (map_ext _ _ R1), (map_ext _ _ R2). clear R1 R2.
  rewrite (sum_count_occ IncrBaseline), (sum_count_occ IncrChannel).
  - induction H as [|[b c] l [Hb Hc] Hl IH]; [split; reflexivity|].
    cbn [flat_map sample_events app fst snd filter]. destruct IH as [I1 I2]. cbn [fst snd] in *.
    assert (E1 : existsb (fun i => if event_dec (IncrBaseline b) (IncrBaseline i) then true else false) (seq 0 nbl) = true).
    { apply existsb_exists. exists b. rewrite in_seq. split; [lia|]. now destruct (event_dec (IncrBaseline b) (IncrBaseline b)). }
    assert (E2 : existsb (fun i => if event_dec (IncrChannel c) (IncrChannel i) then true else false) (seq 0 nchan) = true).
    { apply existsb_exists. exists c. rewrite in_seq. split; [lia|]. now destruct (event_dec (IncrChannel c) (IncrChannel c)). }
    assert (E3 : existsb (fun i => if event_dec (IncrChannel c) (IncrBaseline i) then true else false) (seq 0 nbl) = false).
    { apply not_true_is_false. intros X. apply existsb_exists in X as (i & _ & X). now destruct (event_dec (IncrChannel c) (IncrBaseline i)). }
    assert (E4 : existsb (fun i => if event_dec (IncrBaseline b) (IncrChannel i) then true else false) (seq 0 nchan) = false).
    { apply not_true_is_false. intros X. apply existsb_exists in X as (i & _ & X). now destruct (event_dec (IncrBaseline b) (IncrChannel i)). }
    rewrite E1, E2, E3, E4. cbn [List.length]. rewrite I1, I2. split; reflexivity.
  - congruence.
  - intros e He i ->. apply in_flat_map in He as ([b c] & Hin & [E|[E|[]]]); [discriminate|].
    rewrite Forall_forall in H. specialize (H _ Hin). cbn in *. assert (i = c) by congruence. lia.
  - congruence.
  - intros e He i ->. apply in_flat_map in He as ([b c] & Hin & [E|[E|[]]]); [|discriminate].
    rewrite Forall_forall in H. specialize (H _ Hin). cbn in *. assert (i = b) by congruence. lia.
Qed.

(** * Tables *)
Definition ind (b : bool) : nat := if b then 1 else 0.
Lemma plus_at_eq f i x j : plus_at f i x j = f j + ind (j =? i) * x.
Proof. unfold plus_at, ind. destruct (j =? i); lia. Qed.
Lemma plus_at2_eq f i j x k l : plus_at2 f i j x k l = f k l + ind ((k =? i) && (l =? j)) * x.
Proof. unfold plus_at2, ind. destruct ((k =? i) && (l =? j)); lia. Qed.

Lemma sum_filter_cons (p : bline -> bool) (g : bline -> nat) bs b :
  list_sum (map g (filter p (bs ++ [b]))) = list_sum (map g (filter p bs)) + ind (p b) * g b.
Proof.
  rewrite filter_app, map_app, list_sum_app. cbn [filter]. destruct (p b); cbn; lia.
Qed.
Lemma len_filter_cons (p : bline -> bool) bs b :
  List.length (filter p (bs ++ [b])) = List.length (filter p bs) + ind (p b).
Proof. rewrite filter_app, app_length. cbn [filter]. destruct (p b); cbn; lia. Qed.

Lemma tallies_spec bs :
  (forall a, used_ant (tallies bs) a = List.length (filter (involves a) bs)) /\
  (forall a, count_ant (tallies bs) a = list_sum (map cnt (filter (involves a) bs))) /\
  (forall a b, used_bl (tallies bs) a b = List.length (filter (between a b) bs)) /\
  (forall a b, count_bl (tallies bs) a b = list_sum (map cnt (filter (between a b) bs))).
Proof.
  induction bs as [|x bs IH] using rev_ind; [repeat split|].
  unfold tallies in *. rewrite fold_left_app. cbn [fold_left].
  set (t := fold_left tally bs _) in *. clearbody t. destruct IH as (I1 & I2 & I3 & I4).
  assert (B1 : forall a, ind (involves a x) = if ant1 x =? ant2 x then ind (a =? ant1 x) else ind (a =? ant1 x) + ind (a =? ant2 x)).
  { intros a. unfold involves, ind. rewrite (Nat.eqb_sym a (ant1 x)), (Nat.eqb_sym a (ant2 x)).
    destruct (Nat.eqb_spec (ant1 x) (ant2 x)) as [->|]; destruct (Nat.eqb_spec (ant1 x) a), (Nat.eqb_spec (ant2 x) a); cbn; lia. }
  assert (B2 : forall a b, ind (between a b x) = if ant1 x =? ant2 x then ind ((a =? ant1 x) && (b =? ant2 x))
     else ind ((a =? ant1 x) && (b =? ant2 x)) + ind ((a =? ant2 x) && (b =? ant1 x))).
  { intros a b. unfold between, ind. rewrite (Nat.eqb_sym a (ant1 x)), (Nat.eqb_sym b (ant2 x)), (Nat.eqb_sym a (ant2 x)), (Nat.eqb_sym b (ant1 x)).
    destruct (Nat.eqb_spec (ant1 x) (ant2 x)) as [->|];
      destruct (Nat.eqb_spec (ant1 x) a), (Nat.eqb_spec (ant2 x) a), (Nat.eqb_spec (ant1 x) b), (Nat.eqb_spec (ant2 x) b); cbn; lia. }
  repeat split; intros a; try intros b; rewrite ?len_filter_cons, ?sum_filter_cons, ?B1, ?B2; unfold tally; cbv zeta;
    destruct (ant1 x =? ant2 x); cbn [used_ant count_ant used_bl count_bl];
    rewrite ?plus_at_eq, ?plus_at2_eq, ?I1, ?I2, ?I3, ?I4; lia.
Qed.

Lemma columns_spec used : forall fuel n ant,
  n <= List.length (filter (fun a => 0 <? used a) (seq ant fuel)) ->
  exists ant' fuel', columns used fuel n ant = Some (firstn n (filter (fun a => 0 <? used a) (seq ant fuel)), ant') /\
    ant' + fuel' = ant + fuel /\
    filter (fun a => 0 <? used a) (seq ant' fuel') = skipn n (filter (fun a => 0 <? used a) (seq ant fuel)).
Proof.
  induction fuel as [|f IH]; intros n ant Hn.
  - cbn in Hn. destruct n; [|lia]. exists ant, 0. repeat split.
  - destruct n as [|m]; [exists ant, (S f); repeat split|].
    cbn [columns seq filter] in *. destruct (0 <? used ant) eqn:U.
    + cbn [List.length] in Hn. destruct (IH m (S ant) ltac:(lia)) as (a' & f' & E & A & F). rewrite E.
      exists a', f'. split; [reflexivity|]. split; [lia|exact F].
    + destruct (IH (S m) (S ant) Hn) as (a' & f' & E & A & F). rewrite E.
      exists a', f'. split; [reflexivity|]. split; [lia|exact F].
Qed.

Lemma lines_spec used nant : forall k r ant fuel, ant + fuel = nant ->
  r = List.length (filter (fun a => 0 <? used a) (seq ant fuel)) -> k = (r + 14) / 15 ->
  exists ls, lines used nant k r ant = Some ls /\
    concat ls = filter (fun a => 0 <? used a) (seq ant fuel) /\
    Forall (fun l => 1 <= List.length l <= 15) ls.
Proof.
  induction k as [|k IH]; intros r ant fuel Hn Hr Hk.
  - assert (r = 0) by (destruct r; [reflexivity|]; assert (1 <= (S r + 14) / 15) by (apply Nat.div_le_lower_bound; lia); lia).
    exists []. repeat split; [|constructor]. symmetry. apply length_zero_iff_nil. lia.
  - assert (R1 : 1 <= r) by (destruct r; [cbn in Hk; discriminate|lia]).
    cbn [lines]. replace (nant - ant) with fuel by lia.
    destruct (columns_spec used fuel (Nat.min 15 r) ant ltac:(lia)) as (a' & f' & E & A & F). rewrite E.
    set (u := filter (fun a => 0 <? used a) (seq ant fuel)) in *.
    destruct (IH (r - 15) a' f' ltac:(lia)) as (ls & L1 & L2 & L3).
    + rewrite F, skipn_length. lia.
    + destruct (le_lt_dec 15 r) as [G|G].
      * replace (r + 14) with ((r - 15 + 14) + 1 * 15) in Hk by lia. rewrite Nat.div_add in Hk by lia. lia.
      * replace (r - 15) with 0 by lia. cbn. assert ((r + 14) / 15 < 2) by (apply Nat.div_lt_upper_bound; lia). lia.
    + rewrite L1. eexists. split; [reflexivity|]. split.
      * cbn [concat]. rewrite L2, F. apply firstn_skipn.
      * constructor; [|exact L3]. rewrite firstn_length. lia.
Qed.

Lemma all_lines_spec used nant : exists ls, all_lines used nant = Some ls /\
  concat ls = filter (fun a => 0 <? used a) (seq 0 nant) /\ Forall (fun l => 1 <= List.length l <= 15) ls.
Proof.
  unfold all_lines. cbv zeta. apply (lines_spec used nant _ _ 0 nant); [reflexivity|reflexivity|].
  f_equal. lia.
Qed.

Lemma sum_full (l : list nat) n : Forall (fun x => x <= n) l -> (list_sum l = List.length l * n <-> Forall (eq n) l).
Proof.
  induction 1 as [|x l Hx Hl IH]; [split; [constructor|reflexivity]|].
  assert (Le : list_sum l <= List.length l * n).
  { clear IH. induction Hl; cbn; [lia|]. unfold list_sum in *. cbn in *. lia. }
  cbn [list_sum fold_right List.length]. fold (list_sum l). split; intros H.
  - constructor; [lia|]. apply IH. lia.
  - inversion H; subst. apply IH in H3. lia.
Qed.

Lemma in_flagged_pairs t npoints nant cols a b :
  In (a, b) (flagged_pairs t npoints nant cols) <->
  a < nant /\ 0 < used_ant t a /\ In b cols /\ 0 < used_bl t a b /\ a <= b /\ count_bl t a b = used_bl t a b * npoints.
Proof.
  unfold flagged_pairs. rewrite in_flat_map. split.
  - intros (k & Hk & H). apply in_seq in Hk. destruct (0 <? used_ant t k) eqn:U; [|destruct H].
    apply Nat.ltb_lt in U. apply in_flat_map in H as (ia & Hia & H).
    destruct (_ && _) eqn:C in H; [|destruct H]. destruct H as [E|[]].
    assert (k = a /\ ia = b) as [-> ->] by (split; congruence).
    rewrite !andb_true_iff, Nat.ltb_lt, Nat.leb_le, Nat.eqb_eq in C. repeat split; try tauto; lia.
  - intros (H1 & H2 & H3 & H4 & H5 & H6). exists a. split; [apply in_seq; lia|].
    apply Nat.ltb_lt in H2. rewrite H2. apply in_flat_map. exists b. split; [exact H3|].
    apply Nat.ltb_lt in H4. apply Nat.leb_le in H5. apply Nat.eqb_eq in H6. rewrite H4, H5, H6. now left.
Qed.

Lemma NoDup_flat_map {A B} (f : A -> list B) (l : list A) :
  NoDup l -> (forall x, In x l -> NoDup (f x)) -> (forall x y z, In x l -> In y l -> In z (f x) -> In z (f y) -> x = y) -> NoDup (flat_map f l).
Proof.
  induction 1 as [|x l Hx Hl IH]; cbn; intros H1 H2; [constructor|].
  assert (NoDup (flat_map f l)) by (apply IH; [auto|intros; eapply H2; eauto]).
  assert (D : forall z, In z (f x) -> ~ In z (flat_map f l)).
  { intros z Hz Hin. apply in_flat_map in Hin as (y & Hy & Hz'). assert (x = y) by (eapply H2; eauto). now subst. }
  specialize (H1 x (or_introl eq_refl)). clear - H H1 D. induction H1 as [|z m Hz Hm IHm]; [exact H|].
  cbn. constructor; [|apply IHm; intros; apply D; now right].
  rewrite in_app_iff. intros [K|K]; [contradiction|]. exact (D z (or_introl eq_refl) K).
Qed.

Lemma NoDup_flagged t npoints nant cols : NoDup cols -> NoDup (flagged_pairs t npoints nant cols).
Proof.
  intros ND. apply NoDup_flat_map; [apply seq_NoDup| |].
  - intros k _. destruct (0 <? used_ant t k); [|constructor]. apply NoDup_flat_map; [exact ND| |].
    + intros ia _. destruct (_ && _); repeat constructor; intros [].
    + intros x y z _ _ Hx Hy. destruct (_ && _) in Hx; destruct (_ && _) in Hy; try (now destruct Hx); try (now destruct Hy).
      destruct Hx as [<-|[]], Hy as [E|[]]. congruence.
  - assert (G : forall k z, In z (if 0 <? used_ant t k then flat_map (fun ia =>
        if (0 <? used_bl t k ia) && (k <=? ia) && (count_bl t k ia =? used_bl t k ia * npoints) then [(k, ia)] else []) cols else []) -> fst z = k).
    { intros k z H. destruct (0 <? used_ant t k); [|destruct H]. apply in_flat_map in H as (ia & _ & H).
      destruct (_ && _) in H; [|destruct H]. destruct H as [<-|[]]. reflexivity. }
    intros x y z _ _ Hx Hy. apply G in Hx, Hy. congruence.
Qed.

Lemma NoDup_concat_parts {A} (ls : list (list A)) l : NoDup (concat ls) -> In l ls -> NoDup l.
Proof.
  induction ls as [|m ls IH]; [intros _ []|]. cbn. intros H [->|Hin].
  - clear IH. induction l as [|x l IHl]; [constructor|]. cbn in H. inversion H as [|? ? N1 N2]; subst. constructor; [|auto].
    intros K. apply N1, in_app_iff. now left.
  - apply IH; [|exact Hin]. clear - H. induction m as [|x m IHm]; [exact H|]. cbn in H. inversion H; auto.
Qed.

Lemma fully_flagged_spec bs npoints nant :
  Forall (fun x => ant1 x < nant /\ ant2 x < nant /\ cnt x <= npoints) bs ->
  exists l, fully_flagged bs npoints nant = Some l /\ NoDup l /\
    forall a b, In (a, b) l <-> a <= b /\ (exists x, In x bs /\ between a b x = true) /\
                              (forall x, In x bs -> between a b x = true -> cnt x = npoints).
Proof.
  intros H. rewrite Forall_forall in H. unfold fully_flagged. cbv zeta. destruct (tallies_spec bs) as (T1 & T2 & T3 & T4).
  set (t := tallies bs) in *. destruct (all_lines_spec (used_ant t) nant) as (ls & -> & C & _).
  cbn [option_map]. eexists. split; [reflexivity|].
  assert (ND : NoDup (concat ls)) by (rewrite C; apply NoDup_filter, seq_NoDup).
  split.
  - assert (G : forall pre m, NoDup (concat m) -> (pre = m) -> NoDup (flat_map (flagged_pairs t npoints nant) m)).
    { intros _ m NDm _. induction m as [|c m IH]; [constructor|]. cbn [flat_map].
      assert (NDc : NoDup c) by (apply (NoDup_concat_parts (c :: m)); [exact NDm|now left]).
      assert (NDm' : NoDup (concat m)).
      { clear - NDm. cbn in NDm. induction c as [|x c IHc]; [exact NDm|]. cbn in NDm. inversion NDm; auto. }
      specialize (IH NDm').
      assert (D : forall z, In z (flagged_pairs t npoints nant c) -> ~ In z (flat_map (flagged_pairs t npoints nant) m)).
      { intros [a b] Hz Hin. apply in_flagged_pairs in Hz. apply in_flat_map in Hin as (c' & Hc' & Hz'). apply in_flagged_pairs in Hz'.
        destruct Hz as (_ & _ & Hb & _). destruct Hz' as (_ & _ & Hb' & _). clear - NDm Hb Hb' Hc'. cbn in NDm.
        assert (In b (concat m)) by (apply in_concat; eauto). induction c as [|x c IHc]; [destruct Hb|]. cbn in NDm. inversion NDm as [|? ? N1 N2]; subst.
        destruct Hb as [->|Hb]; [apply N1, in_app_iff; now right|auto]. }
      pose proof (NoDup_flagged t npoints nant c NDc) as N. clear - IH D N. induction N as [|z m' Hz Hm IHm]; [exact IH|].
      cbn. constructor; [|apply IHm; intros; apply D; now right].
      rewrite in_app_iff. intros [K|K]; [contradiction|]. exact (D z (or_introl eq_refl) K). }
    now apply (G ls).
  - intros a b. rewrite in_flat_map.
    assert (CF : Forall (fun x => x <= npoints) (map cnt (filter (between a b) bs))).
    { rewrite Forall_forall. intros y Hy. apply in_map_iff in Hy as (x & <- & Hx). apply filter_In in Hx. now apply H. }
    pose proof (sum_full _ npoints CF) as SF. rewrite map_length, <- T3, <- T4 in SF.
    assert (FF : Forall (eq npoints) (map cnt (filter (between a b) bs)) <-> forall x, In x bs -> between a b x = true -> cnt x = npoints).
    { rewrite Forall_forall. split.
      - intros K x Hx Bx. symmetry. apply K. apply in_map. apply filter_In. auto.
      - intros K y Hy. apply in_map_iff in Hy as (x & <- & Hx). apply filter_In in Hx as [Hx Bx]. symmetry. auto. }
    rewrite FF in SF. clear FF CF.
    assert (UB : 0 < used_bl t a b <-> exists x, In x bs /\ between a b x = true).
    { rewrite T3. split.
      - intros L. destruct (filter (between a b) bs) as [|x r] eqn:E; [cbn in L; lia|]. exists x. apply filter_In. rewrite E. now left.
      - intros (x & Hx & Bx). assert (I : In x (filter (between a b) bs)) by (apply filter_In; auto).
        destruct (filter (between a b) bs); [destruct I|cbn; lia]. }
    split.
    + intros (c & Hc & Hin). apply in_flagged_pairs in Hin as (_ & _ & _ & H4 & H5 & H6). rewrite <- UB, <- SF. auto.
    + intros (H1 & H2 & H3). apply UB in H2 as H2'. apply SF in H3. destruct H2 as (x & Hx & Bx).
      assert (AB : (ant1 x = a /\ ant2 x = b) \/ (ant1 x = b /\ ant2 x = a)).
      { unfold between in Bx. apply orb_true_iff in Bx as [Bx|Bx]; apply andb_true_iff in Bx as [B1 B2]; apply Nat.eqb_eq in B1, B2; auto. }
      assert (Ua : forall y, y = a \/ y = b -> 0 < used_ant t y).
      { intros y Hy. rewrite T1. assert (I : In x (filter (involves y) bs)).
        { apply filter_In. split; [exact Hx|]. unfold involves. apply orb_true_iff. rewrite !Nat.eqb_eq. intuition. }
        destruct (filter (involves y) bs); [destruct I|cbn; lia]. }
      specialize (H x Hx). assert (Ib : In b (concat ls)).
      { rewrite C. apply filter_In. split; [apply in_seq; intuition lia|]. apply Nat.ltb_lt. auto. }
      apply in_concat in Ib as (c & Hc & Hb). exists c. split; [exact Hc|]. apply in_flagged_pairs.
      repeat split; auto. intuition lia.
Qed.

(** * File names *)
Lemma find_from_app c s r : ~ In c s -> find_from c (s ++ c :: r) 0 = Some (List.length s).
Proof.
  induction s as [|x s IH]; intros H; cbn.
  - now rewrite Ascii.eqb_refl.
  - destruct (Ascii.eqb_spec x c) as [->|N]; [exfalso; apply H; now left|].
    rewrite IH by (intros K; apply H; now right). reflexivity.
Qed.
Lemma find_from_none c s : ~ In c s -> find_from c s 0 = None.
Proof.
  induction s as [|x s IH]; intros H; cbn; [reflexivity|].
  destruct (Ascii.eqb_spec x c) as [->|N]; [exfalso; apply H; now left|].
  rewrite IH by (intros K; apply H; now right). reflexivity.
Qed.
Lemma before_dot_app s r : ~ In "."%char s -> before_dot (s ++ "."%char :: r) = s.
Proof. intros H. unfold before_dot. rewrite find_from_app by exact H. rewrite firstn_app, Nat.sub_diag, firstn_all. cbn. apply app_nil_r. Qed.
Lemma before_dot_none s : ~ In "."%char s -> before_dot s = s.
Proof. intros H. unfold before_dot. now rewrite find_from_none. Qed.
Lemma rfind_none c s : ~ In c s -> rfind c s = None.
Proof.
  induction s as [|x s IH]; intros H; cbn; [reflexivity|]. rewrite IH by (intros K; apply H; now right).
  destruct (Ascii.eqb_spec x c) as [->|N]; [exfalso; apply H; now left|reflexivity].
Qed.
Lemma rfind_app c d s : ~ In c s -> rfind c (d ++ c :: s) = Some (List.length d).
Proof.
  intros H. induction d as [|x d IH]; cbn.
  - rewrite rfind_none by exact H. now rewrite Ascii.eqb_refl.
  - now rewrite IH.
Qed.
