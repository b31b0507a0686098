(** Properties C16 (filtering), C17 (removing stations), C50 (baseline selection). *)
From Coq Require Import QArith Qcanon List Bool Arith ZArith Sorted Lia.
From Verif Require Import QcUtil AverageModel InfoModel InfoProofs FilterModel FilterSpec FilterProofs.
Import ListNotations.
Open Scope nat_scope.

(** * C16 *)

(** For every selection that matches at least one baseline, every channel range
    and every buffer of at most 2^32 values, the output holds exactly the selected
    baselines and channels, in order, with their row numbers.  Missing for the full
    C16: selections without any match and larger buffers (false, see below). *)
Theorem C16_filtered_partial :
  forall (D F W U R : Type) nbl nchan ncorr start n mask (b : fbuf D F W U R),
  length (f_data b) = nbl * nchan * ncorr -> length (f_flags b) = nbl * nchan * ncorr ->
  length (f_weights b) = nbl * nchan * ncorr -> length (f_uvw b) = nbl * 3 * 1 ->
  (f_rows b = [] \/ length (f_rows b) = nbl) ->
  start + n <= nchan -> (Z.of_nat (nbl * nchan * ncorr) <= 2 ^ 32)%Z -> (Z.of_nat (nbl * 3 * 1) <= 2 ^ 32)%Z ->
  (match mask with None => True | Some m => exists b, b < nbl /\ nth b m false = true end) ->
  let out := filter_process nbl nchan ncorr (filter_update nbl nchan start n mask) b in
  exists sel, is_selection nbl mask sel /\
    picks nchan ncorr start n sel (f_data b) (f_data out) /\
    picks nchan ncorr start n sel (f_flags b) (f_flags out) /\
    picks nchan ncorr start n sel (f_weights b) (f_weights out) /\
    picks 3 1 0 3 sel (f_uvw b) (f_uvw out) /\
    (f_rows b = [] -> f_rows out = []) /\
    (length (f_rows b) = nbl -> picks 1 1 0 1 sel (f_rows b) (f_rows out)).
Proof.
  intros D F W U R nbl nchan ncorr start n mask b H1 H2 H3 H4 H5 H6 H7 H8 H9 out.
  destruct (process_picks nbl nchan ncorr start n mask b H1 H2 H3 H4 H5 H6 H7 H8 H9) as (sel & Hs & _ & H).
  exists sel. split; [exact Hs|]. exact H.
Qed.
Print Assumptions C16_filtered_partial.

(** Three baselines of two channels; the first and last baseline, second channel. *)
Example C16_filtered_case :
  filter_process 3 2 1 (filter_update 3 2 1 1 (Some [true; false; true]))
    (MkFbuf [10; 11; 20; 21; 30; 31] [0; 1; 0; 1; 0; 1] [5; 6; 5; 6; 5; 6] [1; 2; 3; 4; 5; 6; 7; 8; 9] [70; 71; 72])
  = MkFbuf [11; 31] [1; 1] [6; 6] [1; 2; 3; 7; 8; 9] [70; 72].
Proof. reflexivity. Qed.

Lemma selection_unique nbl mask : forall s s', is_selection nbl mask s -> is_selection nbl mask s' -> s = s'.
Proof.
  intros s s' [H1 H2] [H3 H4].
  assert (E : forall x, In x s <-> In x s') by (intros x; now rewrite H2, H4). clear H2 H4.
  revert s' H1 H3 E. induction s as [|a s IH]; intros s' H1 H3 E.
  - destruct s' as [|b s']; auto. exfalso. apply (proj2 (E b)). now left.
  - destruct s' as [|b s']; [exfalso; apply (proj1 (E a)); now left|].
    inversion H1 as [|? ? H1' F1]; subst. inversion H3 as [|? ? H3' F3]; subst. rewrite Forall_forall in F1, F3.
    assert (a = b).
    { destruct (proj1 (E a) (or_introl eq_refl)) as [|Ha]; auto. destruct (proj2 (E b) (or_introl eq_refl)) as [|Hb]; auto.
      apply F1 in Hb. apply F3 in Ha. lia. }
    subst b. f_equal. apply IH; auto. intros x. split; intros Hx.
    + destruct (proj1 (E x) (or_intror Hx)) as [<-|]; auto. apply F1 in Hx. lia.
    + destruct (proj2 (E x) (or_intror Hx)) as [<-|]; auto. apply F3 in Hx. lia.
Qed.

(** The announced baselines are the station pairs of the delivered ones. *)
Theorem C16_announced :
  forall (A : Type) (stations : list A) ant1 ant2 d nchan start n mask,
  set_antennas stations ant1 ant2 = Some d ->
  (match mask with None => True | Some m => exists b, b < length ant1 /\ nth b m false = true end) ->
  exists sel d', is_selection (length ant1) mask sel /\
    filter_announce (filter_update (length ant1) nchan start n mask) d = Some d' /\
    length (d_ant1 d') = length sel /\ length (d_ant2 d') = length sel /\
    forall i b, nth_error sel i = Some b ->
      nth_error (d_ant1 d') i = nth_error ant1 b /\ nth_error (d_ant2 d') i = nth_error ant2 b.
Proof.
  intros A stations ant1 ant2 d nchan start n mask Hd Hm.
  destruct (update_selection (length ant1) nchan start n mask Hm) as [Hsel _].
  set (cfg := filter_update (length ant1) nchan start n mask) in *.
  set (sel := match c_sel cfg with [] => seq 0 (length ant1) | s => s end) in *.
  unfold set_antennas in Hd. destruct (Nat.eqb_spec (length ant1) (length ant2)) as [HL|]; [|discriminate].
  assert (Hda : d_ants d = stations /\ d_ant1 d = ant1 /\ d_ant2 d = ant2).
  { unfold set_ant_used in Hd. destruct (mark _ _); [|discriminate]. destruct (number 0 0 l). injection Hd as <-. auto. }
  destruct Hda as (Ha0 & Ha1 & Ha2).
  exists sel. unfold filter_announce.
  assert (Hin : forall b, In b sel -> b < length ant1) by (intros b Hb; apply Hsel in Hb; tauto).
  destruct (c_sel cfg) as [|s0 s] eqn:E.
  - exists d. split; [exact Hsel|]. split; [reflexivity|]. rewrite Ha1, Ha2. subst sel. rewrite seq_length.
    split; [reflexivity|]. split; [lia|]. intros i b Hi.
    assert (i < length ant1).
    { assert (L : nth_error (seq 0 (length ant1)) i <> None) by congruence. apply nth_error_Some in L. now rewrite seq_length in L. }
    rewrite (nth_error_nth' _ 0) in Hi by (rewrite seq_length; lia). rewrite seq_nth in Hi by lia.
    injection Hi as <-. auto.
  - change (s0 :: s) with sel. clearbody sel. unfold select_baselines. rewrite Ha0, Ha1, Ha2.
    assert (Hfb : forallb (fun b => (b <? length ant1) && (b <? length ant2)) sel = true).
    { apply forallb_forall. intros b Hb. apply Hin in Hb. apply andb_true_iff; rewrite !Nat.ltb_lt. lia. }
    rewrite Hfb. unfold set_ant_used in Hd |- *.
    assert (Hmark : exists l, mark (repeat false (length stations)) (combine (map (fun b => nth b ant1 0) sel) (map (fun b => nth b ant2 0) sel)) = Some l).
    { destruct (mark (repeat false (length stations)) (combine ant1 ant2)) eqn:Em; [|discriminate].
      assert (Hall : forall b, b < length ant1 -> nth b ant1 0 < length stations /\ nth b ant2 0 < length stations).
      { intros b Hb. clear -Em Hb HL.
        assert (G : forall bl l0 l, mark l0 bl = Some l -> forall a c, In (a, c) bl -> a < length l0 /\ c < length l0).
        { induction bl as [|[x y] bl IH]; intros l0 l1 H a c Hac; [destruct Hac|].
          cbn [mark] in H. destruct (Nat.leb_spec (length l0) x), (Nat.leb_spec (length l0) y); cbn [orb] in H; try discriminate.
          destruct Hac as [[= -> ->]|Hac]; auto. specialize (IH _ _ H a c Hac). now rewrite !set_nth_length in IH. }
        specialize (G _ _ _ Em (nth b ant1 0) (nth b ant2 0)). rewrite repeat_length in G. apply G.
        rewrite <- combine_nth by exact HL. apply nth_In. rewrite combine_length. lia. }
      clear -Hall Hin.
      assert (G : forall l0, length l0 = length stations -> exists l, mark l0 (combine (map (fun b => nth b ant1 0) sel) (map (fun b => nth b ant2 0) sel)) = Some l).
      { induction sel as [|b sel IH]; intros l0 Hl0; cbn [map combine mark]; [eauto|].
        destruct (Hall b (Hin b (or_introl eq_refl))) as [B1 B2].
        destruct (Nat.leb_spec (length l0) (nth b ant1 0)); [lia|]. destruct (Nat.leb_spec (length l0) (nth b ant2 0)); [lia|].
        cbn [orb]. apply IH; [intros; apply Hin; now right|]. now rewrite !set_nth_length. }
      apply G. apply repeat_length. }
    destruct Hmark as [l Hl]. rewrite Hl. destruct (number 0 0 l) as [u mp].
    eexists. split; [exact Hsel|]. split; [reflexivity|]. cbn [d_ant1 d_ant2].
    rewrite !map_length. split; [reflexivity|]. split; [reflexivity|].
    intros i b Hi. rewrite !nth_error_map, Hi. cbn [option_map].
    assert (b < length ant1) by (apply Hin; eapply nth_error_In; eauto).
    split; symmetry; apply nth_error_nth'; lia.
Qed.
Print Assumptions C16_announced.
Example C16_announced_case :
  option_map (fun d => (d_ant1 d, d_ant2 d))
    (match set_antennas [1; 2; 3] [0; 0; 1] [1; 2; 2] with
     | Some d => filter_announce (filter_update 3 2 1 1 (Some [true; false; true])) d | None => None end)
  = Some ([0; 1], [1; 2]).
Proof. reflexivity. Qed.

(** Full C16 fails for a selection that matches no baseline: all baselines pass. *)
Theorem C16_empty_selection_refuted :
  forall (D F W U R : Type) nbl nchan ncorr (b : fbuf D F W U R) m,
  0 < nbl -> (forall i, nth i m false = false) ->
  length (f_data b) = nbl * nchan * ncorr -> length (f_flags b) = nbl * nchan * ncorr ->
  length (f_weights b) = nbl * nchan * ncorr ->
  is_selection nbl (Some m) [] /\
  let out := filter_process nbl nchan ncorr (filter_update nbl nchan 0 nchan (Some m)) b in
  picks nchan ncorr 0 nchan (seq 0 nbl) (f_data b) (f_data out) /\ f_rows out = f_rows b.
Proof.
  intros D F W U R nbl nchan ncorr b m Hn Hm H1 H2 H3. split.
  - split; [constructor|]. intros x. rewrite Hm. split; [intros []|intros [_ H]; discriminate].
  - cbn zeta. unfold filter_update.
    assert (E : filter (fun i => nth i m false) (seq 0 nbl) = []).
    { induction (seq 0 nbl); auto. cbn [filter]. now rewrite Hm. }
    rewrite E. unfold filter_process. cbn [c_do c_sel c_start c_n length].
    rewrite (proj2 (Nat.ltb_lt 0 nbl) Hn), orb_true_r. cbn [negb f_data f_rows].
    split; [|reflexivity]. apply view_chan_picks; auto.
Qed.
Print Assumptions C16_empty_selection_refuted.
Example C16_empty_selection_case :
  f_data (filter_process 2 1 1 (filter_update 2 1 0 1 (Some [false; false]))
    (MkFbuf [10; 20] [0; 0] [1; 1] [1; 2; 3; 4; 5; 6] [70; 71])) = [10; 20].
Proof. reflexivity. Qed.

(** Full C16 fails for more than 2^32 values: with 2^30 values per baseline,
    selecting baseline 4 yields the data of baseline 0. *)
Theorem C16_large_buffer_refuted :
  exists nchan ncorr : nat, forall (X : Type) (src : list X) off ndto,
    (Z.of_nat (ncorr * nchan) < 2 ^ 31)%Z /\
    copy_sel [4] off (ncorr * nchan) ndto src = copy_sel [0] off (ncorr * nchan) ndto src.
Proof.
  exists (Z.to_nat (2 ^ 30)), 1. intros X src off ndto.
  assert (E : (Z.of_nat (1 * Z.to_nat (2 ^ 30)) = 2 ^ 30)%Z) by (rewrite Nat.mul_1_l; apply Z2Nat.id; lia).
  split; [rewrite E; lia|]. unfold copy_sel. cbn [flat_map]. rewrite E. reflexivity.
Qed.
Print Assumptions C16_large_buffer_refuted.

(** * C17 *)

(** The id map gives each kept id its rank among the kept ids and -1 to each
    removed one; it is increasing and onto. *)
Theorem C17_id_map :
  forall n removed, removed <> [] -> StronglySorted lt removed -> (forall r, In r removed -> r < n) ->
  exists m, create_id_map n removed = Some m /\ length m = n /\
    (forall r, In r removed -> nth_error m r = Some (-1)%Z) /\
    (forall j, j < n -> ~ In j removed ->
       nth_error m j = Some (Z.of_nat (length (filter (fun i => negb (existsb (Nat.eqb i) removed)) (seq 0 j))))) /\
    (forall i j a b, i < j -> nth_error m i = Some a -> nth_error m j = Some b -> (0 <= a)%Z -> (0 <= b)%Z -> (a < b)%Z) /\
    (forall k, k < length (filter (fun i => negb (existsb (Nat.eqb i) removed)) (seq 0 n)) -> In (Z.of_nat k) m).
Proof.
  intros n removed Hne Hs Hn. destruct (id_map_spec n removed Hne Hs Hn) as (m & E & HL & H).
  exists m. split; [exact E|]. split; [exact HL|]. split; [|split; [|split]].
  - intros r Hr. rewrite H by auto. unfold new_id. fold (rm removed r). rewrite (proj2 (rm_In removed r) Hr). reflexivity.
  - intros j Hj Hnr. rewrite H by auto. unfold new_id. fold (rm removed j). rewrite (proj2 (rm_notIn removed j) Hnr). reflexivity.
  - intros i j a b Hij Ha Hb Ha0 Hb0.
    assert (Hj : j < n) by (rewrite <- HL; apply nth_error_Some; congruence).
    rewrite H in Ha, Hb by lia. injection Ha as <-. injection Hb as <-.
    destruct (new_id removed i) eqn:Ei; [|lia]. destruct (new_id removed j) eqn:Ej; [|lia].
    pose proof (new_id_increasing removed i j _ _ Hij Ei Ej). lia.
  - intros k Hk. destruct (new_id_onto removed n k Hk) as (j & Hj & Ej).
    apply (nth_error_In _ j). rewrite H, Ej by exact Hj. reflexivity.
Qed.
Print Assumptions C17_id_map.
Example C17_id_map_case : create_id_map 6 [1; 4] = Some [0; -1; 1; 2; -1; 3]%Z.
Proof. reflexivity. Qed.

(** After renumbering, each remaining row of a subtable refers to the same
    station as before, in the table from which the stations were removed. *)
Theorem C17_subtable :
  forall (X : Type) removed (stations : list X) (ids : list nat),
  removed <> [] -> StronglySorted lt removed -> (forall r, In r removed -> r < length stations) ->
  (forall a, In a ids -> a < length stations) ->
  exists m ids', create_id_map (length stations) removed = Some m /\ renumber removed m ids = Some ids' /\
    map (nth_error (kept_rows removed stations)) ids' =
    map (nth_error stations) (filter (fun a => negb (existsb (Nat.eqb a) removed)) ids).
Proof.
  intros X removed stations ids H1 H2 H3 H4.
  destruct (id_map_spec (length stations) removed H1 H2 H3) as (m & E & _).
  destruct (renumber_spec removed m ids stations H1 H2 H3 H4 E) as (ids' & Er & Em).
  exists m, ids'. auto.
Qed.
Print Assumptions C17_subtable.
Example C17_subtable_case :
  (kept_rows [1] [70; 71; 72], option_map (fun m => renumber [1] m [2; 1; 0; 2]) (create_id_map 3 [1]))
  = ([70; 72], Some (Some [1; 0; 1])).
Proof. reflexivity. Qed.

(** * C50 *)

(** A baseline is selected exactly if it matches the station names, the
    correlation type and the length ranges that are given; the order of its two
    stations does not matter. *)
Theorem C50_baseline_selection :
  forall (N Pat : Type) (matches : Pat -> N -> bool) (names : list N) es ct ranges bls (dist : nat -> nat -> Qc),
  (forall a b, dist a b = dist b a) ->
  forall a1 a2, In (a1, a2) bls -> a1 < length names -> a2 < length names ->
  let lens := map (fun bl => dist (fst bl) (snd bl)) bls in
  (bl_apply matches names es ct ranges bls lens a1 a2 = true <->
     (es = None \/ exists l e, es = Some l /\ In e l /\ named matches names e a1 a2) /\
     has_corr_type ct a1 a2 /\ (ranges = [] \/ in_ranges ranges (dist a1 a2))) /\
  bl_apply matches names es ct ranges bls lens a2 a1 = bl_apply matches names es ct ranges bls lens a1 a2.
Proof.
  intros N Pat matches names es ct ranges bls dist Hsym a1 a2 Hin H1 H2 lens.
  assert (G : forall x y, x < length names -> y < length names -> (In (x, y) bls \/ In (y, x) bls) ->
    bl_apply matches names es ct ranges bls lens x y = true <->
     (es = None \/ exists l e, es = Some l /\ In e l /\ named matches names e x y) /\
     has_corr_type ct x y /\ (ranges = [] \/ in_ranges ranges (dist x y))).
  { intros x y Hx Hy Hbl. unfold bl_apply.
    set (m1 := match es with None => fun _ _ : nat => true | Some es0 => fun x y => true && handle_bl_vector matches names es0 x y end).
    assert (M1 : m1 x y = true <-> (es = None \/ exists l e, es = Some l /\ In e l /\ named matches names e x y)).
    { subst m1. destruct es as [l|].
      - cbn [andb]. rewrite handle_bl_vector_spec by assumption. split.
        + intros (e & He & Hn). right. eauto.
        + intros [|(l' & e & [= <-] & He & Hn)]; [discriminate|eauto].
      - split; auto. }
    clearbody m1.
    assert (M2 : handle_corr_type ct m1 x y = true <-> m1 x y = true /\ has_corr_type ct x y).
    { destruct ct; cbn [handle_corr_type has_corr_type]; [tauto| |]; destruct (Nat.eqb_spec x y); intuition congruence. }
    destruct ranges as [|r ranges].
    - rewrite M2, M1. intuition auto.
    - rewrite handle_length_spec, M2, M1. split.
      + intros [[A B] C]. split; [exact A|]. split; [exact B|]. right.
        destruct Hbl as [Hb|Hb].
        * apply (C x y); auto. subst lens. clear -Hb.
          induction bls as [|[u v] bls IH]; [destruct Hb|]. cbn [map combine fst snd]. destruct Hb as [[= -> ->]|Hb]; [now left|right; auto].
        * apply (C y x); auto. rewrite Hsym. subst lens. clear -Hb.
          induction bls as [|[u v] bls IH]; [destruct Hb|]. cbn [map combine fst snd]. destruct Hb as [[= -> ->]|Hb]; [now left|right; auto].
      + intros (A & B & [|C]); [discriminate|]. split; [auto|]. intros a b len Hab Hxy.
        assert (Hlen : len = dist a b).
        { subst lens. clear -Hab. induction bls as [|[u v] bls IH]; [destruct Hab|]. cbn [map combine fst snd] in Hab.
          destruct Hab as [[= -> -> ->]|Hab]; auto. }
        subst len. destruct Hxy as [[-> ->]|[-> ->]]; auto. rewrite Hsym. exact C. }
  split; [apply G; auto|].
  assert (E : bl_apply matches names es ct ranges bls lens a2 a1 = true <-> bl_apply matches names es ct ranges bls lens a1 a2 = true).
  { rewrite (G a1 a2), (G a2 a1) by auto. rewrite (Hsym a2 a1).
    assert (En : forall e, named matches names e a1 a2 <-> named matches names e a2 a1) by (intros [|]; unfold named; tauto).
    assert (Ec : has_corr_type ct a1 a2 <-> has_corr_type ct a2 a1) by (destruct ct; cbn; split; auto).
    rewrite Ec. split; intros (HA & HB); (split; [|exact HB]); destruct HA as [HA|(l & e & E1 & E2 & E3)]; auto; right; exists l, e; (split; [auto|split; auto]); now apply En. }
  destruct (bl_apply matches names es ct ranges bls lens a2 a1), (bl_apply matches names es ct ranges bls lens a1 a2); intuition congruence.
Qed.
Print Assumptions C50_baseline_selection.

(** Stations 10, 20, 21; patterns match on the tens. *)
Example C50_baseline_selection_case :
  let sel := bl_apply (fun p s => (s / 10 =? p)) [10; 20; 21] (Some [Two 2 1; Two 2 2]) CtCross
     [(Q2Qc 2, Q2Qc 5)] [(0, 1); (0, 2); (1, 2); (1, 1)] [Q2Qc 1; Q2Qc 2; Q2Qc 3; Q2Qc 0] in
  map (fun bl => sel (fst bl) (snd bl)) [(0, 1); (0, 2); (1, 2); (1, 1)] = [false; true; true; false].
Proof. vm_compute. reflexivity. Qed.
