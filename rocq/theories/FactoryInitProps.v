(** Property C102: the antennas, factors and distances that the constraints of DDECal are initialized with. *)
From Coq Require Import Ascii String Reals ZArith List Bool Arith Lia Lra.
From Verif Require Import AverageModel StrModel PatternModel RealCplx ConstrModel ConstrSpec ConstrProofs ConstrProps FactoryModel FactorySpec.
Import ListNotations.
Open Scope nat_scope.

Lemma dist_nonneg a b : (0 <= dist_squared a b)%R.
Proof. destruct a as [[ax ay] az], b as [[bx by_] bz]. cbn. generalize (Rle_0_sqr (ax - bx)), (Rle_0_sqr (ay - by_)), (Rle_0_sqr (az - bz)). unfold Rsqr. lra. Qed.
Lemma distance_sqrt a b : distance a b = sqrt (dist_squared a b).
Proof. destruct a as [[ax ay] az], b as [[bx by_] bz]. cbn. f_equal. ring. Qed.
Lemma within a b r : (dist_squared a b <= r * r)%R <-> (distance a b <= Rabs r)%R.
Proof.
  rewrite distance_sqrt. change (r * r)%R with (Rsqr r). rewrite <- sqrt_Rsqr_abs. split.
  - apply sqrt_le_1_alt.
  - intros H. apply sqrt_le_0; [apply dist_nonneg|apply Rle_0_sqr|exact H].
Qed.

Lemma core_in core ref rest i : In i (core_antennas core (ref :: rest)) <-> i < length (ref :: rest) /\ (distance ref (nth i (ref :: rest) ref) <= Rabs core)%R.
Proof.
  unfold core_antennas. rewrite filter_In, in_seq. destruct (Rle_dec _ _) as [L|L]; rewrite <- within.
  - split; intros [H _]; (split; [lia|]); [assumption|reflexivity].
  - split; intros [_ H]; [discriminate|contradiction].
Qed.

(** C102, coreconstraint without antennaconstraint: after the antenna constraint is applied, all antennas within the distance from the first antenna (also that antenna) have the same solution, the mean of what was finite of theirs, in every channel block, for every sub-solution and polarization.  The solutions of all other antennas are not changed. *)
Theorem C102_core : forall s names ref rest sets n_ch sol, s_groups s = [] -> antenna_sets s names (ref :: rest) = Ok sets ->
  let core i := i < length (ref :: rest) /\ (distance ref (nth i (ref :: rest) ref) <= Rabs (s_core s))%R in
  exists antennas, (forall i, In i antennas <-> core i) /\ NoDup antennas /\ In 0 antennas /\
  forall ch d p, ch < n_ch ->
  (forall i, core i -> is_mean (map (fun b => sol ch b d p) antennas) (antenna_constraint n_ch sets sol ch i d p)) /\
  (forall i j, core i -> core j -> antenna_constraint n_ch sets sol ch i d p = antenna_constraint n_ch sets sol ch j d p) /\
  (forall i, ~ core i -> antenna_constraint n_ch sets sol ch i d p = sol ch i d p).
Proof.
  intros s names ref rest sets n_ch sol G E core. unfold antenna_sets in E. rewrite G in E. cbn [empty] in E. injection E as <-.
  set (l := core_antennas (s_core s) (ref :: rest)). exists l. assert (C : forall i, In i l <-> core i) by (intros i; apply core_in).
  split; [exact C|]. split; [apply NoDup_filter, seq_NoDup|]. split.
  { apply C. split; [cbn; lia|]. cbn [nth]. apply within. replace (dist_squared ref ref) with 0%R; [apply Rle_0_sqr|]. destruct ref as [[x y] z]. cbn. ring. }
  intros ch d p L. assert (D : ForallOrdPairs disjoint [l]) by (repeat constructor). destruct (C97_antenna n_ch [l] sol D ch d p L) as (A1 & A2 & A3).
  split; [|split].
  - intros i H. apply (A1 l i); [now left|now apply C].
  - intros i j H J. apply (A2 l i j); [now left|now apply C|now apply C].
  - intros i H. apply A3. intros g [<-|[]] X. apply H, C, X.
Qed.
Print Assumptions C102_core.
Example C102_core_example : let positions := [(0, 0, 0); (3, 0, 4); (0, 6, 0)]%R in core_antennas (-5) positions = [0; 1].
Proof.
  cbn. repeat (destruct (Rle_dec _ _) as [?|?]); try reflexivity; exfalso; lra.
Qed.

(** Refutes for C102 that with coreconstraint unequal to zero all stations within the distance get the same solution: if antennaconstraint is given too, coreconstraint is ignored without a message. *)
Theorem C102_core_refuted : exists s names positions sets sol i j, s_core s <> 0%R /\ antenna_sets s names positions = Ok sets /\ i < length positions /\ j < length positions /\
  (distance (nth 0 positions (0, 0, 0)%R) (nth i positions (0, 0, 0)%R) <= s_core s)%R /\ (distance (nth 0 positions (0, 0, 0)%R) (nth j positions (0, 0, 0)%R) <= s_core s)%R /\
  antenna_constraint 1 sets sol 0 i 0 0 <> antenna_constraint 1 sets sol 0 j 0 0.
Proof.
  set (A := list_ascii_of_string "A"). set (B := list_ascii_of_string "B"). set (C := list_ascii_of_string "C"). set (D := list_ascii_of_string "D").
  exists (Settings Diagonal DirectionSolve Full false 50 10 [[C; D]] [] 0 false 0 [] [] false false), [A; B; C; D], (repeat (0, 0, 0)%R 4), [[2; 3]],
    (fun _ a _ _ => Some (RC (if a =? 0 then 1 else 0)%R 0%R)), 0, 1.
  split; [cbn; lra|]. split; [reflexivity|]. split; [cbn; lia|]. split; [cbn; lia|].
  assert (Z : (distance (0, 0, 0) (0, 0, 0) <= 10)%R).
  { rewrite distance_sqrt. cbn. replace (_ + _)%R with 0%R by ring. rewrite sqrt_0. lra. }
  split; [exact Z|]. split; [exact Z|]. cbn. intros E. injection E as E. lra.
Qed.
Print Assumptions C102_core_refuted.

(** * Groups of names *)
Lemma name_eqb_eq a : forall b, name_eqb a b = true <-> a = b.
Proof.
  induction a as [|x a IH]; intros [|y b]; cbn; split; try congruence; rewrite ?andb_true_iff, ?Ascii.eqb_eq, ?IH; [now intros [-> ->]|intros [= -> ->]; now split].
Qed.
Lemma find_name_ok name names : forall i, find_name name names = Some i <-> named names name i.
Proof.
  unfold named. induction names as [|n names IH]; intros i; cbn [find_name].
  - split; [discriminate|]. intros [H _]. destruct i; discriminate.
  - destruct (name_eqb n name) eqn:E.
    + apply name_eqb_eq in E. subst n. split.
      * intros [= <-]. split; [reflexivity|]. intros j H. lia.
      * intros [H1 H2]. destruct i as [|i]; [reflexivity|]. exfalso. apply (H2 0); [lia|reflexivity].
    + assert (N : n <> name) by (intros ->; rewrite (proj2 (name_eqb_eq name name) eq_refl) in E; discriminate). split.
      * destruct (find_name name names) as [k|] eqn:F; [|discriminate]. intros [= <-]. destruct (proj1 (IH k) eq_refl) as [H1 H2]. split; [exact H1|].
        intros [|j] H; cbn; [congruence|apply H2; lia].
      * intros [H1 H2]. destruct i as [|i]; [cbn in H1; congruence|]. assert (Q : Some i = find_name name names) by (symmetry; apply IH; split; [exact H1|intros j H; apply (H2 (S j)); lia]).
        now rewrite <- Q.
Qed.
Lemma name_set_in names : forall n, In n (name_set names) <-> In n names.
Proof.
  induction names as [|x names IH]; intros n; [reflexivity|]. cbn [name_set]. destruct (existsb (name_eqb x) names) eqn:E.
  - rewrite IH. split; [now right|]. intros [<-|H]; [|exact H]. apply existsb_exists in E as (y & I & Q). apply name_eqb_eq in Q. now subst y.
  - cbn [In]. now rewrite IH.
Qed.
Lemma name_set_nodup names : NoDup (name_set names).
Proof.
  induction names as [|x names IH]; [constructor|]. cbn [name_set]. destruct (existsb (name_eqb x) names) eqn:E; [exact IH|]. constructor; [|exact IH].
  rewrite name_set_in. intros I. assert (existsb (name_eqb x) names = true) by (apply existsb_exists; exists x; split; [exact I|now apply name_eqb_eq]). congruence.
Qed.
Lemma few_names g : length (name_set g) <= 1 <-> forall a b, In a g -> In b g -> a = b.
Proof.
  assert (N := name_set_nodup g). assert (I := name_set_in g). split.
  - intros L a b A B. apply I in A, B. destruct (name_set g) as [|x [|y l]]; [destruct A| |cbn in L; lia]. destruct A as [<-|[]], B as [<-|[]]. reflexivity.
  - intros H. destruct (name_set g) as [|x [|y l]]; cbn; try lia. exfalso. inversion N as [|? ? X _]. apply X. left. apply H; apply I; cbn; tauto.
Qed.
(** The sets of antennas that follow from the names of antennaconstraint, as both functions do together *)
Definition sets_of (groups : list (list (list ascii))) (names : list (list ascii)) : outcome (list (list nat)) :=
  match read_groups groups with Ok g => name_groups g names | Throw => Throw | Undefined => Undefined end.
Lemma name_groups_in g names i : In i (flat_map (fun name => match find_name name names with Some i => [i] | None => [] end) (name_set g)) <-> exists name, In name g /\ named names name i.
Proof.
  rewrite in_flat_map. split.
  - intros (n & A & B). exists n. rewrite <- name_set_in. split; [exact A|]. apply find_name_ok. destruct (find_name n names); [destruct B as [<-|[]]; reflexivity|destruct B].
  - intros (n & A & B). exists n. rewrite name_set_in. split; [exact A|]. apply find_name_ok in B. rewrite B. now left.
Qed.

Lemma name_groups_nodup l names : NoDup l -> NoDup (flat_map (fun name => match find_name name names with Some i => [i] | None => [] end) l).
Proof.
  induction 1 as [|n l N D IH]; [constructor|]. cbn [flat_map]. destruct (find_name n names) as [i|] eqn:F; [|exact IH]. cbn [app]. constructor; [|exact IH].
  intros X. apply in_flat_map in X as (m & A & B). destruct (find_name m names) as [j|] eqn:G; [|destruct B]. destruct B as [->|[]].
  apply find_name_ok in F as [F _], G as [G _]. rewrite F in G. injection G as ->. contradiction.
Qed.
Lemma existsb_map' {A B} (g : A -> B) (P : B -> bool) l : existsb P (map g l) = existsb (fun x => P (g x)) l.
Proof. induction l as [|x l IH]; [reflexivity|]. cbn. now rewrite IH. Qed.

(** C102, antennaconstraint: the groups are refused exactly if one of them has less than two different names.  Otherwise the set of a group has exactly the antennas with these names; names that no antenna has are ignored.  If no name is in two groups, then after the constraint is applied the antennas of a group have the same solution, the mean of what was finite of theirs, and antennas in no group keep theirs. *)
Theorem C102_groups : forall groups names,
  (sets_of groups names = Throw <-> exists g, In g groups /\ forall a b, In a g -> In b g -> a = b) /\
  forall sets, sets_of groups names = Ok sets ->
  Forall2 (fun g set => NoDup set /\ forall i, In i set <-> exists name, In name g /\ named names name i) groups sets /\
  (ForallOrdPairs (fun g h => forall name, In name g -> ~ In name h) groups -> forall n_ch sol ch d p, ch < n_ch ->
   (forall g i j m n, In g groups -> In m g -> In n g -> named names m i -> named names n j -> antenna_constraint n_ch sets sol ch i d p = antenna_constraint n_ch sets sol ch j d p) /\
   (forall set i, In set sets -> In i set -> is_mean (map (fun b => sol ch b d p) set) (antenna_constraint n_ch sets sol ch i d p)) /\
   (forall i, (forall g m, In g groups -> In m g -> ~ named names m i) -> antenna_constraint n_ch sets sol ch i d p = sol ch i d p)).
Proof.
  intros groups names. set (f := fun g => flat_map (fun name => match find_name name names with Some i => [i] | None => [] end) (name_set g)).
  assert (E : sets_of groups names = if existsb (fun g => length (name_set g) <=? 1) groups then Throw else Ok (map f groups)).
  { unfold sets_of, read_groups, name_groups. destruct (existsb (fun g => length (name_set g) =? 1) groups) eqn:X.
    - apply existsb_exists in X as (g & G & L). apply Nat.eqb_eq in L. replace (existsb _ groups) with true; [reflexivity|]. symmetry. apply existsb_exists. exists g. split; [exact G|]. apply Nat.leb_le. lia.
    - rewrite existsb_map', map_map. reflexivity. }
  rewrite E. clear E. destruct (existsb (fun g => length (name_set g) <=? 1) groups) eqn:X.
  { split; [|discriminate]. split; [|reflexivity]. intros _. apply existsb_exists in X as (g & G & L). exists g. split; [exact G|]. apply few_names. now apply Nat.leb_le. }
  split.
  { split; [discriminate|]. intros (g & G & L). exfalso. assert (Y : existsb (fun g => length (name_set g) <=? 1) groups = true); [|congruence].
    apply existsb_exists. exists g. split; [exact G|]. apply Nat.leb_le. now apply few_names. }
  clear X. intros sets [= <-]. split.
  { induction groups as [|g groups IH]; [constructor|]. cbn [map]. constructor; [|exact IH]. split; [apply name_groups_nodup, name_set_nodup|]. intros i. apply name_groups_in. }
  intros D n_ch sol ch d p L. assert (D' : ForallOrdPairs disjoint (map f groups)).
  { induction D as [|g l F D IH]; [constructor|]. cbn [map]. constructor; [|exact IH]. apply Forall_forall. intros h H. apply in_map_iff in H as (h' & <- & H).
    intros i A B. apply name_groups_in in A as (m & M1 & M2), B as (n & N1 & N2). apply (proj1 (Forall_forall _ _) F h' H m M1). destruct M2 as [M2 _], N2 as [N2 _]. rewrite M2 in N2. now injection N2 as ->. }
  destruct (C97_antenna n_ch (map f groups) sol D' ch d p L) as (A1 & A2 & A3). split; [|split].
  - intros g i j m n G M N I J. apply (A2 (f g) i j); [now apply in_map| |]; apply name_groups_in; [now exists m|now exists n].
  - intros set i S I. now apply A1.
  - intros i H. apply A3. intros g G I. apply in_map_iff in G as (g' & <- & G). apply name_groups_in in I as (m & M1 & M2). exact (H g' m G M1 M2).
Qed.
Print Assumptions C102_groups.
Example C102_groups_example : sets_of (map (map list_ascii_of_string) [["A"; "B"; "A"]; ["X"; "D"; "C"]]%string) (map list_ascii_of_string ["A"; "B"; "C"; "D"]%string) = Ok [[1; 0]; [3; 2]] /\
  sets_of (map (map list_ascii_of_string) [["A"; "A"]]%string) [] = Throw.
Proof. split; reflexivity. Qed.

(** * Factors of antennas *)
Lemma fold_min l : forall d, l <> [] -> (fold_right Nat.min d l = 0 <-> d = 0 \/ In 0 l).
Proof.
  induction l as [|x l IH]; intros d H; [congruence|]. cbn [fold_right In]. destruct l as [|y l]; [cbn; lia|]. specialize (IH d ltac:(discriminate)). revert IH. generalize (fold_right Nat.min d (y :: l)). intros m IH.
  split; [intros E; assert (x = 0 \/ m = 0) as [->|M] by lia; [tauto|apply IH in M; tauto]|]. intros [->|[->|H']]; [|lia|]; (assert (m = 0) by (apply IH; tauto)); lia.
Qed.
Lemma fold_max l : forall m, fold_right Nat.max 0 l <= m <-> forall x, In x l -> x <= m.
Proof.
  induction l as [|x l IH]; intros m; cbn; [split; [easy|lia]|]. split.
  - intros H y [<-|I]; [lia|]. apply (proj1 (IH m)); [lia|exact I].
  - intros H. apply Nat.max_lub; [apply H; now left|]. apply IH. intros y I. apply H. now right.
Qed.
Lemma max_in l : l <> [] -> exists m, In m l /\ m = fold_right Nat.max 0 l.
Proof.
  induction l as [|x [|y l] IH]; intros H; [congruence|exists x; split; [now left|cbn; lia]|]. destruct IH as (m & I & E); [discriminate|]. cbn [fold_right] in *.
  destruct (Nat.max_spec x (Nat.max y (fold_right Nat.max 0 l))) as [[_ ->]|[_ ->]]; [exists m; split; [now right|exact E]|exists x; split; [now left|reflexivity]].
Qed.

(** C102, antenna_averaging_factors, where the full statement is that the factors are accepted exactly if every one of them, also the ones of antennas without a pattern, is at least one and at most the largest number of sub-solutions of a direction.  What is missing: this is only so if all antennas of the data are used ([C102_interval_refuted]). *)
Theorem C102_interval_partial : forall items names subs factors, names <> [] -> subs <> [] ->
  parse_values name_matches stream_size items names (repeat 1%Z (length names)) = Some factors -> length factors = length names -> Forall (fun f => 0 <= f)%Z factors ->
  (interval_factors items names names subs = Ok factors <-> exists n, In n subs /\ forall f, In f factors -> (1 <= f <= Z.of_nat n)%Z) /\
  (interval_factors items names names subs = Ok factors \/ interval_factors items names names subs = Throw).
Proof.
  intros items names subs factors NE SE P LF PF. unfold interval_factors. rewrite P. unfold check_factors. rewrite map_length, LF, Nat.eqb_refl. cbn [negb].
  assert (FE : map Z.to_nat factors <> []) by (destruct factors; [destruct names; [congruence|discriminate]|discriminate]).
  destruct (Nat.eqb_spec (fold_right Nat.min (hd 0 (map Z.to_nat factors)) (map Z.to_nat factors)) 0) as [Z0|Z0].
  { split; [|now right]. split; [discriminate|]. intros (n & _ & H). exfalso. apply (fold_min _ _ FE) in Z0. assert (I : In 0 (map Z.to_nat factors)) by (destruct Z0 as [Z0|Z0]; [destruct (map Z.to_nat factors); [congruence|left; exact Z0]|exact Z0]).
    apply in_map_iff in I as (f & F1 & F2). specialize (H f F2). lia. }
  assert (POS : forall f, In f factors -> (1 <= f)%Z).
  { intros f I. assert (0 <= f)%Z by (now apply (proj1 (Forall_forall _ _) PF)). destruct (Z.eq_dec f 0) as [->|]; [|lia]. exfalso. apply Z0. apply fold_min; [exact FE|]. right. apply in_map_iff. now exists 0%Z. }
  destruct (Nat.ltb_spec (fold_right Nat.max 0 subs) (fold_right Nat.max 0 (map Z.to_nat factors))) as [X|X].
  - split; [|now right]. split; [discriminate|]. intros (n & I & H). exfalso. destruct (max_in _ FE) as (m & M1 & M2). apply in_map_iff in M1 as (f & F1 & F2).
    specialize (H f F2). assert (n <= fold_right Nat.max 0 subs) by (apply (proj1 (fold_max subs _)); [lia|exact I]). lia.
  - split; [|now left]. split; [|reflexivity]. intros _. destruct (max_in subs SE) as (n & N1 & N2). exists n. split; [exact N1|]. intros f I. specialize (POS f I). split; [exact POS|].
    assert (Z.to_nat f <= n); [|lia]. rewrite N2. apply (proj1 (fold_max _ _) X). now apply in_map.
Qed.
Print Assumptions C102_interval_partial.
Definition case_names : list (list ascii) := map list_ascii_of_string ["CS1"; "CS2"; "RS1"]%string.
Definition case_items : list (list ascii) := map list_ascii_of_string ["CS*:4"; "RS*:2"]%string.
Example C102_interval_example : interval_factors case_items case_names case_names [4; 2] = Ok [4; 4; 2]%Z /\ interval_factors case_items case_names case_names [3; 2] = Throw.
Proof. split; reflexivity. Qed.

(** Refutes for C102 that valid factors of antennas are accepted: they are read for all antennas of the data, but their number is compared with the number of antennas that are used.  So if one antenna has no baselines left, for example after a filter or with a selection of baselines, DDECal stops with the message that the setting has an incorrect number of values, though it has a pattern and a valid value for every antenna. *)
Theorem C102_interval_refuted : exists items all used subs, incl used all /\ NoDup used /\ (exists f, interval_factors items all all subs = Ok f) /\ (exists f, interval_factors items used used subs = Ok f) /\
  interval_factors items all used subs = Throw.
Proof.
  exists case_items, case_names, (map list_ascii_of_string ["CS1"; "RS1"]%string), [4; 2]. split; [intros x; cbn; tauto|]. split; [repeat constructor; cbn; intros X; decompose [or] X; try congruence; contradiction|].
  split; [exists [4; 4; 2]%Z; reflexivity|]. split; [exists [4; 2]%Z; reflexivity|]. reflexivity.
Qed.
Print Assumptions C102_interval_refuted.

(** * Smoothness *)
Lemma distance_factors_ok rd r ref (z : position) ps : forall i m, (forall k, k < length ps -> i + k <> r -> (0 < distance ref (nth k ps z))%R) ->
  exists fs m', distance_factors rd r ref i ps m = Some (fs, m') /\ length fs = length ps /\
  (forall k, k < length ps -> i + k <> r -> nth k fs 0%R = (rd / distance ref (nth k ps z))%R) /\
  (m <= m')%R /\ (forall k, k < length ps -> i + k <> r -> (nth k fs 0 <= m')%R) /\ (m' = m \/ exists k, k < length ps /\ i + k <> r /\ m' = nth k fs 0%R).
Proof.
  induction ps as [|p ps IH]; intros i m H.
  - exists [], m. cbn. repeat split; try (intros; lia); [lra|now left].
  - cbn [distance_factors].
    assert (T : exists f m1, (if i =? r then Some (0%R, m) else option_map (fun f => (f, Rmax f m)) (distance_factor rd ref p)) = Some (f, m1) /\ (i <> r -> f = rd / distance ref p)%R /\
      (m <= m1)%R /\ (i <> r -> (f <= m1)%R) /\ (m1 = m \/ (i <> r /\ m1 = f))).
    { destruct (Nat.eqb_spec i r) as [E|E].
      - exists 0%R, m. split; [reflexivity|]. repeat split; try (intros; congruence); [lra|now left].
      - unfold distance_factor. rewrite <- distance_sqrt. assert (P := H 0 ltac:(cbn; lia) ltac:(lia)). cbn [nth] in P. destruct (Req_EM_T _ 0) as [Q|Q]; [lra|]. cbn [option_map].
        exists (rd / distance ref p)%R, (Rmax (rd / distance ref p) m). split; [reflexivity|]. split; [reflexivity|]. split; [apply Rmax_r|]. split; [intros _; apply Rmax_l|].
        unfold Rmax. destruct (Rle_dec _ m); [now left|right; now split]. }
    destruct T as (f & m1 & -> & T1 & T2 & T3 & T4).
    destruct (IH (S i) m1) as (fs & m' & -> & L & N & M1 & M2 & M3).
    { intros k K1 K2. apply (H (S k)); cbn; lia. }
    exists (f :: fs), m'. split; [reflexivity|]. split; [cbn; lia|]. split; [|split; [lra|split]].
    + intros [|k] K1 K2; cbn [nth]; [apply T1; lia|]. apply N; [cbn in K1; lia|lia].
    + intros [|k] K1 K2; cbn [nth]; [|apply M2; [cbn in K1; lia|lia]]. apply Rle_trans with m1; [apply T3; lia|exact M1].
    + destruct M3 as [->|(k & K1 & K2 & K3)]; [|right; exists (S k); cbn; repeat split; [lia|lia|exact K3]].
      destruct T4 as [->|[T4 ->]]; [now left|right; exists 0; cbn; repeat split; lia].
Qed.
Lemma nth_skip {A} (d : A) i : forall l k, nth k (skipn i l) d = nth (i + k) l d.
Proof. induction i as [|i IH]; intros l k; [reflexivity|]. destruct l as [|x l]; [cbn; now destruct k|]. cbn [skipn plus nth]. apply IH. Qed.
Lemma nth_first {A} (d : A) i : forall l k, k < i -> nth k (firstn i l) d = nth k l d.
Proof. induction i as [|i IH]; intros l k H; [lia|]. destruct l as [|x l]; [reflexivity|]. destruct k as [|k]; [reflexivity|]. cbn. apply IH. lia. Qed.
Lemma set_nth_nth {A} (x d : A) l i k : i < length l -> nth k (set_nth i x l) d = if k =? i then x else nth k l d.
Proof.
  intros L. unfold set_nth. destruct (Nat.eqb_spec k i) as [->|N].
  - rewrite app_nth2; rewrite firstn_length; [|lia]. now replace (i - Nat.min i (length l)) with 0 by lia.
  - destruct (le_lt_dec i k) as [G|G].
    + rewrite app_nth2; rewrite firstn_length; [|lia]. replace (k - Nat.min i (length l)) with (S (k - S i)) by lia. cbn [nth]. rewrite nth_skip. f_equal. lia.
    + rewrite app_nth1 by (rewrite firstn_length; lia). now apply nth_first.
Qed.
Lemma set_nth_length {A} (x : A) l i : i < length l -> length (set_nth i x l) = length l.
Proof. intros L. unfold set_nth. rewrite app_length, firstn_length. cbn [length]. rewrite skipn_length. lia. Qed.
Lemma product_nth (prepared values : list R) i : length prepared = length values ->
  nth i (map (fun p => (fst p * snd p)%R) (combine prepared values) ++ skipn (length values) prepared) 0%R = (nth i prepared 0 * nth i values 0)%R.
Proof.
  intros L. rewrite skipn_all2 by lia. rewrite app_nil_r. revert values i L. induction prepared as [|p ps IH]; intros [|v vs] i L; try discriminate; [destruct i; cbn; ring|].
  destruct i as [|i]; [reflexivity|]. cbn [combine map nth]. apply IH. now injection L.
Qed.
Lemma product_length (prepared values : list R) : length prepared = length values ->
  length (map (fun p => (fst p * snd p)%R) (combine prepared values) ++ skipn (length values) prepared) = length values.
Proof. intros L. rewrite app_length, map_length, combine_length, skipn_length. lia. Qed.

Section Smoothness.
Variable stream_double : list ascii -> R.
(** The values of antenna_smoothness_factors are [values], one per antenna and 1 without the setting *)
Definition values_are (items names : list (list ascii)) (values : list R) : Prop :=
  (items = [] /\ values = repeat 1%R (length names)) \/ (items <> [] /\ parse_values name_matches stream_double items names (repeat 1%R (length names)) = Some values).
Lemma smoothness_product rd ra positions names items values prepared : prepared_factors rd ra positions names = Ok prepared -> length prepared = length names ->
  values_are items names values -> length values = length names -> (forall v, In v values -> (0 <= v)%R) ->
  exists fs, smoothness_factors stream_double rd ra positions items names = Ok fs /\ length fs = length names /\ forall i, nth i fs 0%R = (nth i prepared 0 * nth i values 0)%R.
Proof.
  intros E LP V LV P. unfold smoothness_factors. rewrite E. destruct V as [[-> ->]|[N V]].
  - cbn [empty]. exists prepared. split; [reflexivity|]. split; [exact LP|]. intros i. destruct (le_lt_dec (length names) i) as [G|G].
    + rewrite !nth_overflow by (rewrite ?repeat_length; lia). ring.
    + rewrite (nth_indep (repeat 1%R _) 0%R 1%R), nth_repeat by (rewrite repeat_length; lia). ring.
  - destruct items as [|x items]; [congruence|]. cbn [empty]. rewrite V. replace (existsb _ values) with false.
    2: { symmetry. apply not_true_is_false. intros X. apply existsb_exists in X as (v & I & Q). destruct (Rlt_dec v 0) as [L|]; [|discriminate]. specialize (P v I). lra. }
    replace (length prepared <? length values) with false by (symmetry; apply Nat.ltb_ge; lia). eexists. split; [reflexivity|]. split; [rewrite product_length; lia|].
    intros i. apply product_nth. lia.
Qed.

(** C102, smoothness without smoothnessrefdistance: the factor of every antenna is the one of antenna_smoothness_factors, or one. *)
Theorem C102_smooth_uniform : forall ref_antenna positions items names values, length positions = length names ->
  values_are items names values -> length values = length names -> (forall v, In v values -> (0 <= v)%R) ->
  smoothness_factors stream_double 0 ref_antenna positions items names = Ok values.
Proof.
  intros ra positions items names values LN V LV P. destruct (smoothness_product 0 ra positions names items values (repeat 1%R (length positions))) as (fs & E & L & N); auto.
  - unfold prepared_factors. destruct (Req_EM_T 0 0); [reflexivity|congruence].
  - now rewrite repeat_length.
  - rewrite E. f_equal. apply (nth_ext _ _ 0%R 0%R); [lia|]. intros i I. rewrite N. rewrite (nth_indep (repeat 1%R _) 0%R 1%R), nth_repeat by (rewrite repeat_length; lia). ring.
Qed.

(** C102, smoothness with a positive smoothnessrefdistance: the factor of an antenna that is not the reference antenna is the reference distance divided by its distance from the reference antenna, times its factor of antenna_smoothness_factors; the distance-based factor of the reference antenna is the largest of those of the others.  So an antenna that is nearer to the reference is smoothed at least as much, and the reference antenna at least as much as any.  No other antenna may be at the position of the reference. *)
Theorem C102_smooth_distance : forall rd ref_antenna positions names items values r (z : position), (0 < rd)%R -> length positions = length names -> 2 <= length names ->
  (ref_antenna = [] /\ r = 0) \/ (ref_antenna <> [] /\ named names ref_antenna r) ->
  (forall i, i < length names -> i <> r -> (0 < distance (nth r positions z) (nth i positions z))%R) ->
  values_are items names values -> length values = length names -> (forall v, In v values -> (0 <= v)%R) ->
  exists fs base, smoothness_factors stream_double rd ref_antenna positions items names = Ok fs /\ length fs = length names /\
  (forall i, i < length names -> nth i fs 0%R = (base i * nth i values 0)%R) /\
  (forall i, i < length names -> i <> r -> base i = (rd / distance (nth r positions z) (nth i positions z))%R) /\
  largest (length names) r base (base r) /\
  (forall i j, i < length names -> j < length names -> (distance (nth r positions z) (nth i positions z) <= distance (nth r positions z) (nth j positions z))%R -> j <> r -> (0 < base j <= base i)%R).
Proof.
  intros rd ra positions names items values r z RD LN L2 R D V LV P.
  assert (RL : r < length positions).
  { destruct R as [[_ ->]|[_ [R _]]]; [lia|]. assert (nth_error names r <> None) by congruence. apply nth_error_Some in H. lia. }
  destruct (distance_factors_ok rd r (nth r positions z) z positions 0 0%R) as (fs0 & m & E & L0 & N0 & M1 & M2 & M3).
  { intros k K1 K2. apply D; lia. }
  assert (PE : prepared_factors rd ra positions names = Ok (set_nth r m fs0)).
  { unfold prepared_factors. destruct (Req_EM_T rd 0); [lra|].
    replace (match ra with [] => Some 0 | _ => find_name ra names end) with (Some r).
    2: { destruct R as [[-> ->]|[R1 R2]]; [reflexivity|]. destruct ra; [congruence|]. symmetry. now apply find_name_ok. }
    rewrite (nth_error_nth' positions z RL), E. reflexivity. }
  destruct (smoothness_product rd ra positions names items values _ PE) as (fs & SE & SL & SN); auto; [rewrite set_nth_length; lia|].
  exists fs, (fun i => nth i (set_nth r m fs0) 0%R).
  assert (B : forall i, i < length names -> i <> r -> nth i (set_nth r m fs0) 0%R = (rd / distance (nth r positions z) (nth i positions z))%R).
  { intros i I1 I2. rewrite set_nth_nth by lia. rewrite (proj2 (Nat.eqb_neq i r) I2). apply N0; lia. }
  assert (BR : nth r (set_nth r m fs0) 0%R = m) by (rewrite set_nth_nth, Nat.eqb_refl by lia; reflexivity).
  assert (POS : forall i, i < length names -> i <> r -> (0 < nth i (set_nth r m fs0) 0)%R).
  { intros i I1 I2. rewrite (B i I1 I2). apply Rdiv_lt_0_compat; [exact RD|now apply D]. }
  assert (MX : forall i, i < length names -> i <> r -> (nth i (set_nth r m fs0) 0 <= m)%R).
  { intros i I1 I2. rewrite set_nth_nth by lia. rewrite (proj2 (Nat.eqb_neq i r) I2). apply M2; lia. }
  split; [exact SE|]. split; [exact SL|]. split; [intros i _; apply SN|]. split; [exact B|]. split.
  - split; [|intros i I1 I2; rewrite BR; now apply MX]. rewrite BR. destruct M3 as [->|(k & K1 & K2 & K3)].
    + exfalso. set (i := if r =? 0 then 1 else 0). assert (I1 : i < length names) by (unfold i; destruct (r =? 0); lia). assert (I2 : i <> r) by (unfold i; destruct (Nat.eqb_spec r 0); lia).
      specialize (POS i I1 I2). specialize (MX i I1 I2). lra.
    + exists k. split; [lia|]. split; [lia|]. rewrite set_nth_nth by lia. now rewrite (proj2 (Nat.eqb_neq k r) K2).
  - intros i j I J DD NJ. split; [now apply POS|]. destruct (Nat.eq_dec i r) as [->|NI]; [rewrite BR; now apply MX|].
    rewrite (B i I NI), (B j J NJ). unfold Rdiv. apply Rmult_le_compat_l; [lra|]. apply Rinv_le_contravar; [now apply D|exact DD].
Qed.

(** C102, refused settings for the smoothness: a reference antenna that is not one of the antennas that are used, a negative factor, or an item that can not be read. *)
Theorem C102_smooth_refused : forall rd ref_antenna positions items names,
  (rd <> 0%R -> ref_antenna <> [] -> ~ In ref_antenna names -> smoothness_factors stream_double rd ref_antenna positions items names = Throw) /\
  (forall values, items <> [] -> parse_values name_matches stream_double items names (repeat 1%R (length names)) = values -> (values = None \/ exists l v, values = Some l /\ In v l /\ (v < 0)%R) ->
   smoothness_factors stream_double 0 ref_antenna positions items names = Throw).
Proof.
  intros rd ra positions items names. split.
  - intros R A N. unfold smoothness_factors, prepared_factors. destruct (Req_EM_T rd 0); [contradiction|]. destruct ra as [|c ra]; [congruence|].
    destruct (find_name (c :: ra) names) as [i|] eqn:F; [|reflexivity]. exfalso. apply find_name_ok in F as [F _]. apply N. eapply nth_error_In; eauto.
  - intros values NE E H. unfold smoothness_factors, prepared_factors. destruct (Req_EM_T 0 0); [|congruence]. destruct items as [|x items]; [congruence|]. cbn [empty]. rewrite E.
    destruct H as [->|(l & v & -> & I & L)]; [reflexivity|]. replace (existsb _ l) with true; [reflexivity|]. symmetry. apply existsb_exists. exists v. split; [exact I|]. now destruct (Rlt_dec v 0).
Qed.
End Smoothness.
Print Assumptions C102_smooth_uniform.
Print Assumptions C102_smooth_distance.
Print Assumptions C102_smooth_refused.
Example C102_smooth_example : named case_names (list_ascii_of_string "CS2") 1 /\ (0 < distance (0, 0, 0) (3, 0, 4))%R /\
  values_are (fun _ => 2%R) case_items case_names (repeat 2%R 3).
Proof.
  split; [split; [reflexivity|]; intros [|j] H; [cbn; congruence|lia]|]. split; [rewrite distance_sqrt; apply sqrt_lt_R0; cbn; lra|]. right. split; [discriminate|reflexivity].
Qed.

(** Refutes for C102 that the factors that are accepted give a kernel for every antenna: a factor of zero in antenna_smoothness_factors, also one that is the result of text that is no number, is accepted.  The size of the kernel is then divided by zero. *)
Theorem C102_smooth_refuted : exists items names positions, forall stream_double, stream_double (list_ascii_of_string "0") = 0%R ->
  exists fs, smoothness_factors stream_double 0 [] positions items names = Ok fs /\ In 0%R fs.
Proof.
  exists [list_ascii_of_string "CS*:0"], case_names, (repeat (0, 0, 0)%R 3). intros sd Z. exists [0; 0; 1]%R. split; [|now left].
  apply C102_smooth_uniform; [reflexivity| |reflexivity|].
  - right. split; [discriminate|]. rewrite <- Z. reflexivity.
  - intros v I. cbn in I. decompose [or] I; subst; lra || contradiction.
Qed.
Print Assumptions C102_smooth_refuted.
