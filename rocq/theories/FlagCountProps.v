(** C42 (flag counts and tables), C53 (names of the flag tables). *)
From Coq Require Import Ascii String List Bool Arith Permutation Lia.
From Verif Require Import StrModel FlagCountModel FlagCountSpec FlagCountProofs.
Import ListNotations.
Open Scope nat_scope.

(** Merging the counters of several threads, however the events are distributed over them, gives for every baseline,
    channel and correlation the number of events for it. *)
Theorem C42_counts parts es i : Permutation (concat parts) es ->
  n_bl (fold_left add (map run parts) zero_counts) i = count_occ event_dec es (IncrBaseline i) /\
  n_ch (fold_left add (map run parts) zero_counts) i = count_occ event_dec es (IncrChannel i) /\
  n_corr (fold_left add (map run parts) zero_counts) i = count_occ event_dec es (IncrCorrelation i).
Proof. apply merged. Qed.
Print Assumptions C42_counts.

Example C42_counts_case :
  let es := [IncrBaseline 2; IncrChannel 0; IncrBaseline 2; IncrChannel 1; IncrCorrelation 3] in
  let parts := [[IncrBaseline 2; IncrChannel 1]; []; [IncrCorrelation 3; IncrBaseline 2; IncrChannel 0]] in
  Permutation (concat parts) es /\ n_bl (fold_left add (map run parts) zero_counts) 2 = 2.
Proof.
  split; [|reflexivity]. cbn [concat app]. apply perm_skip.
  transitivity ([IncrBaseline 2; IncrChannel 0] ++ [IncrChannel 1; IncrCorrelation 3]).
  - apply (Permutation_app_comm [IncrChannel 1; IncrCorrelation 3]).
  - apply perm_swap.
Qed.

(** When every flagged sample counts its baseline and its channel once, the baseline counts and the channel counts both
    add up to the number of flagged samples. *)
Theorem C42_totals samples nbl nchan :
  Forall (fun bc => fst bc < nbl /\ snd bc < nchan) samples ->
  list_sum (map (n_bl (run (flat_map sample_events samples))) (seq 0 nbl)) = List.length samples /\
  list_sum (map (n_ch (run (flat_map sample_events samples))) (seq 0 nchan)) = List.length samples.
Proof. apply samples_counts. Qed.
Print Assumptions C42_totals.

Example C42_totals_case : Forall (fun bc => fst bc < 3 /\ snd bc < 2) [(2, 0); (1, 1); (2, 1)].
Proof. repeat constructor. Qed.

(** Per antenna: the number of its baselines and the sum of their counts, an auto-correlation once.  Per pair of
    antennas, in either order, the same over all baselines between the two. *)
Theorem C42_tables bs :
  (forall a, used_ant (tallies bs) a = List.length (filter (involves a) bs) /\
             count_ant (tallies bs) a = list_sum (map cnt (filter (involves a) bs))) /\
  (forall a b, used_bl (tallies bs) a b = List.length (filter (between a b) bs) /\
               count_bl (tallies bs) a b = list_sum (map cnt (filter (between a b) bs))).
Proof. destruct (tallies_spec bs) as (T1 & T2 & T3 & T4). auto. Qed.
Print Assumptions C42_tables.

Example C42_tables_case :
  let bs := [{| ant1 := 0; ant2 := 0; cnt := 4 |}; {| ant1 := 0; ant2 := 1; cnt := 5 |}; {| ant1 := 1; ant2 := 0; cnt := 6 |}] in
  (used_ant (tallies bs) 0, count_ant (tallies bs) 0, count_bl (tallies bs) 1 0, count_bl (tallies bs) 0 0) = (3, 15, 11, 4).
Proof. reflexivity. Qed.

(** The printed table never looks beyond the antennas, shows every used antenna in exactly one column, in increasing
    order, and at most 15 of them per line. *)
Theorem C42_columns used nant : exists ls, all_lines used nant = Some ls /\
  concat ls = filter (fun a => 0 <? used a) (seq 0 nant) /\ Forall (fun l => 1 <= List.length l <= 15) ls.
Proof. apply all_lines_spec. Qed.
Print Assumptions C42_columns.

Example C42_columns_case : option_map (map (@List.length nat)) (all_lines (fun a => a mod 2) 41) = Some [15; 5].
Proof. reflexivity. Qed.

(** The list of fully flagged baselines holds, once each, exactly the antenna pairs a <= b that have a baseline and whose
    baselines are all flagged in every sample. *)
Theorem C42_fully_flagged bs npoints nant :
  Forall (fun x => ant1 x < nant /\ ant2 x < nant /\ cnt x <= npoints) bs ->
  exists l, fully_flagged bs npoints nant = Some l /\ NoDup l /\
    forall a b, In (a, b) l <-> a <= b /\ (exists x, In x bs /\ between a b x = true) /\
                              (forall x, In x bs -> between a b x = true -> cnt x = npoints).
Proof. apply fully_flagged_spec. Qed.
Print Assumptions C42_fully_flagged.

Example C42_fully_flagged_case :
  let bs := [{| ant1 := 2; ant2 := 0; cnt := 8 |}; {| ant1 := 0; ant2 := 1; cnt := 7 |}; {| ant1 := 1; ant2 := 1; cnt := 8 |}] in
  Forall (fun x => ant1 x < 3 /\ ant2 x < 3 /\ cnt x <= 8) bs /\ fully_flagged bs 8 3 = Some [(0, 2); (1, 1)].
Proof. split; [repeat constructor; cbn; lia|reflexivity]. Qed.

(** The file is the directory, a slash, the name of the MeasurementSet up to its first dot, the name of the step and
    .flag; the directory is the given path or else the directory of the MeasurementSet. *)
Theorem C53_filename path dir base rest step :
  ~ In "/"%char (base ++ rest) -> ~ In "."%char base -> ~ In "."%char step ->
  (rest = [] \/ exists r, rest = "."%char :: r) ->
  let ext := list_ascii_of_string ".flag" in
  let name := (if list_eq_dec ascii_dec path [] then dir else path) ++ ["/"%char] ++ base ++ ["_"%char] ++ step ++ ext in
  save_filename path (dir ++ "/"%char :: base ++ rest) (step ++ ["."%char]) = name.
Proof.
  intros H1 H2 H3 H4 ext name. unfold save_filename. cbv zeta.
  rewrite rfind_app by exact H1. rewrite before_dot_app by exact H3.
  assert (B : before_dot (skipn (S (List.length dir)) (dir ++ "/"%char :: base ++ rest)) = base).
  { replace (S (List.length dir)) with (List.length (dir ++ ["/"%char])) by (rewrite app_length; cbn; lia).
    replace (dir ++ "/"%char :: base ++ rest) with ((dir ++ ["/"%char]) ++ base ++ rest) by (rewrite <- app_assoc; reflexivity).
    rewrite skipn_app, skipn_all, Nat.sub_diag. cbn [app skipn].
    destruct H4 as [->|(r & ->)]; [rewrite app_nil_r; now apply before_dot_none|now apply before_dot_app]. }
  rewrite B. unfold name. destruct path as [|x path]; destruct (list_eq_dec _ _ _) as [E|E]; try congruence; [|reflexivity].
  rewrite firstn_app, Nat.sub_diag, firstn_all. cbn [firstn]. now rewrite app_nil_r.
Qed.
Print Assumptions C53_filename.

Example C53_filename_case :
  save_filename [] (list_ascii_of_string "/data/L1.SB1.MS") (list_ascii_of_string "aoflag.") =
  list_ascii_of_string "/data/L1_aoflag.flag".
Proof. reflexivity. Qed.

(** Two steps of one run never save to the same file. *)
Theorem C53_steps path ms s1 s2 : ~ In "."%char s1 -> ~ In "."%char s2 ->
  save_filename path ms (s1 ++ ["."%char]) = save_filename path ms (s2 ++ ["."%char]) -> s1 = s2.
Proof.
  intros H1 H2. unfold save_filename. cbv zeta. rewrite !before_dot_app by assumption.
  intros E. apply app_inv_head in E. do 3 apply app_inv_head in E. now apply app_inv_tail in E.
Qed.
Print Assumptions C53_steps.

Example C53_steps_case : ~ In "."%char (list_ascii_of_string "aoflag") /\ ~ In "."%char (list_ascii_of_string "mad").
Proof. split; cbn; intuition discriminate. Qed.

(** But two MeasurementSets in one directory can: everything from the first dot on is dropped. *)
Theorem C53_measurement_sets_refuted : exists ms1 ms2 step, ms1 <> ms2 /\
  save_filename [] ms1 step = save_filename [] ms2 step.
Proof.
  exists (list_ascii_of_string "/data/L1.SB1.MS"), (list_ascii_of_string "/data/L1.SB2.MS"), (list_ascii_of_string "aoflag.").
  split; [discriminate|reflexivity].
Qed.
Print Assumptions C53_measurement_sets_refuted.
