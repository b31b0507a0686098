(** C100: the directions, the settings and the chunks of time slots of demixing. *)
From Coq Require Import String List Arith Bool Lia.
From Verif Require Import DemixTimeModel DemixTimeSpec DemixTimeProofs.
Import ListNotations.
Close Scope string_scope.
Open Scope nat_scope.

Lemma configure_done s m c : configure s m = Done c -> let a := match demixtimestep s with inl n => n | inr n => n end in
  0 < timestep s /\ 0 < Nat.min a (ntime s) /\ Nat.min a (ntime s) mod Nat.min (timestep s) (ntime s) = 0 /\
  c = Conf (Nat.min a (ntime s)) (Nat.min (timestep s) (ntime s)) (ntimechunk s) (ntimechunk s * Nat.min a (ntime s) / timestep s) ((ntime s + Nat.min a (ntime s) - 1) / Nat.min a (ntime s)) m.
Proof.
  unfold configure. destruct (Nat.eqb_spec (timestep s) 0) as [|T]; [discriminate|]. destruct (demixtimestep s) as [n|n]; cbv zeta.
  - destruct (negb _); [discriminate|]. destruct (Nat.eqb_spec (Nat.min n (ntime s)) 0) as [|A]; [discriminate|]. destruct (Nat.eqb_spec (Nat.min n (ntime s) mod Nat.min (timestep s) (ntime s)) 0) as [E|]; cbn [negb]; [|discriminate].
    intros [= <-]. repeat split; auto; lia.
  - destruct (negb _); [discriminate|]. destruct (Nat.eqb_spec (Nat.min n (ntime s)) 0) as [|A]; [discriminate|]. destruct (Nat.eqb_spec (Nat.min n (ntime s) mod Nat.min (timestep s) (ntime s)) 0) as [E|]; cbn [negb]; [|discriminate].
    intros [= <-]. repeat split; auto; lia.
Qed.
(** With settings that are accepted, and at least as many time slots as timestep, a run does not go out of bounds, has a solution for each averaged interval, and subtracts the sources once from each average of the output, with the solution of its time.  Missing: shorter data, see C100_short_refuted *)
Theorem C100_run_partial : forall s m c n,
  configure s m = Done c -> 0 < ntimechunk s -> timestep s <= ntime s -> n <= ntime s ->
  exists st, run c n = Some st /\ output st = expected_output c n /\ solutions st = expected_solutions c n.
Proof.
  intros s m c n E C T L. apply configure_done in E. cbv zeta in E. set (a := match demixtimestep s with inl n => n | inr n => n end) in *. destruct E as (T0 & A & M & ->).
  rewrite (Nat.min_l (timestep s)) in * by exact T. set (avg := Nat.min a (ntime s)) in *.
  pose proof (dm avg (timestep s) T0) as D. rewrite M, Nat.add_0_r in D.
  apply (run_spec _ (avg / timestep s)); cbn [n_avg n_sub chunk chunk_sub n_demix]; auto.
  - destruct (Nat.eq_dec (avg / timestep s) 0) as [Z|Z]; [rewrite Z in D; lia|lia].
  - rewrite D at 1. rewrite Nat.mul_assoc. apply Nat.div_mul. lia.
  - unfold groups. apply Nat.div_le_mono; lia.
Qed.
Print Assumptions C100_run_partial.

(** Finding: data that are shorter than timestep.  The number of output averages in a chunk is computed with the timestep that was given, before it is limited to the number of time slots in the data, so that it can be zero; all checks are passed, and then the first average is stored past the end of an array (steps/Demixer.cc:374-390 and 401; steps/MultiResultStep.cc:16-32).  Here there are 3 time slots, timestep 5, demixtimestep 10 and ntimechunk 1; with ntimechunk 8, the default on 8 cores, it happens for a single time slot and timestep 10 *)
Theorem C100_short_refuted : exists s c, configure s true = Done c /\ 0 < ntimechunk s /\ 0 < ntime s /\ run c (ntime s) = None.
Proof. exists (Settings 5 (inl 10) 1 3), (Conf 3 3 1 0 1 true). cbn. repeat split; lia. Qed.
Print Assumptions C100_short_refuted.

(** Finding: a timestep of zero is not refused: it divides (steps/Demixer.cc:182-185), while the averaging itself takes it as one (steps/Averager.cc:57-66) *)
Theorem C100_zero_refuted : exists s, timestep s = 0 /\ 0 < ntimechunk s /\ 0 < ntime s /\ configure s true = Divides_by_zero.
Proof. exists (Settings 0 (inl 1) 1 10). cbn. repeat split; lia. Qed.
Print Assumptions C100_zero_refuted.

Lemma concat_groups w n : 0 < w -> forall m, concat (map (group w n) (seq 0 m)) = seq 0 (Nat.min n (m * w)).
Proof.
  intros W. induction m as [|m IH]; [cbn; now rewrite Nat.min_0_r|]. rewrite seq_S, map_app, concat_app, IH. cbn [map concat Nat.add]. rewrite app_nil_r. unfold group.
  destruct (Nat.le_ge_cases n (m * w)) as [L|L].
  - replace (n - m * w) with 0 by lia. rewrite Nat.min_0_r. cbn [seq]. rewrite app_nil_r. f_equal. lia.
  - rewrite (Nat.min_r n (m * w)) by lia. replace (Nat.min n (S m * w)) with (m * w + Nat.min w (n - m * w)) by lia. now rewrite seq_app.
Qed.
Lemma groups_cover w n : 0 < w -> n <= groups w n * w /\ (0 < n -> (groups w n - 1) * w < n).
Proof. intros W. destruct (groups_ceil w n W) as [[M G]|[M G]]; rewrite G; pose proof (dm n w W) as D; pose proof (Nat.mod_upper_bound n w ltac:(lia)); nia. Qed.
(** What is expected is complete: the averages of the output, and those of the solutions, are all time slots in order; all are full but the last one, which is not empty *)
Theorem C100_complete : forall c n, 0 < n_sub c -> 0 < n_avg c ->
  concat (map slots (expected_output c n)) = seq 0 n /\
  (models c = true -> concat (map (fun s => snd (fst s)) (expected_solutions c n)) = seq 0 n) /\
  (forall k x, nth_error (expected_output c n) k = Some x -> 0 < List.length (slots x) <= n_sub c /\ (k + 1 < List.length (expected_output c n) -> List.length (slots x) = n_sub c)).
Proof.
  intros c n S A. unfold expected_output, expected_solutions. split; [|split].
  - rewrite map_map. cbn [slots]. rewrite (concat_groups (n_sub c) n S). f_equal. pose proof (groups_cover (n_sub c) n S). lia.
  - intros ->. rewrite map_map. cbn [fst snd]. rewrite (concat_groups (n_avg c) n A). f_equal. pose proof (groups_cover (n_avg c) n A). lia.
  - intros k x H. rewrite nth_error_map in H. destruct (nth_error (seq 0 (groups (n_sub c) n)) k) as [j|] eqn:E; [|discriminate H]. injection H as <-.
    assert (K : k < groups (n_sub c) n) by (rewrite <- (seq_length (groups (n_sub c) n) 0); apply nth_error_Some; congruence).
    apply (nth_error_nth _ _ 0) in E. rewrite seq_nth in E by exact K. cbn in E. subst j. cbn [slots]. unfold group. rewrite seq_length, map_length, seq_length.
    pose proof (groups_cover (n_sub c) n S) as [C1 C2]. destruct (Nat.eq_dec n 0) as [->|N0]; [unfold groups in K; rewrite Nat.div_small in K by lia; lia|]. specialize (C2 ltac:(lia)).
    assert (k * n_sub c <= (groups (n_sub c) n - 1) * n_sub c) by (apply Nat.mul_le_mono_r; lia). split; [lia|]. intros L.
    assert ((k + 1) * n_sub c <= (groups (n_sub c) n - 1) * n_sub c) by (apply Nat.mul_le_mono_r; lia). lia.
Qed.
Print Assumptions C100_complete.

(** * Directions *)
Lemma make_patches_spec {A} dec (known : A -> bool) : forall names seen, make_patches dec known seen names = true -> NoDup names /\ (forall x, In x names -> known x = true /\ ~ In x seen).
Proof.
  induction names as [|x l IH]; intros seen H; [split; [constructor|intros y []]|]. cbn in H. destruct (known x) eqn:K; [|discriminate H]. destruct (in_dec dec x seen) as [I|I]; [discriminate H|]. cbn in H.
  apply IH in H. destruct H as [N H]. split.
  - constructor; [|exact N]. intros J. apply (proj2 (H x J)). now left.
  - intros y [<-|J]; [auto|]. destruct (H y J) as [P Q]. split; [exact P|]. intros Z. apply Q. now right.
Qed.
(** Directions that are accepted: first the sources to subtract, then those with only a model, then the others; the target is last.  The first n_model directions have a model, and their patch is the one with their name; the target has one only if it is given, and with ignoretarget it has none *)
Theorem C100_directions : forall (A : Type) dec (known : A -> bool) subtract model extra target ignore_target d,
  setup_sources dec known subtract model extra target ignore_target = Done d ->
  n_dir d = List.length subtract + List.length model + List.length extra + 1 /\
  n_model d <= n_dir d /\ (n_model d = n_dir d <-> target <> None) /\ (ignore_target = true -> n_model d < n_dir d) /\
  firstn (List.length subtract + List.length model) (all_sources d) = subtract ++ model /\
  (forall t, target = Some t -> nth_error (all_sources d) (n_dir d - 1) = Some t) /\
  (forall k, k < n_model d -> nth_error (patches d) k = nth_error (all_sources d) k /\ exists x, nth_error (patches d) k = Some x /\ known x = true) /\
  NoDup (patches d).
Proof.
  intros A dec known subtract model extra target ign d. unfold setup_sources.
  destruct target as [t|].
  - rewrite andb_true_r. destruct ign; [discriminate|]. destruct extra as [|e extra]; [|discriminate]. cbn [List.length Nat.eqb negb app].
    destruct (make_patches dec known [] (subtract ++ model ++ [t])) eqn:P; [|discriminate]. intros [= <-]. cbn [n_dir n_model all_sources patches]. apply make_patches_spec in P. destruct P as [N K].
    assert (LEN : List.length (subtract ++ model ++ [t]) = List.length subtract + List.length model + 1) by (rewrite !app_length; cbn; lia).
    split; [lia|]. split; [lia|]. split; [split; [discriminate|lia]|]. split; [discriminate|]. split; [|split; [|split; [|exact N]]].
    + rewrite app_assoc, firstn_app, app_length. rewrite Nat.sub_diag. cbn [firstn]. rewrite app_nil_r. rewrite <- app_length. apply firstn_all.
    + intros t' [= <-]. rewrite app_assoc, nth_error_app2; rewrite app_length; [|lia]. replace (_ - _) with 0 by lia. reflexivity.
    + intros k L. split; [reflexivity|]. destruct (nth_error (subtract ++ model ++ [t]) k) as [x|] eqn:E.
      * exists x. split; [reflexivity|]. apply K. now apply nth_error_In in E.
      * apply nth_error_None in E. lia.
  - rewrite andb_false_r. destruct (make_patches dec known [] (subtract ++ model ++ extra ++ [])) eqn:P; [|discriminate]. intros [= <-]. cbn [n_dir n_model all_sources patches]. apply make_patches_spec in P. destruct P as [N K].
    rewrite app_nil_r in *. assert (LEN : List.length (subtract ++ model ++ extra) = List.length subtract + List.length model + List.length extra) by (rewrite !app_length; lia).
    split; [lia|]. split; [lia|]. split; [split; [lia|congruence]|]. split; [lia|]. split; [|split; [|split; [|exact N]]].
    + rewrite app_assoc, firstn_app, app_length. rewrite Nat.sub_diag. cbn [firstn]. rewrite app_nil_r. rewrite <- app_length. apply firstn_all.
    + discriminate.
    + intros k L. split; [reflexivity|]. destruct (nth_error (subtract ++ model ++ extra) k) as [x|] eqn:E.
      * exists x. split; [reflexivity|]. apply K. now apply nth_error_In in E.
      * apply nth_error_None in E. lia.
Qed.
Print Assumptions C100_directions.

(** Finding: othersources.  The documentation says that the direction of a source in othersources has to be given if the source is unknown, which is usually the case (docs/schemas/Demixer.yml).  But the sky model is asked for the patches of all sources, also these (steps/Demixer.cc:203-222), and an unknown one is an error (sky_model/SkyModelFunctions.cc:109-110); if it is known, there are more patches than sources with a model, which a debug build does not accept (steps/Demixer.cc:222) *)
Theorem C100_othersources_refuted : exists (known : string -> bool) subtract extra,
  (forall x, In x subtract -> known x = true) /\ setup_sources string_dec known subtract [] [] None false <> Throws /\
  setup_sources string_dec known subtract [] [extra] None false = Throws /\
  exists d, setup_sources string_dec (fun _ => true) subtract [] [extra] None false = Done d /\ List.length (patches d) <> n_model d.
Proof.
  exists (fun x => String.eqb x "CasA"), ["CasA"%string], "Sun"%string. split; [|split; [|split]].
  - intros x [<-|[]]. reflexivity.
  - discriminate.
  - reflexivity.
  - eexists. split; [reflexivity|]. cbn. lia.
Qed.
Print Assumptions C100_othersources_refuted.

(** * Examples *)
Example C100_run_example : exists c st, configure (Settings 2 (inl 4) 3 31) true = Done c /\ run c 31 = Some st /\ List.length (output st) = 16 /\ List.length (solutions st) = 8 /\
  nth_error (output st) 15 = Some (Cell [30] [(7, [30])]) /\ nth_error (solutions st) 6 = Some (6, [24; 25; 26; 27], [24; 25; 26; 27]).
Proof. eexists. eexists. split; [reflexivity|]. split; [vm_compute; reflexivity|]. vm_compute. repeat split. Qed.
Example C100_directions_example : exists d, setup_sources string_dec (fun _ => true) ["CasA"%string; "CygA"%string] ["VirA"%string] [] (Some "target"%string) false = Done d /\ n_model d = 4 /\ n_dir d = 4.
Proof. eexists. split; [reflexivity|]. split; reflexivity. Qed.
Example C100_complete_example : expected_output (Conf 4 2 3 6 9 true) 5 = [Cell [0; 1] [(0, [0; 1])]; Cell [2; 3] [(0, [2; 3])]; Cell [4] [(1, [4])]].
Proof. reflexivity. Qed.
