(** Properties C101 and C102: the solver and the constraints that follow from the settings of DDECal. *)
From Coq Require Import Ascii String Reals ZArith List Bool Arith Lia Lra Sorted.
From Verif Require Import AverageModel StrModel PatternModel RealCplx ConstrModel ConstrSpec ConstrProofs ConstrProps FactoryModel FactorySpec.
Import ListNotations.
Open Scope nat_scope.

Lemma same_char_lower c d : same_char c d -> lower_char c = lower_char d.
Proof. intros [x|k L|k L]; [reflexivity| |]; do 26 (destruct k as [|k]; [reflexivity|]); lia. Qed.
Lemma same_text_lower s t : same_text s t -> lower s = lower t.
Proof. induction 1 as [|c d s t C _ IH]; [reflexivity|]. cbn [lower]. now rewrite (same_char_lower c d C), IH. Qed.

(** C101, names: the names of modes and algorithms are read without regard to case; all modes of the documentation are accepted, and give as many gains per antenna as they say; and the name that is shown for a mode, except for Faraday rotation, and for an algorithm is one that is read as this mode or algorithm. *)
Theorem C101_names :
  (forall s t, same_text s t -> read_mode s = read_mode t /\ read_algorithm s = read_algorithm t /\ read_data_use s = read_data_use t) /\
  (forall name n, In (name, n) documented_modes -> exists m, read_mode name = Ok m /\ n_polarizations m = n) /\
  (forall m, m <> FaradayRotation -> read_mode (of_mode m) = Ok m) /\
  (forall a, read_algorithm (of_algorithm a) = Ok a).
Proof.
  split; [|split; [|split]].
  - intros s t E. apply same_text_lower in E. unfold read_mode, read_algorithm, read_data_use. now rewrite E.
  - intros name n I. cbn in I. repeat (destruct I as [I|I]; [injection I as <- <-; eexists; split; reflexivity|]). contradiction.
  - intros [] H; try reflexivity. now destruct H.
  - intros []; reflexivity.
Qed.
Print Assumptions C101_names.
Example C101_names_example : read_mode "TEC+Phase" = Ok TecAndPhase /\ read_mode "complex" = Throw /\ read_algorithm "LBFGS" = Ok Lbfgs /\ read_data_use "Dual" = Ok Dual.
Proof. repeat split. Qed.

(** Refutes for C101 that the name that DDECal shows for a mode can be used as the setting: for Faraday rotation it shows "faraday", which is refused; the setting is "faradayrotation". *)
Theorem C101_shown_mode_refuted : exists m, read_mode "faradayrotation" = Ok m /\ read_mode (of_mode m) = Throw.
Proof. now exists FaradayRotation. Qed.
Print Assumptions C101_shown_mode_refuted.

Lemma is_zero_true r : is_zero r = true <-> r = 0%R.
Proof. unfold is_zero. destruct (Req_EM_T r 0); split; intros; congruence. Qed.
Lemma is_zero_false r : is_zero r = false <-> r <> 0%R.
Proof. unfold is_zero. destruct (Req_EM_T r 0); split; intros; congruence. Qed.
Lemma empty_false {A} (l : list A) : empty l = false <-> l <> [].
Proof. destruct l; cbn; split; congruence. Qed.

Lemma kinds s a : a <> HybridSolve ->
  match mode_solver s a with
  | Ok (k, p) => kind_polarizations k = n_polarizations (s_mode s) /\ (p = true <-> phase_mode (s_mode s)) /\ s_mode s <> TecScreen
  | Throw => True | Undefined => False end.
Proof.
  intros H. unfold mode_solver, scalar_solver, diagonal_solver, full_solver, phase_mode.
  destruct (s_mode s), a; try congruence; destruct (s_use_gpu s), (has_cuda s), (has_libdirac s), (s_data_use s); cbn; try exact I; (split; [reflexivity|split; [|discriminate]]); split; intros; try easy; try tauto;
    repeat match goal with H : _ \/ _ |- _ => destruct H as [H|H]; try discriminate end; try contradiction.
Qed.
Lemma mode_constraints_ok s : match mode_constraints s with Ok _ => s_mode s <> TecScreen | Throw => s_mode s = TecScreen | Undefined => False end.
Proof. unfold mode_constraints. destruct (s_mode s); cbn; congruence. Qed.

(** [refused] for one algorithm that is not the hybrid one *)
Definition single_refused (s : settings) (a : algorithm) : Prop :=
  s_mode s = TecScreen \/ (In a [AntennaSolve; LowRank] /\ ~ diagonal_mode (s_mode s)) \/ (a = Lbfgs /\ has_libdirac s = false) \/
  (diagonal_mode (s_mode s) /\ s_use_gpu s = true /\ ~ (has_cuda s = true /\ a = DirectionIterative /\ s_data_use s = Full)) \/
  (diagonal_mode (s_mode s) /\ s_data_use s = Single /\ a = DirectionIterative).
Lemma diagonal_dec m : {diagonal_mode m} + {~ diagonal_mode m}.
Proof. unfold diagonal_mode. destruct m; cbn; (left; tauto) || (right; intros H; decompose [or] H; congruence). Qed.
Lemma mode_solver_throw s a : a <> HybridSolve -> (mode_solver s a = Throw <-> single_refused s a).
Proof.
  intros H. unfold single_refused. destruct (diagonal_dec (s_mode s)) as [D|D].
  - assert (M : mode_solver s a = match diagonal_solver a s with Ok k => Ok (k, match s_mode s with DiagonalPhase => true | _ => false end) | Throw => Throw | Undefined => Undefined end /\ s_mode s <> TecScreen).
    { unfold diagonal_mode in D. unfold mode_solver. destruct (s_mode s); cbn in D; decompose [or] D; try congruence; try contradiction; (split; [|discriminate]); now destruct (diagonal_solver a s). }
    destruct M as [-> T]. unfold diagonal_solver.
    destruct (s_use_gpu s), (has_cuda s), (has_libdirac s), (s_data_use s), a; cbn; try congruence; split; intros X; try discriminate; try reflexivity;
      try (decompose [or and] X; try congruence; try contradiction; exfalso; tauto);
      try (right; right; left; now split); try (right; right; right; left; split; [exact D|split; [reflexivity|intros (A & B & C); congruence]]); try (right; right; right; right; now repeat split).
  - unfold mode_solver, scalar_solver, full_solver. unfold diagonal_mode in *. cbn in *.
    destruct (s_mode s), (has_libdirac s), a; cbn; try congruence; try (exfalso; apply D; tauto); split; intros X; try discriminate; try reflexivity;
      try (decompose [or and] X; congruence); try (decompose [or and] X; try congruence; exfalso; tauto);
      try (now left); try (right; left; split; [tauto|intros Y; decompose [or] Y; congruence]); try (right; right; left; now split).
Qed.
(** What is read from antenna_averaging_factors *)
Definition factors_of (s : settings) (stations : list (list ascii)) : option (list Z) :=
  parse_values name_matches stream_size (s_averaging s) stations (repeat 1%Z (length stations)).
Lemma create_for_ok s a stations : a <> HybridSolve ->
  match create_for s a stations with
  | Ok v => ~ single_refused s a /\ ~ (s_averaging s <> [] /\ factors_of s stations = None) /\ exists common own, common_constraints s stations = Ok common /\ mode_constraints s = Ok own /\
     mode_solver s a = Ok (v_kind v, v_phase_only v) /\ v_max_iterations v = s_max_iterations s /\ v_constraints v = common ++ own
  | Throw => single_refused s a \/ (s_averaging s <> [] /\ factors_of s stations = None)
  | Undefined => False
  end.
Proof.
  intros H. unfold create_for. assert (K := kinds s a H). assert (T := mode_solver_throw s a H). assert (C := mode_constraints_ok s).
  destruct (mode_solver s a) as [[k p]| |] eqn:E; [|left; now apply T|contradiction]. destruct K as (P & _ & N).
  assert (Q : ~ single_refused s a) by (intros R; apply T in R; discriminate).
  assert (F : match common_constraints s stations with Ok _ => ~ (s_averaging s <> [] /\ factors_of s stations = None) | Throw => s_averaging s <> [] /\ factors_of s stations = None | Undefined => False end).
  { unfold common_constraints, factors_of. destruct (empty (s_averaging s)) eqn:B.
    - intros [D _]. destruct (s_averaging s); [congruence|discriminate].
    - apply empty_false in B. destruct (parse_values _ _ _ _ _); [intros [_ D]; discriminate|now split]. }
  destruct (common_constraints s stations) as [common| |] eqn:B; [|now right|contradiction].
  destruct (mode_constraints s) as [own| |]; [|contradiction|contradiction].
  rewrite P, Nat.eqb_refl. split; [exact Q|]. split; [exact F|]. now exists common, own.
Qed.

Lemma create_single s stations : s_algorithm s <> HybridSolve ->
  create s stations = match create_for s (s_algorithm s) stations with Ok v => Ok [v] | Throw => Throw | Undefined => Undefined end.
Proof. unfold create. destruct (s_algorithm s); congruence. Qed.
Lemma refused_single s : s_algorithm s <> HybridSolve -> (refused s <-> single_refused s (s_algorithm s)).
Proof. unfold refused, single_refused. intros H. cbn. destruct (s_algorithm s); try congruence; split; intros X; decompose [or and] X; try congruence; tauto. Qed.
Lemma algorithm_dec (a b : algorithm) : {a = b} + {a <> b}.
Proof. decide equality. Qed.

(** C101, the solver: no settings lead to undefined behaviour (a null pointer, or a solver with another number of gains than the mode).  The settings are refused exactly in the cases of [refused], or if the factors per antenna can not be read.  Otherwise there is one solver, or two for the hybrid algorithm, and each of them solves for as many gains per antenna as the mode has, and for phases only exactly for the phase modes. *)
Theorem C101_solver : forall s stations,
  create s stations <> Undefined /\
  (create s stations = Throw <-> refused s \/ (s_averaging s <> [] /\ factors_of s stations = None)) /\
  (forall l, create s stations = Ok l -> length l = (match s_algorithm s with HybridSolve => 2 | _ => 1 end) /\
   forall v, In v l -> kind_polarizations (v_kind v) = n_polarizations (s_mode s) /\ (v_phase_only v = true <-> phase_mode (s_mode s))).
Proof.
  intros s stations. set (B := s_averaging s <> [] /\ factors_of s stations = None).
  destruct (algorithm_dec (s_algorithm s) HybridSolve) as [A|A].
  - (* hybrid *)
    unfold create. rewrite A. assert (R1 : refused s <-> single_refused s DirectionSolve \/ single_refused s DirectionIterative).
    { unfold refused, single_refused. rewrite A. cbn. destruct (s_data_use s), (has_cuda s); split; intros X; decompose [or and] X; try congruence; try tauto;
        try (left; right; right; right; left; repeat split; auto; intros (_ & Y & _); discriminate); try (right; right; right; left; repeat split; auto; intros (_ & Y & _); discriminate). }
    assert (C1 := create_for_ok s DirectionSolve stations ltac:(discriminate)). assert (C2 := create_for_ok s DirectionIterative stations ltac:(discriminate)).
    fold B in C1, C2. assert (K1 := kinds s DirectionSolve ltac:(discriminate)). assert (K2 := kinds s DirectionIterative ltac:(discriminate)).
    destruct (create_for s DirectionSolve stations) as [a| |]; [|split; [discriminate|split; [split; [tauto|reflexivity]|discriminate]]|contradiction].
    destruct (create_for s DirectionIterative stations) as [b| |]; [|split; [discriminate|split; [split; [tauto|reflexivity]|discriminate]]|contradiction].
    destruct C1 as (S1 & F1 & x1 & y1 & _ & _ & M1 & _). destruct C2 as (S2 & F2 & x2 & y2 & _ & _ & M2 & _). rewrite M1 in K1. rewrite M2 in K2.
    cbn [v_kind]. rewrite (proj1 K1), (proj1 K2), Nat.eqb_refl. split; [discriminate|]. split; [split; [discriminate|tauto]|].
    intros l [= <-]. split; [reflexivity|]. intros v [<-|[<-|[]]]; cbn [v_kind v_phase_only]; tauto.
  - rewrite (create_single s stations A). assert (R1 := refused_single s A). assert (C1 := create_for_ok s _ stations A). fold B in C1. assert (K1 := kinds s _ A).
    destruct (create_for s (s_algorithm s) stations) as [v| |]; [|split; [discriminate|split; [split; [tauto|reflexivity]|discriminate]]|contradiction].
    destruct C1 as (S1 & F1 & x1 & y1 & _ & _ & M1 & _). rewrite M1 in K1. split; [discriminate|]. split; [split; [discriminate|tauto]|].
    intros l [= <-]. split; [destruct (s_algorithm s); try reflexivity; now destruct A|]. intros w [<-|[]]; tauto.
Qed.
Print Assumptions C101_solver.
Definition case_settings : settings := Settings DiagonalAmplitude HybridSolve Full false 50 1000 [] [list_ascii_of_string "CS*:4"] 0 false 0 [] [] false false.
Example C101_solver_example : create case_settings (map list_ascii_of_string ["CS1"; "RS1"]%string) =
  Ok [Solver DirectDiagonal false 8 [CAntenna; CInterval [4; 1]%Z; CAmplitude]; Solver (IterativeDiagonal Full) false 50 [CAntenna; CInterval [4; 1]%Z; CAmplitude]].
Proof.
  unfold create, create_for, common_constraints, case_settings. cbn -[Nat.div parse_values is_zero].
  rewrite !(proj2 (is_zero_true 0)) by reflexivity. rewrite (proj2 (is_zero_false 1000)) by lra. reflexivity.
Qed.

Lemma own_ok s own : mode_constraints s = Ok own ->
  (forall c, In c own <-> wanted s c /\ 2 < rank c) /\ StronglySorted (fun a b => rank a < rank b) own.
Proof.
  intros E. unfold mode_constraints in E. destruct (s_mode s) eqn:M; inversion E; subst own; clear E; (split; [|repeat constructor]);
    intros c; destruct c as [| | | | ap [] | [] | | | | ]; unfold wanted, amplitude_mode; rewrite ?M; cbn; split; intros H;
    repeat match goal with H : _ /\ _ |- _ => destruct H | H : _ \/ _ |- _ => destruct H end; subst; try discriminate; try contradiction; try lia; try congruence; try (inversion H; subst); repeat split; auto; try congruence; try lia; tauto.
Qed.
Lemma common_ok s stations common : common_constraints s stations = Ok common ->
  (forall c, In c common <-> (wanted s c /\ rank c <= 2) /\ forall f, c = CInterval f -> factors_of s stations = Some f) /\ StronglySorted (fun a b => rank a < rank b) common.
Proof.
  intros E. unfold common_constraints in E. fold (factors_of s stations) in E.
  assert (AN : negb (is_zero (s_core s)) || negb (empty (s_groups s)) = true <-> wanted s CAntenna).
  { cbn. rewrite orb_true_iff, !negb_true_iff, is_zero_false, empty_false. reflexivity. }
  assert (SM : negb (is_zero (s_smoothness s)) = true <-> wanted s CSmooth) by (cbn; rewrite negb_true_iff; apply is_zero_false).
  assert (IN : empty (s_averaging s) = false <-> forall f, wanted s (CInterval f)) by (cbn; rewrite empty_false; split; [auto|intros H; exact (H [])]).
  assert (INV : forall f g, wanted s (CInterval f) -> wanted s (CInterval g)) by (cbn; auto).
  destruct (negb (is_zero (s_core s)) || negb (empty (s_groups s))), (negb (is_zero (s_smoothness s))), (empty (s_averaging s)); try (destruct (factors_of s stations) as [fs|]; [|discriminate]);
    injection E as <-; (split; [|repeat constructor; cbn; lia]); intros c; destruct c as [|f| | | | | | | |]; cbn [rank app In];
    (split; [intros H; decompose [or] H; try discriminate; try contradiction; (split; [split; [|lia]|intros g G; try discriminate])
            |intros [[H1 H2] H3]; try (exfalso; lia)]);
    try tauto; try (assert (false = true) by tauto; discriminate); try (assert (true = false) by (apply IN; intros g; now apply (INV f g)); discriminate).
  all: try (now apply AN); try (now apply SM); try (now apply IN).
  all: try (match goal with H : CInterval _ = CInterval _ |- _ => injection H as <- end).
  all: try (now apply IN); try congruence.
  all: try (specialize (H3 _ eq_refl); injection H3 as <-; tauto).
Qed.

Lemma create_in s stations l v : create s stations = Ok l -> In v l -> exists a common own,
  common_constraints s stations = Ok common /\ mode_constraints s = Ok own /\ mode_solver s a = Ok (v_kind v, v_phase_only v) /\ v_constraints v = common ++ own.
Proof.
  destruct (algorithm_dec (s_algorithm s) HybridSolve) as [A|A].
  - unfold create. rewrite A. assert (C1 := create_for_ok s DirectionSolve stations ltac:(discriminate)). assert (C2 := create_for_ok s DirectionIterative stations ltac:(discriminate)).
    destruct (create_for s DirectionSolve stations) as [a| |]; try discriminate. destruct (create_for s DirectionIterative stations) as [b| |]; try discriminate.
    destruct C1 as (_ & _ & x1 & y1 & X1 & Y1 & M1 & _ & E1). destruct C2 as (_ & _ & x2 & y2 & X2 & Y2 & M2 & _ & E2).
    destruct (_ =? _); [|discriminate]. intros [= <-] [<-|[<-|[]]]; [exists DirectionSolve, x1, y1|exists DirectionIterative, x2, y2]; cbn; auto.
  - rewrite (create_single s stations A). assert (C1 := create_for_ok s _ stations A). destruct (create_for s (s_algorithm s) stations) as [a| |]; try discriminate.
    destruct C1 as (_ & _ & x1 & y1 & X1 & Y1 & M1 & _ & E1). intros [= <-] [<-|[]]. now exists (s_algorithm s), x1, y1.
Qed.

(** C101, the constraints: every solver has exactly the constraints that the settings ask for, each of them once, with the factors per antenna that are read from the settings; and in a fixed order, first those on antennas, intervals and frequencies and then those of the mode. *)
Theorem C101_constraints : forall s stations l v, create s stations = Ok l -> In v l ->
  (forall c, In c (v_constraints v) <-> wanted s c /\ forall f, c = CInterval f -> factors_of s stations = Some f) /\
  StronglySorted (fun a b => rank a < rank b) (v_constraints v).
Proof.
  intros s stations l v E I. destruct (create_in s stations l v E I) as (a & common & own & X & Y & _ & ->).
  destruct (common_ok _ _ _ X) as [C1 S1]. destruct (own_ok _ _ Y) as [C2 S2]. split.
  - intros c. rewrite in_app_iff, C1, C2. destruct (le_lt_dec (rank c) 2) as [R|R]; [split; [intros [H|H]; [tauto|lia]|tauto]|].
    split; [intros [H|H]; [lia|split; [tauto|intros f ->; cbn in R; lia]]|tauto].
  - assert (D : forall c d, In c common -> In d own -> rank c < rank d) by (intros c d H1 H2; apply C1 in H1; apply C2 in H2; lia).
    clear - S1 S2 D. induction S1 as [|c common S1 IH F]; [exact S2|]. cbn [app]. constructor.
    + apply IH. intros; apply D; [now right|assumption].
    + apply Forall_app. split; [exact F|]. apply Forall_forall. intros d H. apply D; [now left|assumption].
Qed.
Print Assumptions C101_constraints.
Example C101_constraints_example : wanted case_settings CAntenna /\ wanted case_settings CAmplitude /\ ~ wanted case_settings CSmooth.
Proof. cbn. unfold amplitude_mode. cbn. repeat split; [left; lra|tauto|lra]. Qed.

(** C101, the hybrid algorithm: the first solver solves for all directions at once, with a sixth of the iterations but at least one; the second one iterates over the directions, with all iterations; they have the same constraints. *)
Theorem C101_hybrid : forall s stations l, s_algorithm s = HybridSolve -> create s stations = Ok l -> exists a b, l = [a; b] /\
  In (v_kind a) [DirectScalar; DirectDiagonal; DirectFull] /\ In (v_kind b) [IterativeScalar (s_data_use s); IterativeDiagonal (s_data_use s); IterativeFull] /\
  v_constraints a = v_constraints b /\ v_phase_only a = v_phase_only b /\ v_max_iterations b = s_max_iterations s /\
  1 <= v_max_iterations a /\ (6 <= s_max_iterations s -> 6 * v_max_iterations a <= s_max_iterations s < 6 * (v_max_iterations a + 1)).
Proof.
  intros s stations l A. unfold create. rewrite A. remember (Nat.max 1 (s_max_iterations s / 6)) as m eqn:HM. assert (C1 := create_for_ok s DirectionSolve stations ltac:(discriminate)). assert (C2 := create_for_ok s DirectionIterative stations ltac:(discriminate)).
  destruct (create_for s DirectionSolve stations) as [a| |]; try discriminate. destruct (create_for s DirectionIterative stations) as [b| |]; try discriminate.
  destruct C1 as (N1 & _ & x1 & y1 & X1 & Y1 & M1 & I1 & E1). destruct C2 as (_ & _ & x2 & y2 & X2 & Y2 & M2 & I2 & E2). destruct (_ =? _); [|discriminate]. intros [= <-].
  eexists _, _. split; [reflexivity|]. cbn [v_kind v_constraints v_phase_only v_max_iterations].
  assert (G : diagonal_mode (s_mode s) -> s_use_gpu s = false).
  { intros D. destruct (s_use_gpu s) eqn:U; [|reflexivity]. exfalso. apply N1. right; right; right; left. repeat split; auto. intros (_ & Z & _). discriminate. }
  assert (KK : In (v_kind a) [DirectScalar; DirectDiagonal; DirectFull] /\ In (v_kind b) [IterativeScalar (s_data_use s); IterativeDiagonal (s_data_use s); IterativeFull] /\ v_phase_only a = v_phase_only b).
  { clear - M1 M2 G. unfold mode_solver, scalar_solver, diagonal_solver, full_solver, diagonal_mode in *. destruct (s_mode s); cbn in *; try rewrite G in * by tauto;
      try discriminate; destruct (s_data_use s); try discriminate; injection M1 as <- <-; injection M2 as <- <-; cbn; tauto. }
  destruct KK as (K1 & K2 & K3). split; [exact K1|]. split; [exact K2|]. split; [rewrite E1, E2; congruence|]. split; [exact K3|]. split; [exact I2|]. split; [rewrite HM; apply Nat.le_max_l|].
  intros L. assert (D := Nat.div_mod_eq (s_max_iterations s) 6). assert (MB := Nat.mod_upper_bound (s_max_iterations s) 6 ltac:(lia)).
  assert (1 <= s_max_iterations s / 6) by (apply Nat.div_le_lower_bound; lia). rewrite Nat.max_r in HM by assumption. rewrite HM. lia.
Qed.
Print Assumptions C101_hybrid.
Example C101_hybrid_example : s_algorithm case_settings = HybridSolve /\ 6 <= s_max_iterations case_settings.
Proof. cbn. split; [reflexivity|lia]. Qed.

(** Refutes for C101 that datause selects what part of the data is used, or is refused: for full Jones gains, and for the default algorithm, the setting is accepted without effect. *)
Theorem C101_datause_refuted : exists d1 d2 (with_data : data_use -> settings), d1 <> d2 /\ (forall d, s_data_use (with_data d) = d) /\
  forall stations, create (with_data d1) stations = create (with_data d2) stations /\ create (with_data d1) stations <> Throw.
Proof.
  exists Single, Full, (fun d => Settings FullJones DirectionIterative d false 50 0 [] [] 0 false 0 [] [] false false). split; [discriminate|]. split; [reflexivity|].
  intros stations. unfold create, create_for, common_constraints. cbn -[is_zero]. split; [reflexivity|discriminate].
Qed.
Print Assumptions C101_datause_refuted.

(** Refutes for C101 that usegpu=true is refused without a solver for a GPU: this is only so for diagonal gains; for other modes the setting is accepted, even if DP3 is built without CUDA, and has no effect. *)
Theorem C101_gpu_refuted : exists s, s_use_gpu s = true /\ has_cuda s = false /\ forall stations, exists v, create s stations = Ok [v] /\ v_kind v <> IterativeDiagonalCuda.
Proof.
  exists (Settings Scalar DirectionIterative Full true 50 0 [] [] 0 false 0 [] [] false false). split; [reflexivity|]. split; [reflexivity|].
  intros stations. unfold create, create_for, common_constraints. cbn -[is_zero]. eexists. split; [reflexivity|discriminate].
Qed.
Print Assumptions C101_gpu_refuted.
