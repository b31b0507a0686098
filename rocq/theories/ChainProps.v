(** Properties of the chain of steps that is made from a parameter set (base/DP3.cc). *)
From Coq Require Import Ascii String List Bool Arith Lia.
From Verif Require Import AverageModel StrModel ParsetModel ChainModel ChainSpec.
Import ListNotations.

(** * The kinds of a step *)

Definition made_for (s : step) (k : kind) : Prop := snd s = k /\ (fst s = MSBDAWriter -> k = Bda).
Lemma made_single b type k s : make_single_step b type k = Ok (Some s) -> made_for s k.
Proof.
  unfold make_single_step. cbv zeta. intros H.
  repeat match type of H with (if ?c then _ else _) = _ => destruct c end; try discriminate;
    try (injection H as <-; split; [reflexivity|discriminate]).
Qed.

Section Paths.
Variable absolute : string -> string.
Lemma made_output name current k s c : make_output_step absolute name current k = Ok (s, c) ->
  made_for s k /\ (s = (MSUpdater, Regular) \/ s = (MSWriter, Regular) \/ s = (MSBDAWriter, Bda)).
Proof.
  unfold make_output_step. destruct (output_name absolute name current) as [[o u]| |]; try discriminate.
  destruct k, u; intros [= <- <-]; (split; [split; [reflexivity|reflexivity || discriminate]|tauto]).
Qed.
Lemma made_step b p name current k s c : make_step absolute b p name current k = Ok (s, c) -> made_for s k.
Proof.
  unfold make_step. cbv zeta. destruct (make_single_step b (step_type p name) k) as [[s'|]| |] eqn:E; try discriminate.
  - intros [= <- <-]. now apply made_single in E.
  - destruct (_ || _); [|discriminate]. destruct (name_of p name); [|discriminate]. intros H. now apply made_output in H.
Qed.

(** A step that is no column reader of BDA data *)
Definition declared (s : step) : Prop := s <> (MsColumnReader, Bda).
Lemma process_accepted s k : made_for s k -> accepts s k = true -> declared s ->
  process s k = Some (Some (outputs s)) \/ process s k = Some None.
Proof.
  destruct s as [c k']. intros [E1 E2] A D. cbn in E1, E2. subst k'. destruct c, k; cbn in *; try discriminate; auto.
  - exfalso. now apply D.
  - specialize (E2 eq_refl). discriminate.
Qed.

(** * What goes through a chain *)

Fixpoint deliver (k : option kind) (chain : list step) : option (option kind) :=
  match chain with
  | [] => Some k
  | s :: r => match k with None => deliver None r | Some k => match process s k with Some k' => deliver k' r | None => None end end
  end.
Lemma deliver_none chain : deliver None chain = Some None.
Proof. induction chain; auto. Qed.
Lemma deliver_app k a b : deliver k (a ++ b) = match deliver k a with Some k' => deliver k' b | None => None end.
Proof.
  revert k. induction a as [|s a IH]; intros k; auto. cbn. destruct k as [k|]; [|apply IH]. destruct (process s k); auto.
Qed.
Lemma deliver_works chain : forall k k', deliver k chain = Some k' -> works step kind process k chain.
Proof.
  induction chain as [|s r IH]; intros k k' H; [constructor|]. cbn in H. destruct k as [k|].
  - destruct (process s k) as [k1|] eqn:E; [|discriminate]. econstructor; [exact E|]. eapply IH; eauto.
  - constructor. eapply IH; eauto.
Qed.

Definition kind_after (k : kind) (chain : list step) : kind := match chain with [] => k | s :: r => outputs (last r s) end.
Lemma kind_after_cons k s r : kind_after k (s :: r) = kind_after (outputs s) r.
Proof.
  unfold kind_after. destruct r as [|t r]; auto. f_equal. change (last (t :: r) s = last r t). destruct r as [|u r]; auto.
  revert t u. induction r as [|v r IH]; intros t u; auto. exact (IH t v).
Qed.
Lemma steps_deliver b p initial : forall names last_step current chain,
  make_steps absolute b p initial last_step current names = Ok chain -> Forall declared chain ->
  (last_step = None -> match chain with s :: _ => accepts s initial = true | [] => True end) ->
  let k := match last_step with Some l => outputs l | None => initial end in
  deliver (Some k) chain = Some (Some (kind_after k chain)) \/ deliver (Some k) chain = Some None.
Proof.
  induction names as [|name names IH]; intros l current chain H D F k; cbn [make_steps] in H.
  - injection H as <-. now left.
  - cbv zeta in H. destruct (make_step absolute b p name current _) as [[s current']| |] eqn:E; try discriminate.
    destruct (match l with Some l0 => accepts s (outputs l0) && may_have_next l0 | None => true end) eqn:C; [|discriminate].
    destruct (make_steps _ _ _ _ _ _ names) as [r| |] eqn:R; try discriminate. injection H as <-.
    inversion D as [|? ? Ds Dr]; subst. assert (A : accepts s k = true).
    { unfold k. destruct l; [now apply andb_true_iff in C|]. now apply F. }
    fold k in E. apply made_step in E. cbn [deliver]. destruct (process_accepted s k E A Ds) as [-> | ->].
    + rewrite kind_after_cons. apply (IH (Some s) current' r R Dr). intros X; discriminate X.
    + right. apply deliver_none.
Qed.

(** If the first step accepts what the reader gives, and BDA data are not read by a column reader, then no step of an
    accepted chain, including the output step, gets a buffer that it cannot process. *)
Theorem C44_works : forall b p input_name initial changed steps chain,
  make_steps_from_parset absolute b p (absolute input_name) false initial = Ok steps -> (forall s r, steps = s :: r -> accepts s initial = true) ->
  Forall declared steps -> make_main_steps absolute b p input_name initial changed = Ok chain -> works step kind process (Some initial) chain.
Proof.
  intros b p input_name initial changed c chain E F Dc H. unfold make_main_steps in H. rewrite E in H. cbv zeta in H.
  unfold make_steps_from_parset in E. assert (E' : make_steps absolute b p initial None (absolute input_name) (step_names p) = Ok c) by now destruct (make_steps _ _ _ _ _ _ _).
  set (ends := match c with [] => false | s :: r => is_output (last r s) end) in H.
  assert (Final : forall c0, (match c0 with [] => Ok [(NullStep, Regular)]
      | s :: r => if may_have_next (last r s) then Ok ((s :: r) ++ [(NullStep, Regular)]) else Ok (s :: r) end) = Ok chain ->
      exists e, chain = c0 ++ e /\ (e = [] \/ e = [(NullStep, Regular)])).
  { intros [|s r] X; [injection X as <-; exists [(NullStep, Regular)]; auto|]. destruct (may_have_next (last r s)); injection X as <-; eexists.
    - split; [reflexivity|auto].
    - split; [symmetry; apply app_nil_r|auto]. }
  assert (Null : forall k e, e = [] \/ e = [(NullStep, Regular)] -> exists k', deliver k e = Some k').
  { intros k e [-> | ->]; destruct k; cbn; eauto. }
  assert (P : exists o e, chain = c ++ o ++ e /\ (e = [] \/ e = [(NullStep, Regular)]) /\
    (o = [] \/ exists s, o = [s] /\ made_for s (kind_after initial c) /\ (s = (MSUpdater, Regular) \/ s = (MSWriter, Regular) \/ s = (MSBDAWriter, Bda)))).
  { destruct ends.
    - apply Final in H as (e & -> & He). exists [], e. auto.
    - destruct (match msout_name p with Some n => Some n | None => msout p end) as [n|]; [|discriminate]. destruct (negb (n =? "")%string || changed c).
      + destruct (make_output_step _ _ _ _) as [[o cur]| |] eqn:O; try discriminate. apply made_output in O as [O1 O2].
        apply Final in H as (e & -> & He). exists [o], e. rewrite <- app_assoc. split; [reflexivity|]. split; [exact He|]. right. exists o.
        auto.
      + apply Final in H as (e & -> & He). exists [], e. auto. }
  destruct P as (o & e & -> & He & Ho).
  assert (Fc : match c with s :: _ => accepts s initial = true | [] => True end) by (destruct c as [|s r]; [exact I|now apply (F s r)]).
  pose proof (steps_deliver b p initial _ None _ c E' Dc (fun _ => Fc)) as G. cbv zeta in G.
  assert (X : exists k', deliver (Some initial) (c ++ o ++ e) = Some k').
  { rewrite deliver_app. destruct G as [-> | ->]; [|rewrite deliver_none; eauto]. rewrite deliver_app.
    destruct Ho as [-> | (s & -> & [M _] & Hs)].
    - cbn. auto.
    - assert (exists k', deliver (Some (kind_after initial c)) [s] = Some k') as [k' ->].
      { rewrite <- M. destruct Hs as [-> | [-> | ->]]; cbn; eauto. }
      auto. }
  destruct X as [k' X]. eapply deliver_works. exact X.
Qed.

(** In an accepted list of steps each step accepts what the one before it says to give, and no step comes after a split. *)
Theorem C44_neighbours : forall b p input_name initial steps, make_steps_from_parset absolute b p input_name false initial = Ok steps ->
  neighbours step (fun s t => accepts t (outputs s) = true /\ fst s <> Split) steps.
Proof.
  intros b p input_name initial steps H. unfold make_steps_from_parset in H.
  assert (E : make_steps absolute b p initial None input_name (step_names p) = Ok steps) by now destruct (make_steps _ _ _ _ _ _ _). clear H.
  assert (G : forall names l current chain, make_steps absolute b p initial l current names = Ok chain ->
    neighbours step (fun s t => accepts t (outputs s) = true /\ fst s <> Split) (match l with Some s => s :: chain | None => chain end)).
  { induction names as [|name names IH]; intros l current chain H; cbn [make_steps] in H.
    - injection H as <-. destruct l; constructor.
    - cbv zeta in H. destruct (make_step absolute b p name current _) as [[s current']| |]; try discriminate.
      destruct (match l with Some l0 => accepts s (outputs l0) && may_have_next l0 | None => true end) eqn:C; [|discriminate].
      destruct (make_steps _ _ _ _ _ _ names) as [r| |] eqn:R; try discriminate. injection H as <-. apply IH in R.
      destruct l as [l|]; auto. constructor; auto. apply andb_true_iff in C as [C1 C2]. split; auto.
      unfold may_have_next in C2. destruct (fst l); discriminate. }
  exact (G _ _ _ _ E).
Qed.

(** The type of a step is what is given, or its name without the digits at the end; in lower case. *)
Theorem C62_type : forall p given name base digits, list_ascii_of_string name = base ++ digits -> Forall (fun c => isdigit c = true) digits ->
  (forall b c, base = b ++ [c] -> isdigit c = false) -> (type_of p name = given) ->
  list_ascii_of_string (step_type p name) = map tolower (match given with Some t => list_ascii_of_string t | None => base end).
Proof.
  intros p given name base digits E Hd Hb Hg. unfold step_type. rewrite Hg, list_ascii_of_string_of_list_ascii. f_equal. destruct given; auto.
  unfold default_type. rewrite list_ascii_of_string_of_list_ascii, E, rev_app_distr.
  assert (S1 : forall d r, Forall (fun c => isdigit c = true) d -> strip (d ++ r) = strip r).
  { induction d as [|c d IH]; intros r H; auto. inversion H; subst. cbn. rewrite H2. auto. }
  rewrite S1 by now apply Forall_rev. assert (S2 : strip (rev base) = rev base).
  { destruct (rev base) as [|c r] eqn:R; auto. cbn. assert (base = rev r ++ [c]) by (rewrite <- (rev_involutive base), R; reflexivity).
    now rewrite (Hb _ _ H). }
  rewrite S2. apply rev_involutive.
Qed.
End Paths.

(** Only these types are made into steps; all others are refused. *)
Definition known_types : list string := ["aoflagger"; "aoflag"; "averager"; "average"; "squash"; "bdaaverage"; "bdaaverager"; "bdaexpander"; "madflagger"; "madflag";
  "preflagger"; "preflag"; "antennaflagger"; "antflag"; "uvwflagger"; "uvwflag"; "image"; "clipper"; "combine"; "columnreader"; "counter"; "count";
  "phaseshifter"; "phaseshift"; "demixer"; "demix"; "applybeam"; "stationadder"; "stationadd"; "scaledata"; "setbeam"; "filter"; "applycal"; "correct"; "nullstokes";
  "predict"; "wgridderpredict"; "idgpredict"; "idgimager"; "upsample"; "interpolate"; "grouppredict"; "sagecalpredict"; "h5parmpredict"; "gaincal"; "calibrate";
  "python"; "pythondppp"; "split"; "explode"; "ddecal"; "dynspec"; "null"; "wscleanwriter"; "flagtransfer"; "transfer"; "out"; "output"; "msout"]%string.
Theorem C62_unknown : forall absolute b p name current k, ~ In (step_type p name) known_types -> make_step absolute b p name current k = Throw.
Proof.
  intros absolute b p name current k H. unfold make_step, make_single_step. cbv zeta.
  assert (N : forall t, In t known_types -> String.eqb (step_type p name) t = false).
  { intros t Ht. apply String.eqb_neq. intros E. apply H. now rewrite E. }
  repeat (rewrite N by (unfold known_types; cbn [In]; tauto)). reflexivity.
Qed.
Print Assumptions C44_works. Print Assumptions C44_neighbours. Print Assumptions C62_type. Print Assumptions C62_unknown.

(** ** Cases *)
Open Scope string_scope.
Definition case_build := {| have_wsclean := false; have_libdirac := false |}.
Definition case_path (n : string) : string := "/data/" ++ n.
Definition case_parset (names : list string) : parset :=
  {| step_names := names; type_of := fun n => if String.eqb n "model" then Some "Predict" else None;
     name_of := fun n => if String.eqb n "out1" then Some "middle.MS" else None; msout_name := None; msout := Some "out.MS" |}.
Definition case_make (names : list string) (k : kind) := make_main_steps case_path case_build (case_parset names) "in.MS" k (fun _ => true).
Example C44_case : case_make ["average1"; "out1"; "bdaaverage"; "model"; "ddecal"; "bdaexpander"] Regular =
    Ok [(Averager, Regular); (MSWriter, Regular); (BdaAverager, Regular); (Predict, Bda); (BdaDdeCal, Bda); (BdaExpander, Bda); (MSWriter, Regular); (NullStep, Regular)] /\
  case_make ["bdaaverage"; "average"] Regular = Throw /\ case_make ["split"; "average"] Regular = Throw /\
  case_make ["model"] Bda = Ok [(Predict, Bda); (MSBDAWriter, Bda); (NullStep, Regular)].
Proof. vm_compute. auto. Qed.
Example C44_case_accepts : accepts (Averager, Regular) Regular = true /\ Forall declared [(Predict, Bda); (BdaDdeCal, Bda)].
Proof. split; [reflexivity|]. repeat constructor; discriminate. Qed.
Example C62_case : step_type (case_parset []) "Average12" = "average" /\ step_type (case_parset []) "model" = "predict" /\
  make_step case_path case_build (case_parset []) "avg2b" "" Regular = Throw.
Proof. vm_compute. auto. Qed.

(** The first step is not checked: BDA data are given to a step that cannot process them. *)
Theorem C44_first_refuted : exists p chain, make_main_steps case_path case_build p "in.MS" Bda (fun _ => true) = Ok chain /\ ~ works step kind process (Some Bda) chain.
Proof.
  exists (case_parset ["average"]). eexists. split; [vm_compute; reflexivity|]. intros H. inversion H; subst. discriminate.
Qed.
(** A column reader says to give regular data, also when it gives BDA data. *)
Theorem C44_column_refuted : exists p chain, make_main_steps case_path case_build p "in.MS" Regular (fun _ => true) = Ok chain /\
  (forall s r, chain = s :: r -> accepts s Regular = true) /\ ~ works step kind process (Some Regular) chain.
Proof.
  exists (case_parset ["bdaaverage"; "columnreader"; "average"]). eexists. split; [vm_compute; reflexivity|]. split.
  - intros s r [= <- <-]. reflexivity.
  - intros H. inversion H as [| |? ? ? ? P1 H1]; subst. injection P1 as <-. inversion H1 as [| |? ? ? ? P2 H2]; subst. injection P2 as <-.
    inversion H2 as [| |? ? ? ? P3 H3]; subst. discriminate.
Qed.
(** An output step for BDA data is refused inside the list of steps, although it can process what it is made for. *)
Theorem C44_bda_out_refuted : exists p, make_main_steps case_path case_build p "in.MS" Regular (fun _ => true) = Throw /\ step_names p = ["bdaaverage"; "out1"] /\
  name_of p "out1" <> None /\ works step kind process (Some Regular) [(BdaAverager, Regular); (MSBDAWriter, Bda); (NullStep, Regular)].
Proof.
  exists (case_parset ["bdaaverage"; "out1"]). split; [vm_compute; reflexivity|]. split; [reflexivity|]. split; [discriminate|].
  eapply works_step; [reflexivity|]. eapply works_step; [reflexivity|]. repeat constructor.
Qed.
(** Steps after an output step for BDA data get nothing. *)
Theorem C44_bda_lost_refuted : exists p s t r, make_main_steps case_path case_build p "in.MS" Bda (fun _ => true) = Ok (s :: t :: r) /\
  is_output s = true /\ process s Bda = Some None /\ fst t = Counter.
Proof. exists (case_parset ["out1"; "count"]). do 3 eexists. split; [vm_compute; reflexivity|]. auto. Qed.
(** A split as the last of the steps inside another split is refused. *)
Theorem C44_split_refuted : exists p, make_steps_from_parset case_path case_build p "" false Regular = Ok [(Averager, Regular); (Split, Regular)] /\
  make_steps_from_parset case_path case_build p "" true Regular = Throw.
Proof. exists (case_parset ["average"; "split"]). vm_compute. auto. Qed.
Print Assumptions C44_first_refuted. Print Assumptions C44_column_refuted. Print Assumptions C44_bda_out_refuted.
Print Assumptions C44_bda_lost_refuted. Print Assumptions C44_split_refuted.
