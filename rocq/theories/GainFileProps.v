(** Properties of the files of gain calibration. *)
From Coq Require Import Ascii String Reals List Arith Bool Lia Lra.
From Verif Require CellsProofs InterpProofs.
From Verif Require Import RealCplx AverageModel GainFileModel GainFileSpec GainFileProofs.
Import ListNotations.
Open Scope R_scope.

Section Parmdb.
Context {cell : Type} (arg : rc -> R) (ants : nat -> string) (n : nat) (ct : caltype).
Hypothesis ARG : is_arg arg.
Hypothesis ANTS : distinct_names ants.
Notation db := (db cell).
Notation write r d := (write_db cell arg ants (r_sols r) (r_tec r) ct n (r_used r) d).
Notation entries r := (entries cell arg ants (r_sols r) (r_tec r) ct n (r_used r)).
(** A name that is written for this type of calibration *)
Definition named (k : string) : Prop := exists pol ri ant, In (pol, ri) (loops ct) /\ k = value_name ants ct pol ri ant.
Definition own_defs : list (string * R) :=
  match ct with
  | DiagonalPhase | ScalarPhase => [("Gain:1:1:Ampl"%string, 1); ("Gain:0:0:Ampl"%string, 1)]
  | DiagonalAmplitude | ScalarAmplitude => [("Gain:1:1:Phase"%string, 0); ("Gain:0:0:Phase"%string, 0)]
  | Diagonal | FullMatrix => [("Gain:1:1:Real"%string, 1); ("Gain:0:0:Real"%string, 1)]
  | _ => []
  end.
Definition own (d : db) : Prop := (forall k, In k (names cell d) -> named k) /\ (forall k v, In (k, v) (vals cell d) -> In k (names cell d)) /\ (defs cell d = [] \/ defs cell d = own_defs).
Lemma in_entries (r : run cell) k v : In (k, v) (entries r) <-> exists pol ri ant, (ant < n)%nat /\ r_used r ant = true /\ In (pol, ri) (loops ct) /\ k = value_name ants ct pol ri ant /\ v = value_of cell arg (r_sols r) (r_tec r) ct pol ri ant.
Proof.
  unfold GainFileModel.entries. rewrite in_flat_map. split.
  - intros (ant & I & J). apply in_seq in I. destruct (r_used r ant) eqn:U; [|destruct J]. apply in_map_iff in J as ([pol ri] & E & J). injection E as <- <-. exists pol, ri, ant. repeat split; auto; lia.
  - intros (pol & ri & ant & A & U & I & -> & ->). exists ant. split; [apply in_seq; lia|]. rewrite U. apply in_map_iff. exists (pol, ri). auto.
Qed.
(** Names are different for different values *)
Lemma name_inj p1 r1 a1 p2 r2 a2 : In (p1, r1) (loops ct) -> In (p2, r2) (loops ct) -> value_name ants ct p1 r1 a1 = value_name ants ct p2 r2 a2 -> p1 = p2 /\ r1 = r2 /\ a1 = a2.
Proof.
  destruct ANTS as [_ INJ]. intros I1 I2 E. destruct ct; cbn in I1, I2; repeat (destruct I1 as [I1|I1]; [injection I1 as <- <-|]); try destruct I1;
    repeat (destruct I2 as [I2|I2]; [injection I2 as <- <-|]); try destruct I2; cbn in E; try discriminate E; injection E as E; apply INJ in E; auto.
Qed.
Lemma named_plain k : named k -> contains ":phase_center" k = false.
Proof.
  intros (pol & ri & ant & I & ->). destruct ANTS as [PL _]. pose proof (colon_plain (ants ant) (PL ant)) as C.
  destruct ct; cbn in I; repeat (destruct I as [I|I]; [injection I as <- <-|]); try destruct I; unfold value_name, parm_name; cbn [nth Nat.eqb append]; repeat (rewrite contains_cons by reflexivity); exact C.
Qed.
Lemma init_own d : own d -> own (init_db cell ct d) /\ defs cell (init_db cell ct d) = own_defs /\ (ct <> TecAndPhase -> vals cell (init_db cell ct d) = []).
Proof.
  intros (N & V & D). set (d1 := if has_name cell d (parm_name ct) then delete_values cell d (parm_name ct) else d).
  assert (K : names cell d1 = names cell d) by (unfold d1; now destruct (has_name cell d (parm_name ct))).
  assert (K' : defs cell d1 = defs cell d) by (unfold d1; now destruct (has_name cell d (parm_name ct))).
  assert (KV : forall k v, In (k, v) (vals cell d1) -> In (k, v) (vals cell d)).
  { intros k v. unfold d1. destruct (has_name cell d (parm_name ct)); [|auto]. cbn [delete_values vals]. intros I. apply filter_In in I. tauto. }
  assert (KE : ct <> TecAndPhase -> vals cell d1 = []).
  { intros NT. assert (P : forall k, named k -> prefix (parm_name ct) k = true).
    { intros k (pol & ri & ant & I & ->). destruct ct; cbn in I; repeat (destruct I as [I|I]; [injection I as <- <-|]); try destruct I; try congruence; cbn; try reflexivity; now destruct (ants ant). }
    assert (E : forall k v, ~ In (k, v) (vals cell d1)).
    { intros k v I. pose proof (KV k v I) as I'. apply V in I' as J. pose proof (P k (N k J)) as Q. unfold d1 in I. destruct (has_name cell d (parm_name ct)) eqn:H.
      - cbn [delete_values vals] in I. apply filter_In in I as [_ I]. cbn [fst] in I. rewrite Q in I. discriminate.
      - assert (X : has_name cell d (parm_name ct) = true) by (apply existsb_exists; eauto). congruence. }
    destruct (vals cell d1) as [|[k v] l]; [reflexivity|]. destruct (E k v (or_introl eq_refl)). }
  assert (F : names cell (init_db cell ct d) = names cell d1 /\ vals cell (init_db cell ct d) = vals cell d1 /\ defs cell (init_db cell ct d) = own_defs).
  { unfold init_db. cbv zeta. fold d1. clearbody d1. unfold own_defs in *. destruct ct; rewrite ?K'; destruct D as [D|D]; rewrite ?D; cbn [assoc String.eqb Ascii.eqb Bool.eqb put_def names vals defs]; rewrite ?K', ?D; auto. }
  destruct F as (F1 & F2 & F3). split; [|split; [exact F3|rewrite F2; exact KE]]. split; [rewrite F1, K; exact N|]. split; [rewrite F1, F2, K; eauto|now right].
Qed.
Lemma write_own r d : own d -> own (write r d).
Proof.
  intros O. destruct (init_own d O) as ((N & V & _) & D & _). unfold write_db. split; [|split].
  - intros k I. apply put_all_names in I as [I|I]; [|auto]. apply in_map_iff in I as ([k' v] & E & I). cbn in E. subst k'. apply in_entries in I as (pol & ri & ant & _ & _ & I & E & _). exists pol, ri, ant. auto.
  - intros k v I. apply put_all_names. apply put_all_in in I as [I|I]; [left; apply (in_map fst) in I; exact I|right; eauto].
  - rewrite put_all_defs, D. auto.
Qed.
Lemma write_plain r d : own d -> forall k v, In (k, v) (vals cell (write r d)) -> contains ":phase_center" k = false.
Proof. intros O k v I. destruct (write_own r d O) as (N & V & _). apply named_plain. eauto. Qed.
Lemma write_defs r d : own d -> defs cell (write r d) = own_defs.
Proof. intros O. unfold write_db. rewrite put_all_defs. now apply init_own. Qed.
(** The value of a station that is used *)
Lemma write_value r d pol ri ant : (ant < n)%nat -> r_used r ant = true -> In (pol, ri) (loops ct) ->
  assoc (vals cell (write r d)) (value_name ants ct pol ri ant) = Some (value_of cell arg (r_sols r) (r_tec r) ct pol ri ant).
Proof.
  intros A U I. unfold write_db. apply put_all_lookup.
  - intros v v' J J'. apply in_entries in J as (p & q & a & _ & _ & J & E & ->). apply in_entries in J' as (p' & q' & a' & _ & _ & J' & E' & ->).
    rewrite E in E'. apply name_inj in E' as (-> & -> & ->); auto.
  - apply in_entries. exists pol, ri, ant. auto.
Qed.
(** There is no other value *)
Lemma write_no_value r d k : own d -> ct <> TecAndPhase -> (forall pol ri ant, (ant < n)%nat -> r_used r ant = true -> In (pol, ri) (loops ct) -> k <> value_name ants ct pol ri ant) -> assoc (vals cell (write r d)) k = None.
Proof.
  intros O NT H. apply assoc_none. intros v I. unfold write_db in I. apply put_all_in in I as [I|I].
  - apply in_entries in I as (p & q & a & A & U & J & E & _). now apply (H p q a).
  - destruct (init_own d O) as (_ & _ & E). rewrite (E NT) in I. destruct I.
Qed.
Lemma has_name_iff (d : db) p : has_name cell d p = true <-> exists k, In k (names cell d) /\ prefix p k = true.
Proof. apply existsb_exists. Qed.
Lemma no_name r d p : own d -> (forall pol ri ant, In (pol, ri) (loops ct) -> prefix p (value_name ants ct pol ri ant) = false) -> has_name cell (write r d) p = false.
Proof.
  intros O H. apply not_true_is_false. intros X. apply has_name_iff in X as (k & I & P). destruct (write_own r d O) as (N & _). destruct (N k I) as (pol & ri & ant & L & ->). rewrite H in P by auto. discriminate.
Qed.
Lemma a_name r d p pol ri ant : (ant < n)%nat -> r_used r ant = true -> In (pol, ri) (loops ct) -> prefix p (value_name ants ct pol ri ant) = true -> has_name cell (write r d) p = true.
Proof.
  intros A U I P. apply has_name_iff. exists (value_name ants ct pol ri ant). split; [|exact P]. unfold write_db. apply put_all_names. left. apply (in_map fst _ (value_name ants ct pol ri ant, value_of cell arg (r_sols r) (r_tec r) ct pol ri ant)). apply in_entries. exists pol, ri, ant. auto.
Qed.
Lemma read_val r d expr pol ri ant x : own d -> (ant < n)%nat -> r_used r ant = true -> In (pol, ri) (loops ct) -> (expr ++ ":" ++ ants ant)%string = value_name ants ct pol ri ant ->
  read_parm cell (write r d) false expr (ants ant) x = Ok (value_of cell arg (r_sols r) (r_tec r) ct pol ri ant x).
Proof. intros O A U I E. rewrite (read_parm_plain (write r d) expr (ants ant) x (write_plain r d O)). rewrite E, write_value by auto. reflexivity. Qed.
Lemma read_def r d expr ant x : own d -> ct <> TecAndPhase -> (forall pol ri a, (a < n)%nat -> r_used r a = true -> In (pol, ri) (loops ct) -> (expr ++ ":" ++ ants ant)%string <> value_name ants ct pol ri a) -> assoc own_defs (expr ++ ":" ++ ants ant)%string = None ->
  read_parm cell (write r d) false expr (ants ant) x = match assoc own_defs expr with Some v => Ok v | None => if prefix "Gain:" expr then Ok 0 else Throw end.
Proof. intros O NT H N. rewrite (read_parm_plain (write r d) expr (ants ant) x (write_plain r d O)). rewrite write_no_value by auto. unfold or_default. rewrite write_defs by auto. now rewrite N. Qed.
(** The elements of a matrix *)
Lemma has_def_own r d p : own d -> has_def cell (write r d) p = existsb (fun x => prefix p (fst x)) own_defs.
Proof. intros O. unfold has_def. now rewrite write_defs by auto. Qed.
End Parmdb.
Ltac cases_in I := cbn in I; repeat (destruct I as [I|I]; [injection I as <- <-|]); try destruct I.
Ltac defs_names := repeat match goal with |- context [existsb ?f (own_defs ?c)] => let v := eval lazy in (existsb f (own_defs c)) in change (existsb f (own_defs c)) with v end; cbn [orb].
(** correction=gain gives the last solutions *)
Lemma gain_read {cell} arg (ants : nat -> string) n ct (r : run cell) d ant x : is_arg arg -> distinct_names ants -> gain_type ct -> suitable ct (r_sols r) -> own ants ct d -> (ant < n)%nat -> r_used r ant = true ->
  read_gain cell (write_db cell arg ants (r_sols r) (r_tec r) ct n (r_used r) d) (ants ant) x = Ok (jones ct (r_sols r) ant x).
Proof.
  intros ARG ANTS G S O A U. unfold read_gain, use_ap. rewrite !(has_def_own arg ants n ct r d _ O).
  assert (PH : forall z, rabs z = 1 -> polar 1 (arg z) = z). { intros z Z. rewrite (ARG z) at 2. rewrite Z. reflexivity. }
  assert (AM : forall z, im z = 0 /\ 0 <= re z -> polar (rabs z) 0 = z).
  { intros z [Z1 Z2]. unfold polar. rewrite cos_0, sin_0. apply rc_eq; cbn [re im]; [|lra]. rewrite Rmult_1_r. apply Rsqr_inj; [apply sqrt_pos|exact Z2|]. unfold Rsqr. rewrite rabs_square. unfold rnorm. rewrite Z1. ring. }
  set (d' := write_db cell arg ants (r_sols r) (r_tec r) ct n (r_used r) d).
  assert (V : forall expr pol ri, In (pol, ri) (loops ct) -> (expr ++ ":" ++ ants ant)%string = value_name ants ct pol ri ant -> read_parm cell d' false expr (ants ant) x = Ok (value_of cell arg (r_sols r) (r_tec r) ct pol ri ant x)) by (intros; apply read_val; auto).
  assert (D : forall expr, ct <> TecAndPhase -> (forall pol ri a, In (pol, ri) (loops ct) -> (expr ++ ":" ++ ants ant)%string <> value_name ants ct pol ri a) -> assoc (own_defs ct) (expr ++ ":" ++ ants ant)%string = None -> read_parm cell d' false expr (ants ant) x = match assoc (own_defs ct) expr with Some v => Ok v | None => if prefix "Gain:" expr then Ok 0 else Throw end) by (intros; apply read_def; auto).
  assert (N1 : forall p pol ri, In (pol, ri) (loops ct) -> prefix p (value_name ants ct pol ri ant) = true -> has_name cell d' p = true) by (intros; eapply a_name; eauto).
  assert (N2 : forall p, (forall pol ri a, In (pol, ri) (loops ct) -> prefix p (value_name ants ct pol ri a) = false) -> has_name cell d' p = false) by (intros; apply no_name; auto).
  clearbody d'. unfold read_element.
  destruct ct; try destruct G; cbn [append].
  - rewrite (N1 "Gain:0:0:Real"%string 0%nat 0%nat), (N2 "Gain:0:1:"%string); [|intros pol ri a I; cases_in I; reflexivity|cbn; tauto|reflexivity].
    defs_names. rewrite (V "Gain:0:0:Real"%string 0%nat 0%nat), (V "Gain:0:0:Imag"%string 0%nat 1%nat), (V "Gain:1:1:Real"%string 3%nat 0%nat), (V "Gain:1:1:Imag"%string 3%nat 1%nat) by (try reflexivity; cbn; tauto).
    cbn [value_of Nat.eqb]. unfold jones. change (3 / 3)%nat with 1%nat. change (0 / 3)%nat with 0%nat. destruct (r_sols r ant 0%nat x), (r_sols r ant 1%nat x). reflexivity.
  - rewrite (N2 "Gain:0:0:Real"%string), (N2 "Gain:0:0:Ampl"%string), (N2 "Phase:0:0:Ampl"%string), (N2 "Gain:0:1:"%string) by (intros pol ri a I; cases_in I; reflexivity).
    defs_names. rewrite (V "Gain:0:0:Phase"%string 0%nat 0%nat), (V "Gain:1:1:Phase"%string 3%nat 0%nat) by (try reflexivity; cbn; tauto).
    rewrite (D "Gain:0:0:Ampl"%string), (D "Gain:1:1:Ampl"%string) by (discriminate || reflexivity || (intros pol ri a I; cases_in I; discriminate)).
    cbn [own_defs assoc String.eqb Ascii.eqb Bool.eqb value_of]. rewrite !PH by apply S. reflexivity.
  - rewrite (N2 "Gain:0:0:Real"%string), (N2 "Gain:0:1:"%string) by (intros pol ri a I; cases_in I; reflexivity). rewrite (N1 "Gain:0:0:Ampl"%string 0%nat 0%nat) by (try reflexivity; cbn; tauto).
    defs_names. rewrite (V "Gain:0:0:Ampl"%string 0%nat 0%nat), (V "Gain:1:1:Ampl"%string 3%nat 0%nat) by (try reflexivity; cbn; tauto).
    rewrite (D "Gain:0:0:Phase"%string), (D "Gain:1:1:Phase"%string) by (discriminate || reflexivity || (intros pol ri a I; cases_in I; discriminate)).
    cbn [own_defs assoc String.eqb Ascii.eqb Bool.eqb value_of]. rewrite !AM by apply S. reflexivity.
  - rewrite (N1 "Gain:0:0:Real"%string 0%nat 0%nat), (N1 "Gain:0:1:"%string 1%nat 0%nat) by (try reflexivity; cbn; tauto). cbn [orb].
    rewrite (V "Gain:0:0:Real"%string 0%nat 0%nat), (V "Gain:0:0:Imag"%string 0%nat 1%nat), (V "Gain:1:1:Real"%string 3%nat 0%nat), (V "Gain:1:1:Imag"%string 3%nat 1%nat) by (try reflexivity; cbn; tauto).
    rewrite (V "Gain:0:1:Real"%string 1%nat 0%nat), (V "Gain:0:1:Imag"%string 1%nat 1%nat), (V "Gain:1:0:Real"%string 2%nat 0%nat), (V "Gain:1:0:Imag"%string 2%nat 1%nat) by (try reflexivity; cbn; tauto).
    cbn [value_of Nat.eqb jones map]. destruct (r_sols r ant 0%nat x), (r_sols r ant 1%nat x), (r_sols r ant 2%nat x), (r_sols r ant 3%nat x). reflexivity.
Qed.
Lemma calibrations_snoc {cell} arg ants n ct (before : list (run cell)) r : calibrations arg ants n (runs_of ct (before ++ [r])) = write_db cell arg ants (r_sols r) (r_tec r) ct n (r_used r) (calibrations arg ants n (runs_of ct before)).
Proof. unfold calibrations, runs_of. rewrite map_app, fold_left_app. reflexivity. Qed.
Lemma calibrations_own {cell} arg ants n ct (l : list (run cell)) : own ants ct (calibrations arg ants n (runs_of ct l)).
Proof.
  induction l as [|r l IH] using rev_ind; [|rewrite calibrations_snoc; now apply write_own].
  split; [intros k []|]. split; [intros k v []|]. now left.
Qed.
(** ApplyCal reads the Jones matrices of the last of several gain calibrations of the same type, for each station that the calibration used. *)
Theorem C96_gain {cell} arg ants n ct (before : list (run cell)) r ant x : is_arg arg -> distinct_names ants -> gain_type ct -> suitable ct (r_sols r) -> (ant < n)%nat -> r_used r ant = true ->
  read_gain cell (calibrations arg ants n (runs_of ct (before ++ [r]))) (ants ant) x = Ok (jones ct (r_sols r) ant x).
Proof. intros ARG ANTS G S A U. rewrite calibrations_snoc. apply gain_read; auto. apply calibrations_own. Qed.
(** A station that the last calibration did not use has the identity for types diagonal, diagonalphase and fulljones: ApplyCal leaves its data as they are. *)
Theorem C96_unused {cell} arg ants n ct (before : list (run cell)) r ant x : distinct_names ants -> ct = Diagonal \/ ct = DiagonalPhase \/ ct = FullMatrix -> r_used r ant = false ->
  read_gain cell (calibrations arg ants n (runs_of ct (before ++ [r]))) (ants ant) x = Ok [rc1; rc0; rc0; rc1].
Proof.
  intros ANTS G U. rewrite calibrations_snoc. pose proof (calibrations_own arg ants n ct before) as O. set (d := calibrations arg ants n (runs_of ct before)) in *. clearbody d.
  unfold read_gain, use_ap. rewrite !(has_def_own arg ants n ct r d _ O).
  set (d' := write_db cell arg ants (r_sols r) (r_tec r) ct n (r_used r) d).
  assert (D : forall expr, ct <> TecAndPhase -> (forall pol ri a, a <> ant -> In (pol, ri) (loops ct) -> (expr ++ ":" ++ ants ant)%string <> value_name ants ct pol ri a) -> assoc (own_defs ct) (expr ++ ":" ++ ants ant)%string = None -> read_parm cell d' false expr (ants ant) x = match assoc (own_defs ct) expr with Some v => Ok v | None => if prefix "Gain:" expr then Ok 0 else Throw end) by (intros; apply read_def; auto; intros; apply H0; auto; congruence).
  assert (N2 : forall p, (forall pol ri a, In (pol, ri) (loops ct) -> prefix p (value_name ants ct pol ri a) = false) -> has_name cell d' p = false) by (intros; apply no_name; auto).
  clearbody d'. unfold read_element. destruct ANTS as [_ INJ].
  assert (C : forall a, a <> ant -> ants ant <> ants a) by (intros a X E; apply X; symmetry; now apply INJ).
  assert (P : polar 1 0 = rc1) by (unfold polar; rewrite cos_0, sin_0; apply rc_eq; cbn; lra).
  assert (W : forall expr, In expr ["Gain:0:0:Real"; "Gain:0:0:Imag"; "Gain:1:1:Real"; "Gain:1:1:Imag"; "Gain:0:1:Real"; "Gain:0:1:Imag"; "Gain:1:0:Real"; "Gain:1:0:Imag"; "Gain:0:0:Phase"; "Gain:1:1:Phase"; "Gain:0:0:Ampl"; "Gain:1:1:Ampl"]%string -> ct <> TecAndPhase -> read_parm cell d' false expr (ants ant) x = match assoc (own_defs ct) expr with Some v => Ok v | None => if prefix "Gain:" expr then Ok 0 else Throw end).
  { intros expr I NT. apply D; auto.
    - intros pol ri a N J E. destruct G as [->|[->| ->]]; cbn in I; repeat (destruct I as [<-|I]); try destruct I; cases_in J; cbn in E; try discriminate E; injection E as E; now apply (C a).
    - destruct G as [->|[->| ->]]; cbn in I; repeat (destruct I as [<-|I]); try destruct I; reflexivity. }
  destruct G as [->|[->| ->]]; cbn [append].
  - rewrite (N2 "Gain:0:1:"%string), (N2 "Gain:0:0:Ampl"%string), (N2 "Phase:0:0:Ampl"%string) by (intros pol ri a I; cases_in I; reflexivity). defs_names.
    destruct (has_name cell d' "Gain:0:0:Real"); rewrite !W by (try discriminate; cbn; tauto); reflexivity.
  - rewrite (N2 "Gain:0:0:Real"%string), (N2 "Gain:0:0:Ampl"%string), (N2 "Phase:0:0:Ampl"%string), (N2 "Gain:0:1:"%string) by (intros pol ri a I; cases_in I; reflexivity). defs_names.
    rewrite !W by (try discriminate; cbn; tauto). rewrite <- P. reflexivity.
  - rewrite (N2 "Gain:0:0:Ampl"%string), (N2 "Phase:0:0:Ampl"%string) by (intros pol ri a I; cases_in I; reflexivity). defs_names.
    destruct (has_name cell d' "Gain:0:0:Real"), (has_name cell d' "Gain:0:1:"); cbn [orb]; rewrite !W by (try discriminate; cbn; tauto); reflexivity.
Qed.
Lemma scalar_read {cell} arg ants n ct (r : run cell) d (phase : bool) ant x ri : distinct_names ants -> own ants ct d -> (ant < n)%nat -> r_used r ant = true -> In (0%nat, ri) (loops ct) ->
  (forall a, value_name ants ct 0 ri a = ((if phase then "CommonScalarPhase" else "CommonScalarAmplitude") ++ ":" ++ ants a)%string) ->
  (forall k, named ants ct k -> (prefix (if phase then "ScalarPhase" else "ScalarAmplitude") k || prefix ("Common" ++ (if phase then "ScalarPhase" else "ScalarAmplitude")) k)%bool = true -> before_colon k = if phase then "CommonScalarPhase"%string else "CommonScalarAmplitude"%string) ->
  read_scalar cell (write_db cell arg ants (r_sols r) (r_tec r) ct n (r_used r) d) phase (ants ant) x = Ok (let v := value_of cell arg (r_sols r) (r_tec r) ct 0 ri ant x in if phase then polar 1 v else RC v 0).
Proof.
  intros ANTS O A U I VN B. pose proof (write_value arg ants n ct ANTS r d 0 ri ant A U I) as W. rewrite VN in W. unfold read_scalar.
  destruct (write_own arg ants n ct r d O) as (N & V & _).
  rewrite (read_parm_common _ (if phase then "ScalarPhase" else "ScalarAmplitude") (if phase then "CommonScalarPhase" else "CommonScalarAmplitude") (ants ant) x).
  - rewrite W. reflexivity.
  - now apply write_plain.
  - apply assoc_in in W. eauto.
  - intros k v J. apply B. eauto.
  - intros a. destruct phase; (rewrite orb_true_iff; right; apply prefix_app).
Qed.
(** With the types for one phase or one amplitude per station, ApplyCal reads the solutions of the last of several calibrations. *)
Theorem C96_scalar {cell} arg ants n (phase : bool) (before : list (run cell)) r ant x : let ct := if phase then ScalarPhase else ScalarAmplitude in
  is_arg arg -> distinct_names ants -> suitable ct (r_sols r) -> (ant < n)%nat -> r_used r ant = true ->
  read_scalar cell (calibrations arg ants n (runs_of ct (before ++ [r]))) phase (ants ant) x = Ok (r_sols r ant 0%nat x).
Proof.
  intros ct ARG ANTS S A U. rewrite calibrations_snoc. pose proof (calibrations_own arg ants n ct before) as O.
  rewrite (scalar_read arg ants n ct r _ phase ant x 0 ANTS O A U).
  - f_equal. subst ct. destruct phase; cbn [value_of]; change (0 / 3)%nat with 0%nat.
    + rewrite (ARG (r_sols r ant 0%nat x)) at 2. unfold polar. now rewrite (S ant 0%nat x).
    + destruct (S ant 0%nat x) as [Z1 Z2]. apply rc_eq; cbn [re im]; [|now rewrite Z1]. apply Rsqr_inj; [apply rabs_nonneg|exact Z2|]. unfold Rsqr. rewrite rabs_square. unfold rnorm. rewrite Z1. ring.
  - subst ct. destruct phase; cbn; tauto.
  - intros a. subst ct. now destruct phase.
  - intros k (pol & ri & a & I & ->) _. subst ct. destruct phase; cases_in I; reflexivity.
Qed.
(** With a fit of the phases to alpha / frequency, or alpha / frequency + beta, the corrections tec and scalarphase together are the phase with the opposite sign, at any frequency; the solutions of calibration are the conjugates of the fitted gains. *)
Theorem C96_tec {cell} arg ants n (phase : bool) (before : list (run cell)) r ant x freq : let ct := if phase then TecAndPhase else Tec in let d := calibrations arg ants n (runs_of ct (before ++ [r])) in
  distinct_names ants -> (ant < n)%nat -> r_used r ant = true -> freq <> 0 -> exists t p,
  read_tec cell d freq (ants ant) x = Ok t /\ (if phase then read_scalar cell d true (ants ant) x = Ok p else p = rc1) /\
  rmul t p = let model := r_tec r ant 0%nat x / freq + (if phase then r_tec r ant 1%nat x else 0) in RC (cos model) (- sin model).
Proof.
  intros ct d ANTS A U F. subst d. rewrite calibrations_snoc. pose proof (calibrations_own arg ants n ct before) as O.
  exists (polar 1 (- (r_tec r ant 0%nat x / freq))), (if phase then polar 1 (- r_tec r ant 1%nat x) else rc1). split; [|split].
  - unfold read_tec. rewrite (has_def_own arg ants n ct r _ _ O). rewrite (no_name arg ants n ct r _ "TEC:0:" O).
    + assert (E : existsb (fun y => prefix "TEC:0:" (fst y)) (own_defs ct) = false) by (subst ct; now destruct phase). rewrite E. cbn [orb].
      rewrite (read_val arg ants n ct ANTS r _ "TEC" 0 0 ant x O A U).
      * f_equal. f_equal. assert (V : value_of cell arg (r_sols r) (r_tec r) ct 0 0 ant x = r_tec r ant 0%nat x / tec_constant) by (subst ct; now destruct phase). rewrite V. unfold tec_constant, tec_constant_read. field. lra.
      * subst ct. destruct phase; cbn; tauto.
      * subst ct. now destruct phase.
    + intros pol ri a I. destruct ANTS as [PL _]. destruct (PL a) as [P1 _].
      assert (Q : prefix "0:" (ants a) = false). { apply not_true_is_false. intros E. apply prefix_split in E as (b & E). now apply (P1 "0"%string b). }
      subst ct. destruct phase; cases_in I; cbn [value_name Nat.eqb append]; solve [reflexivity|exact Q].
  - destruct phase; [|reflexivity]. rewrite (scalar_read arg ants n ct r _ true ant x 1 ANTS O A U).
    + reflexivity.
    + cbn. tauto.
    + reflexivity.
    + intros k (pol & ri & a & I & ->). cases_in I; cbn; [discriminate|reflexivity].
  - unfold polar. destruct phase; unfold rmul; unfold rc1; cbn [re im]; rewrite ?Rplus_0_r, ?cos_plus, ?sin_plus, !cos_neg, !sin_neg; apply rc_eq; cbn [re im]; ring.
Qed.

(** * Times *)
Lemma in_order_length {A} nt nf na np (f : nat -> nat -> nat -> nat -> A) : length (in_order nt nf na np f) = (nt * (nf * (na * np)))%nat.
Proof.
  unfold in_order. rewrite (CellsProofs.length_flat_blocks _ (nf * (na * np))), seq_length; [reflexivity|]. apply Forall_forall. intros t _.
  rewrite (CellsProofs.length_flat_blocks _ (na * np)), seq_length; [reflexivity|]. apply Forall_forall. intros c _.
  rewrite (CellsProofs.length_flat_blocks _ np), seq_length; [reflexivity|]. apply Forall_forall. intros a _. now rewrite map_length, seq_length.
Qed.
Lemma in_order_nth {A} nt nf na np (f : nat -> nat -> nat -> nat -> A) t c a p e : (t < nt -> c < nf -> a < na -> p < np ->
  nth (((t * nf + c) * na + a) * np + p) (in_order nt nf na np f) e = f t c a p)%nat.
Proof.
  intros Ht Hc Ha Hp. unfold in_order.
  assert (L1 : forall t c a, length (map (f t c a) (seq 0 np)) = np) by (intros; now rewrite map_length, seq_length).
  assert (L2 : forall t c, length (flat_map (fun a => map (f t c a) (seq 0 np)) (seq 0 na)) = (na * np)%nat) by (intros; rewrite (CellsProofs.length_flat_blocks _ np), seq_length; [reflexivity|apply Forall_forall; auto]).
  assert (L3 : forall t, length (flat_map (fun c => flat_map (fun a => map (f t c a) (seq 0 np)) (seq 0 na)) (seq 0 nf)) = (nf * (na * np))%nat) by (intros; rewrite (CellsProofs.length_flat_blocks _ (na * np)), seq_length; [reflexivity|apply Forall_forall; auto]).
  replace (((t * nf + c) * na + a) * np + p)%nat with (t * (nf * (na * np)) + (c * (na * np) + (a * np + p)))%nat by ring.
  assert (B1 : (a * np + p < na * np)%nat) by nia. assert (B2 : (c * (na * np) + (a * np + p) < nf * (na * np))%nat) by nia.
  rewrite (CellsProofs.nth_flat_blocks _ (nf * (na * np)) 0%nat) by (try rewrite seq_length; auto; apply Forall_forall; auto). rewrite seq_nth by auto.
  rewrite (CellsProofs.nth_flat_blocks _ (na * np) 0%nat) by (try rewrite seq_length; auto; apply Forall_forall; auto). rewrite seq_nth by auto.
  rewrite (CellsProofs.nth_flat_blocks _ np 0%nat) by (try rewrite seq_length; auto; apply Forall_forall; auto). rewrite seq_nth by auto.
  rewrite nth_indep with (d' := f t c a 0%nat) by (rewrite L1; exact Hp). cbn [Nat.add]. rewrite map_nth, seq_nth by exact Hp. reflexivity.
Qed.
Lemma in_order_bound nt nf na np t c a p : (t < nt -> c < nf -> a < na -> p < np -> ((t * nf + c) * na + a) * np + p < nt * (nf * (na * np)))%nat.
Proof.
  intros Ht Hc Ha Hp. assert (A1 : (t * nf + c < nt * nf)%nat) by nia. assert (A2 : ((t * nf + c) * na + a < nt * nf * na)%nat) by nia.
  replace (nt * (nf * (na * np)))%nat with (nt * nf * na * np)%nat by ring. nia.
Qed.
(** An H5Parm has the tables that are needed, and each number is where its time, frequency, station and polarization say, with weight zero if there is no solution; for all types but scalaramplitude, and but for the phases of tecandphase. *)
Theorem C96_h5 arg ct nt cells na sols tec : ct <> ScalarAmplitude -> let h := write_h5 arg ct nt cells na sols tec in
  map (fun x => fst (fst x)) h = kinds ct /\
  forall kind values weights, In (kind, values, weights) h -> (ct = TecAndPhase -> kind = "tec"%string) ->
    length values = (nt * (frequencies ct cells * (na * polarizations ct)))%nat /\ length weights = length values /\
    forall t c a p, (t < nt -> c < frequencies ct cells -> a < na -> p < polarizations ct ->
      let i := ((t * frequencies ct cells + c) * na + a) * polarizations ct + p in
      let v := wanted arg ct kind (sols t c a p) (tec t a 0) (tec t a 1) in
      nth i values None = v /\ nth i weights 2%R = match v with None => 0%R | Some _ => 1%R end)%nat.
Proof.
  intros N1 h. split; [destruct ct; reflexivity || congruence|]. intros kind values weights I N2.
  assert (F : n_freq ct cells = frequencies ct cells) by now destruct ct. assert (P : n_pol ct = polarizations ct) by now destruct ct.
  set (nf := frequencies ct cells) in *. set (np := polarizations ct) in *.
  assert (G : (exists (g : rc -> R), values = map (option_map g) (in_order nt nf na np sols) /\ weights = map weight_of (in_order nt nf na np sols) /\ forall t c a p, wanted arg ct kind (sols t c a p) (tec t a 0%nat) (tec t a 1%nat) = option_map g (sols t c a p)) \/
    (values = in_order nt nf na np (fun t _ a _ => option_map (fun x => x / tec_constant) (tec t a 0%nat)) /\ weights = map weight_of values /\ forall t c a p, wanted arg ct kind (sols t c a p) (tec t a 0%nat) (tec t a 1%nat) = option_map (fun x => x / tec_constant) (tec t a 0%nat))).
  { unfold h, write_h5 in I. rewrite F, P in I. 
    destruct ct; try congruence; cbn [tables Nat.eqb seq map combine] in I; repeat (destruct I as [I|I]; [injection I as <- <- <-|]); try destruct I; try (specialize (N2 eq_refl); discriminate N2);
      solve [left; exists arg; repeat split | left; exists rabs; repeat split | right; repeat split]. }
  destruct G as [(g & -> & -> & W)|(-> & -> & W)].
  - rewrite !map_length, in_order_length. split; [reflexivity|]. split; [reflexivity|]. intros t c a p Ht Hc Ha Hp i v. split.
    + subst v i. change None with (option_map g None). rewrite map_nth, in_order_nth by auto. symmetry. apply W.
    + subst v i. rewrite W. rewrite nth_indep with (d' := @weight_of rc None) by (rewrite map_length, in_order_length; now apply in_order_bound). rewrite map_nth, in_order_nth by auto. now destruct (sols t c a p).
  - rewrite !map_length, in_order_length. split; [reflexivity|]. split; [reflexivity|]. intros t c a p Ht Hc Ha Hp i v. split.
    + subst v i. rewrite W, in_order_nth by auto. reflexivity.
    + subst v i. rewrite W. rewrite nth_indep with (d' := @weight_of R None) by (rewrite map_length, in_order_length; now apply in_order_bound). rewrite map_nth, in_order_nth by auto. now destruct (tec t a 0%nat).
Qed.

Section Times.
Variables (start dt : R) (solint update ntime : nat).
Hypothesis DT : 0 <= dt.
Hypothesis SOL : (0 < solint)%nat.
Hypothesis UPD : (0 < update)%nat.
Notation ideal := (interval start dt solint ntime).
Definition in_run (q : nat) (s : tstate) : Prop := exists w, (w <= q)%nat /\ written s = map ideal (seq 0 w) /\ solved s = map (fun k => fst (fst (ideal k))) (seq w (q - w)) /\ chunk_start s = start + dt * INR (w * solint).
Lemma write_run q s : in_run q s -> (q <= intervals solint ntime)%nat -> written (write_chunk start dt solint ntime s) = map ideal (seq 0 q).
Proof.
  intros (w & W & WR & SO & CH) Q. cbn [write_chunk written]. rewrite WR, SO, CH, map_length, seq_length.
  assert (SPL : seq 0 q = seq 0 w ++ seq w (q - w)) by (replace q with (w + (q - w))%nat at 1 by lia; apply seq_app).
  assert (SH : map ideal (seq w (q - w)) = map (fun t => ideal (w + t)%nat) (seq 0 (q - w))) by (rewrite <- (Nat.add_0_r w) at 1; rewrite InterpProofs.seq_shift_add, map_map; reflexivity).
  rewrite SPL, map_app, SH. f_equal. apply map_ext_in. intros t I. apply in_seq in I. unfold interval at 2. f_equal; [f_equal|].
  - rewrite nth_indep with (d' := fst (fst (ideal 0))) by (rewrite map_length, seq_length; lia). rewrite (map_nth (fun k => fst (fst (ideal k)))), seq_nth by lia. reflexivity.
  - rewrite Nat.mul_add_distr_r, !plus_INR, !mult_INR. ring.
  - assert (E : Rmin (start + dt * INR (w * solint) + dt * INR solint * INR (t + 1)) (Rmin (start + dt * INR (w * solint) + INR (q - w) * dt * INR solint) (start + INR ntime * dt)) = Rmin (start + INR ((w + t + 1) * solint) * dt) (start + INR ntime * dt)).
    { replace (start + dt * INR (w * solint) + dt * INR solint * INR (t + 1)) with (start + INR ((w + t + 1) * solint) * dt) by (rewrite <- Nat.add_assoc, Nat.mul_add_distr_r, plus_INR, !mult_INR; ring).
      replace (start + dt * INR (w * solint) + INR (q - w) * dt * INR solint) with (start + INR (q * solint) * dt) by (replace q with (w + (q - w))%nat at 1 by lia; rewrite Nat.mul_add_distr_r, plus_INR, !mult_INR; ring).
      assert (L : INR ((w + t + 1) * solint) * dt <= INR (q * solint) * dt) by (apply Rmult_le_compat_r; [exact DT|apply le_INR; nia]).
      unfold Rmin. repeat destruct (Rle_dec _ _); lra. }
    rewrite E. destruct (Nat.le_ge_cases ((w + t + 1) * solint) ntime) as [L|L].
    + rewrite (Nat.min_l _ _ L). apply Rmin_left. apply Rplus_le_compat_l, Rmult_le_compat_r; [exact DT|now apply le_INR].
    + rewrite (Nat.min_r _ _ L). apply Rmin_right. apply Rplus_le_compat_l, Rmult_le_compat_r; [exact DT|now apply le_INR].
Qed.
Lemma process_run t : (t <= ntime)%nat -> let s := fold_left (process_time start dt solint update ntime) (seq 0 t) (TState [] [] 0 start []) in
  pending s = seq (t / solint * solint) (t mod solint) /\ in_run (t / solint) s /\ in_update s = length (solved s) /\ (in_update s < update)%nat.
Proof.
  induction t as [|t IH]; intros T.
  - cbn [seq fold_left]. rewrite Nat.div_0_l, Nat.mod_0_l by lia. split; [reflexivity|]. split; [|auto]. exists 0%nat. cbn. rewrite Rmult_0_r, Rplus_0_r. auto.
  - rewrite seq_S, fold_left_app. cbn [fold_left Nat.add]. destruct (IH ltac:(lia)) as (P & (w & W & WR & SO & CH) & IU & LT). clear IH.
    set (s := fold_left _ (seq 0 t) _) in *. clearbody s.
    pose proof (Nat.div_mod t solint ltac:(lia)) as DM. pose proof (Nat.mod_upper_bound t solint ltac:(lia)) as MB.
    assert (NP : pending s ++ [t] = seq (t / solint * solint) (S (t mod solint))) by (rewrite seq_S, P; do 2 f_equal; lia).
    unfold process_time. rewrite NP, seq_length. destruct (Nat.eqb_spec (S (t mod solint)) solint) as [E|E].
    + assert (D1 : (S t / solint = S (t / solint))%nat) by (symmetry; apply (Nat.div_unique (S t) solint (S (t / solint)) 0); nia).
      assert (M1 : (S t mod solint = 0)%nat) by (symmetry; apply (Nat.mod_unique (S t) solint (S (t / solint)) 0); nia).
      rewrite D1, M1. set (s1 := TState [] _ _ _ _).
      assert (R1 : in_run (S (t / solint)) s1).
      { exists w. split; [lia|]. split; [exact WR|]. split; [|exact CH]. cbn [solved s1]. replace (S (t / solint) - w)%nat with (S (t / solint - w)) by lia. rewrite (seq_S (t / solint - w) w), map_app, SO. cbn [map]. do 2 f_equal. unfold interval. cbn [fst].
        replace (w + (t / solint - w))%nat with (t / solint)%nat by lia. f_equal. rewrite Nat.min_l; [lia|]. nia. }
      assert (Q : (S (t / solint) <= intervals solint ntime)%nat).
      { unfold intervals. pose proof (Nat.div_le_mono (S t) ntime solint ltac:(lia) T) as X. rewrite D1 in X. lia. }
      fold s1. change (in_update s1) with (in_update s + 1)%nat. destruct (Nat.eqb_spec (in_update s + 1) update) as [E2|E2].
      * cbn [pending solved in_update chunk_start]. split; [reflexivity|]. split; [|cbn; auto]. exists (S (t / solint)). split; [lia|].
        split; [cbn [written]; now apply write_run|]. rewrite Nat.sub_diag. split; [reflexivity|]. cbn [chunk_start write_chunk s1]. rewrite CH.
        assert (L : (w + update = S (t / solint))%nat) by (rewrite IU, SO, map_length, seq_length in E2; lia). rewrite <- L, Nat.mul_add_distr_r, plus_INR, !mult_INR. ring.
      * split; [reflexivity|]. split; [exact R1|]. cbn [in_update solved s1]. rewrite app_length, IU. cbn. split; [lia|]. rewrite <- IU. lia.
    + assert (D1 : (S t / solint = t / solint)%nat) by (symmetry; apply (Nat.div_unique (S t) solint (t / solint) (S (t mod solint))); nia).
      assert (M1 : (S t mod solint = S (t mod solint))%nat) by (symmetry; apply (Nat.mod_unique (S t) solint (t / solint) (S (t mod solint))); nia).
      rewrite D1, M1. cbn [in_update]. destruct (Nat.eqb_spec (in_update s) update) as [E2|_]; [lia|]. split; [reflexivity|]. split; [exists w; auto|auto].
Qed.
End Times.
(** Whatever the number of solutions that are written at a time, each solution interval is once in the ParmDB, with the solution of its time slots and with its start and end. *)
Theorem C96_times start dt solint update ntime : 0 <= dt -> (0 < solint)%nat -> (0 < update)%nat ->
  written (run_times start dt solint update ntime) = map (interval start dt solint ntime) (seq 0 (intervals solint ntime)).
Proof.
  intros DT SOL UPD. unfold run_times. destruct (process_run start dt solint update ntime DT SOL UPD ntime (le_n _)) as (P & (w & W & WR & SO & CH) & IU & LT).
  set (s := fold_left _ (seq 0 ntime) _) in *. clearbody s. pose proof (Nat.div_mod ntime solint ltac:(lia)) as DM. pose proof (Nat.mod_upper_bound ntime solint ltac:(lia)) as MB.
  unfold finish_times. unfold intervals. rewrite P. destruct (ntime mod solint) as [|m] eqn:M.
  - cbn [seq Nat.eqb]. rewrite Nat.add_0_r. destruct (solved s) eqn:S1.
    + rewrite WR. f_equal. f_equal. symmetry in SO. apply map_eq_nil in SO. destruct (ntime / solint - w)%nat eqn:X; [lia|discriminate].
    + rewrite (write_run start dt solint) with (q := (ntime / solint)%nat) (update := update); auto. { exists w. rewrite S1. auto. } unfold intervals. rewrite M. lia.
  - cbn [seq Nat.eqb]. set (s1 := TState [] _ _ _ _).
    assert (R1 : in_run start dt solint ntime (ntime / solint + 1) s1).
    { exists w. split; [lia|]. split; [exact WR|]. split; [|exact CH]. cbn [solved s1]. replace (ntime / solint + 1 - w)%nat with (S (ntime / solint - w)) by lia. rewrite (seq_S (ntime / solint - w) w), map_app, SO. cbn [map]. do 2 f_equal. unfold interval. cbn [fst].
      replace (w + (ntime / solint - w))%nat with (ntime / solint)%nat by lia. replace (Nat.min solint (ntime - ntime / solint * solint)) with (S m) by nia. reflexivity. }
    assert (E : written (write_chunk start dt solint ntime s1) = map (interval start dt solint ntime) (seq 0 (ntime / solint + 1))) by (apply write_run with (update := update); auto; unfold intervals; rewrite M; cbn; lia).
    destruct (solved s1) eqn:X; [|exact E]. cbn [solved s1] in X. now apply app_eq_nil in X as [_ X].
Qed.
(** In an H5Parm, the time of each whole solution interval is its middle. *)
Theorem C96_h5_times start dt solint ntime k : (0 < solint)%nat -> length (h5_times start dt solint ntime) = intervals solint ntime /\
  (((k + 1) * solint <= ntime)%nat -> nth k (h5_times start dt solint ntime) 0 = middle start dt solint ntime k).
Proof.
  intros SOL. assert (L : ((ntime + solint - 1) / solint = intervals solint ntime)%nat).
  { unfold intervals. pose proof (Nat.div_mod ntime solint ltac:(lia)) as DM. pose proof (Nat.mod_upper_bound ntime solint ltac:(lia)) as MB.
    destruct (Nat.eqb_spec (ntime mod solint) 0) as [E|E]; symmetry; [apply (Nat.div_unique _ solint _ (solint - 1))|apply (Nat.div_unique _ solint _ (ntime mod solint - 1))]; nia. }
  unfold h5_times. rewrite map_length, seq_length, L. split; [reflexivity|]. intros K.
  assert (KL : (k < intervals solint ntime)%nat). { unfold intervals. pose proof (Nat.div_le_lower_bound ntime solint (k + 1) ltac:(lia) ltac:(lia)). lia. }
  rewrite nth_indep with (d' := start + (INR 0 + / 2) * dt * INR solint) by (now rewrite map_length, seq_length). rewrite (map_nth (fun t => start + (INR t + / 2) * dt * INR solint)), seq_nth by exact KL. cbn [Nat.add].
  unfold middle, interval. rewrite (Nat.min_l _ _ K), Nat.mul_add_distr_r, plus_INR, !mult_INR. cbn [INR]. field.
Qed.

(** * Cases and findings *)

(** Names of stations for the cases *)
Fixpoint sname (i : nat) : string := match i with O => "S" | S i => String "S" (sname i) end.
Lemma sname_ok : distinct_names sname.
Proof.
  split.
  - intros i. split.
    + induction i as [|i IH]; intros a b E; destruct a as [|c a]; cbn in E; try discriminate; injection E as E1 E2; [destruct a; discriminate|now apply (IH a b)].
    + intros a E. destruct i; discriminate.
  - intros i. induction i as [|i IH]; intros [|j] E; cbn in E; try reflexivity; injection E as E; [destruct j; discriminate|destruct i; discriminate|f_equal; auto].
Qed.
(** The principal value of the argument *)
Definition parg (z : rc) : R := if Req_EM_T (rabs z) 0 then 0 else if Rle_dec 0 (im z) then acos (re z / rabs z) else - acos (re z / rabs z).
Lemma parg_ok : is_arg parg.
Proof.
  intros z. unfold parg. destruct (Req_EM_T (rabs z) 0) as [E|E].
  - apply rabs_0 in E. rewrite E at 1. rewrite E. replace (rabs rc0) with 0 by (symmetry; now apply rabs_0). apply rc_eq; cbn [re im rc0]; ring.
  - assert (P : 0 < rabs z) by (pose proof (rabs_nonneg z); lra).
    assert (B : -1 <= re z / rabs z <= 1).
    { pose proof (re_le_abs z) as U. pose proof (re_le_abs (ropp z)) as L. replace (rabs (ropp z)) with (rabs z) in L by (unfold rabs, rnorm, ropp; cbn [re im]; f_equal; ring). cbn [ropp re] in L.
      split; [apply Rmult_le_reg_r with (rabs z)|apply Rmult_le_reg_r with (rabs z)]; auto; field_simplify; lra. }
    assert (C : sqrt (1 - Rsqr (re z / rabs z)) = Rabs (im z) / rabs z).
    { replace (1 - Rsqr (re z / rabs z)) with (Rsqr (im z / rabs z)).
      - rewrite sqrt_Rsqr_abs. unfold Rdiv. rewrite Rabs_mult, Rabs_inv. now rewrite (Rabs_right (rabs z)) by lra.
      - unfold Rsqr. pose proof (rabs_square z) as Q. unfold rnorm in Q. apply Rmult_eq_reg_r with (rabs z * rabs z); [|nra].
        replace (im z / rabs z * (im z / rabs z) * (rabs z * rabs z)) with (im z * im z) by (field; exact E).
        replace ((1 - re z / rabs z * (re z / rabs z)) * (rabs z * rabs z)) with (rabs z * rabs z - re z * re z) by (field; exact E). lra. }
    destruct (Rle_dec 0 (im z)) as [H|H]; rewrite ?cos_neg, ?sin_neg, cos_acos, sin_acos, C by exact B; apply rc_eq; cbn [re im].
    + field. exact E.
    + rewrite Rabs_right by lra. field. exact E.
    + field. exact E.
    + rewrite Rabs_left by lra. field. exact E.
Qed.

(** A run of diagonalamplitude leaves a station that it does not use with amplitude zero: there is no default for amplitudes, and ApplyCal takes zero for a Gain that is not there.  For the other types such a station has the identity (C96_unused). *)
Theorem C96_unused_refuted : exists (r : run unit) ant x, distinct_names sname /\ suitable DiagonalAmplitude (r_sols r) /\ (ant < 2)%nat /\ r_used r ant = false /\ forall arg,
  read_gain unit (calibrations arg sname 2 (runs_of DiagonalAmplitude [r])) (sname ant) x = Ok [rc0; rc0; rc0; rc0].
Proof.
  exists (Run (fun _ _ _ => rc1) (fun _ _ _ => 0) (fun a => (a =? 0)%nat)), 1%nat, tt. split; [apply sname_ok|]. split; [cbn; intros; lra|]. split; [lia|]. split; [reflexivity|]. intros arg.
  unfold calibrations, runs_of. cbn [map fold_left]. assert (Z : polar 0 0 = rc0) by (unfold polar; apply rc_eq; cbn [re im rc0]; ring).
  transitivity (@Ok (list rc) [polar 0 0; rc0; rc0; polar 0 0]); [reflexivity|now rewrite Z].
Qed.
(** With scalarphase or scalaramplitude, ApplyCal cannot use the ParmDB at all if there is a station that calibration did not use: there are no defaults for the parameters that are written. *)
Theorem C96_scalar_unused_refuted : exists (r : run unit) ant x, distinct_names sname /\ (ant < 2)%nat /\ r_used r ant = false /\ (forall phase : bool, suitable (if phase then ScalarPhase else ScalarAmplitude) (r_sols r)) /\ forall arg (phase : bool),
  read_scalar unit (calibrations arg sname 2 (runs_of (if phase then ScalarPhase else ScalarAmplitude) [r])) phase (sname ant) x = Throw.
Proof.
  exists (Run (fun _ _ _ => rc1) (fun _ _ _ => 0) (fun a => (a =? 0)%nat)), 1%nat, tt. split; [apply sname_ok|]. split; [lia|]. split; [reflexivity|]. split.
  - intros [|]; cbn; intros; [|lra]. unfold rabs, rnorm, rc1. cbn [re im]. replace (1 * 1 + 0 * 0) with 1 by ring. apply sqrt_1.
  - intros arg [|]; reflexivity.
Qed.
(** The documentation says that an existing ParmDB is overwritten.  After a run of diagonal, a run of diagonalphase removes the values but not the names, so that ApplyCal takes real and imaginary parts, of which only the defaults are left: the solutions are ignored. *)
Theorem C96_overwrite_refuted : exists (first second : run unit) ant x, distinct_names sname /\ suitable DiagonalPhase (r_sols second) /\ (ant < 1)%nat /\ r_used second ant = true /\ forall arg,
  let db := calibrations arg sname 1 (runs_of Diagonal [first] ++ runs_of DiagonalPhase [second]) in
  read_gain unit db (sname ant) x = Ok [rc1; rc0; rc0; rc1] /\ jones DiagonalPhase (r_sols second) ant x = [ropp rc1; rc0; rc0; ropp rc1].
Proof.
  exists (Run (fun _ _ _ => rc1) (fun _ _ _ => 0) (fun _ => true)), (Run (fun _ _ _ => ropp rc1) (fun _ _ _ => 0) (fun _ => true)), 0%nat, tt.
  split; [apply sname_ok|]. split.
  - cbn. intros. unfold rabs, rnorm, ropp, rc1. cbn [re im]. replace (- (1) * - (1) + - 0 * - 0) with 1 by ring. apply sqrt_1.
  - split; [lia|]. split; [reflexivity|]. intros arg. split; reflexivity.
Qed.
(** An H5Parm of scalaramplitude has phases in the table of amplitudes. *)
Theorem C96_h5_amplitude_refuted : exists sols values weights, is_arg parg /\ In ("amplitude"%string, values, weights) (write_h5 parg ScalarAmplitude 1 1 1 sols (fun _ _ _ => None)) /\ sols 0%nat 0%nat 0%nat 0%nat = Some (RC 2 0) /\ nth 0 values None = Some 0.
Proof.
  exists (fun _ _ _ _ => Some (RC 2 0)), [Some (parg (RC 2 0))], [1]. split; [apply parg_ok|]. split; [now left|]. split; [reflexivity|]. cbn [nth]. f_equal.
  unfold parg. assert (E : rabs (RC 2 0) = 2) by (unfold rabs, rnorm; cbn [re im]; replace (2 * 2 + 0 * 0) with (2 * 2) by ring; apply sqrt_square; lra). rewrite E.
  destruct (Req_EM_T 2 0); [lra|]. cbn [im re]. destruct (Rle_dec 0 0); [|lra]. replace (2 / 2) with 1 by field. apply acos_1.
Qed.
(** An H5Parm of tecandphase has the TEC again, with the opposite sign, in the table of phases, where the constant part of the fit should be. *)
Theorem C96_h5_phase_refuted : exists tec values weights, forall arg, In ("phase"%string, values, weights) (write_h5 arg TecAndPhase 1 1 1 (fun _ _ _ _ => None) tec) /\ nth 0 values None <> wanted arg TecAndPhase "phase" None (tec 0%nat 0%nat 0%nat) (tec 0%nat 0%nat 1%nat).
Proof.
  exists (fun _ _ k => Some (INR k)), [Some (- INR 0)], [1]. intros arg. split; [right; left; reflexivity|]. cbn. intros [= E]. lra.
Qed.
(** The last solution interval may have fewer time slots; its time in an H5Parm is still that of a whole interval, which may be after all the data. *)
Theorem C96_h5_times_refuted : exists start dt solint ntime k, 0 < dt /\ (k < intervals solint ntime)%nat /\ nth k (h5_times start dt solint ntime) 0 > start + INR ntime * dt.
Proof. exists 0, 1, 4%nat, 5%nat, 1%nat. split; [lra|]. split; [cbn; lia|]. cbn. lra. Qed.

(** A case of C96_gain: two runs of diagonal calibration with two stations *)
Example gain_case : let r v := Run (fun _ p (_ : unit) => RC v (INR p)) (fun _ _ _ => 0) (fun _ => true) in
  read_gain unit (calibrations parg sname 2 (runs_of Diagonal ([r 5] ++ [r 3]))) "SS" tt = Ok [RC 3 0; rc0; rc0; RC 3 1].
Proof. intros r. apply (C96_gain parg sname 2 Diagonal [r 5] (r 3) 1%nat tt); auto using parg_ok, sname_ok; exact I. Qed.
(** A case of C96_unused: the second station is used in the first run only *)
Example unused_case : let r u := Run (fun _ _ (_ : unit) => RC 7 2) (fun _ _ _ => 0) u in
  read_gain unit (calibrations parg sname 2 (runs_of FullMatrix ([r (fun _ => true)] ++ [r (fun a => (a =? 0)%nat)]))) "SS" tt = Ok [rc1; rc0; rc0; rc1].
Proof. intros r. apply (C96_unused parg sname 2 FullMatrix _ _ 1%nat tt); auto using sname_ok. Qed.
(** A case of C96_scalar *)
Example scalar_case : let r := Run (fun a _ (_ : unit) => RC (INR a) 0) (fun _ _ _ => 0) (fun _ => true) in
  read_scalar unit (calibrations parg sname 3 (runs_of ScalarAmplitude ([] ++ [r]))) false "SSS" tt = Ok (RC 2 0).
Proof. intros r. apply (C96_scalar parg sname 3 false [] r 2%nat tt); auto using parg_ok, sname_ok. intros a p x. cbn. split; [reflexivity|apply pos_INR]. Qed.
(** A case of C96_tec: the file has the TEC and the phase *)
Example tec_case : let r := Run (fun _ _ (_ : unit) => rc1) (fun a k _ => INR (a + k) * 100) (fun _ => true) in
  exists t p, read_tec unit (calibrations parg sname 2 (runs_of TecAndPhase ([] ++ [r]))) 50 "S" tt = Ok t /\ read_scalar unit (calibrations parg sname 2 (runs_of TecAndPhase ([] ++ [r]))) true "S" tt = Ok p /\ rmul t p = RC (cos (0 * 100 / 50 + 1 * 100)) (- sin (0 * 100 / 50 + 1 * 100)).
Proof. intros r. apply (C96_tec parg sname 2 true [] r 0%nat tt 50); auto using sname_ok; lra || lia. Qed.
(** A case of C96_times: seven time slots in intervals of two, written two at a time *)
Example times_case : written (run_times 10 1 2 2 7) = map (interval 10 1 2 7) [0; 1; 2; 3]%nat /\ interval 10 1 2 7 3 = ([6%nat], 10 + INR 6 * 1, 10 + INR 7 * 1).
Proof. split; [apply C96_times; [lra|lia|lia]|reflexivity]. Qed.
(** A case of C96_h5: the amplitude of the second polarization of the third station *)
Example h5_case : exists values weights, In ("amplitude"%string, values, weights) (write_h5 parg Diagonal 2 2 3 (fun t c a p => Some (RC (INR (t + c + a + p)) 0)) (fun _ _ _ => None)) /\ nth 23 values None = Some (rabs (RC (INR 5) 0)).
Proof. eexists _, _. split; [right; left; reflexivity|reflexivity]. Qed.
(** A case of C96_h5_times: intervals of four time slots *)
Example h5_times_case : nth 1 (h5_times 0 1 4 9) 0 = 6.
Proof. rewrite (proj2 (C96_h5_times 0 1 4 9 1 ltac:(lia))) by (cbn; lia). unfold middle, interval. cbn. lra. Qed.

Print Assumptions C96_gain.
Print Assumptions C96_unused.
Print Assumptions C96_scalar.
Print Assumptions C96_tec.
Print Assumptions C96_h5.
Print Assumptions C96_times.
Print Assumptions C96_h5_times.
Print Assumptions C96_unused_refuted.
Print Assumptions C96_scalar_unused_refuted.
Print Assumptions C96_overwrite_refuted.
Print Assumptions C96_h5_amplitude_refuted.
Print Assumptions C96_h5_phase_refuted.
Print Assumptions C96_h5_times_refuted.
