(** C82: the settings of the substeps of ApplyCal *)
From Coq Require Import Ascii String List Bool Arith ZArith Lia.
From Verif Require Import AverageModel GainModel ApplySetModel ApplySetSpec.
Import ListNotations.
Open Scope string_scope.

Lemma append_assoc a b c : (a ++ b) ++ c = a ++ b ++ c.
Proof. induction a as [|x a IH]; cbn; [reflexivity|now rewrite IH]. Qed.
Lemma bind_ok {A B} (m : outcome A) (f : A -> outcome B) x : bind m f = Ok x -> exists a, m = Ok a /\ f a = Ok x.
Proof. destruct m; try discriminate. intros H. eexists. split; [reflexivity|exact H]. Qed.

Section Parset.
Variable lookup : string -> option string.
Variable as_int : string -> outcome Z.
Variable as_bool : string -> outcome bool.
Variable as_list : string -> outcome (list string).
Variables known_missing known_correction : string -> bool.
Notation one_apply_cal := (one_apply_cal lookup as_int as_bool as_list known_missing known_correction).
Notation given := (given lookup).
Definition own (step name : string) := if name =? "" then step else step ++ name ++ ".".

Lemma given_fallback step name p : given step name p = match lookup (own step name ++ p) with Some v => Some v | None => lookup (step ++ p) end.
Proof. unfold ApplySetSpec.given, own. destruct name as [|c n]; [cbn [String.eqb]; now destruct (lookup _)|]. cbn [String.eqb]. rewrite !append_assoc. reflexivity. Qed.
Lemma fallback_string step name p d x : fallback lookup (fun k => get_string lookup k (Some d)) (own step name) step p = Ok x <-> x = text (given step name p) d.
Proof. rewrite given_fallback. unfold fallback, get_string, text. destruct (lookup (own step name ++ p)) eqn:E; cbv beta; [rewrite ?E; split; congruence|]. destruct (lookup (step ++ p)); split; congruence. Qed.
Lemma fallback_needed step name p x : fallback lookup (fun k => get_string lookup k None) (own step name) step p = Ok x <-> given step name p = Some x.
Proof. rewrite given_fallback. unfold fallback, get_string. destruct (lookup (own step name ++ p)) eqn:E; cbv beta; [rewrite ?E; split; congruence|]. destruct (lookup (step ++ p)); split; congruence. Qed.
Lemma fallback_as {T} (conv : string -> outcome T) step name p d x : fallback lookup (fun k => get_as lookup conv k d) (own step name) step p = Ok x <-> is conv (given step name p) d x.
Proof. rewrite given_fallback. unfold fallback, get_as, is. destruct (lookup (own step name ++ p)) eqn:E; cbv beta; [rewrite ?E; split; congruence|]. destruct (lookup (step ++ p)); split; congruence. Qed.

Lemma one_ok step name sub dir s : one_apply_cal (own step name) step sub dir = Ok s -> inherits lookup as_int as_bool step sub dir name s.
Proof.
  unfold ApplySetModel.one_apply_cal. intros H.
  apply bind_ok in H. destruct H as (db & H1 & H). apply bind_ok in H. destruct H as (ss & H2 & H). apply bind_ok in H. destruct H as (n & H3 & H). apply bind_ok in H. destruct H as (uw & H4 & H).
  apply bind_ok in H. destruct H as (um & H5 & H). destruct (Z.eqb_spec (n mod 2 ^ 32) 0) as [|N]; [discriminate|]. apply bind_ok in H. destruct H as (d & H6 & H).
  destruct (um && _); [discriminate|]. apply bind_ok in H. destruct H as (inv & H7 & H). apply bind_ok in H. destruct H as ([[[c l] m] t] & H8 & H).
  destruct (_ && _); [discriminate|]. injection H as <-. apply fallback_string in H1, H2, H6. apply fallback_as in H3, H4. unfold inherits. cbn [parmdb solset per_update update_weights direction inverts correction missing].
  split; [exact H1|]. split; [exact H2|]. split; [exists n; auto|]. split; [pose proof (Z.mod_pos_bound n (2 ^ 32) eq_refl); lia|]. split; [exact H4|]. split; [exact H6|]. split.
  - destruct sub; [congruence|]. now apply fallback_as in H7.
  - destruct (has_h5 db).
    + apply bind_ok in H8. destruct H8 as ([l' m'] & H8 & H9). apply bind_ok in H9. destruct H9 as ([c' t'] & H9 & H10). injection H10 as -> -> -> ->.
      unfold h5_tables in H9. apply bind_ok in H9. destruct H9 as (c' & H9 & H10). apply bind_ok in H10. destruct H10 as (t' & _ & H10). destruct (negb _); [discriminate|]. injection H10 as -> ->. apply fallback_needed in H9.
      split; [exact H9|]. unfold h5_options in H8. apply bind_ok in H8. destruct H8 as (i & _ & H8). apply bind_ok in H8. destruct H8 as (li & _ & H8). apply bind_ok in H8. destruct H8 as (mi & H8 & H11).
      destruct (known_missing mi); [|discriminate]. injection H11 as -> ->. now apply fallback_string in H8.
    + apply bind_ok in H8. destruct H8 as (c' & H8 & H9). apply fallback_string in H8. destruct (known_correction _); [|discriminate]. injection H9 as <- <- <- <-. now rewrite H8.
Qed.
Lemma make_ok step sub dir : forall l r, make lookup as_int as_bool as_list known_missing known_correction step sub dir l = Ok r -> Forall2 (inherits lookup as_int as_bool step sub dir) l r.
Proof.
  induction l as [|n l IH]; intros r H; cbn [make] in H; [injection H as <-; constructor|]. apply bind_ok in H. destruct H as (s & H1 & H). apply bind_ok in H. destruct H as (r' & H2 & H). injection H as <-.
  constructor; [now apply one_ok|now apply IH].
Qed.
Lemma one_accepts step name sub dir : fine lookup as_int as_bool known_missing known_correction step sub dir name -> exists s, one_apply_cal (own step name) step sub dir = Ok s.
Proof.
  intros (V & n & uw & inv & c & H1 & H2 & H3 & H4 & H5 & H6). unfold ApplySetModel.one_apply_cal.
  assert (O : forall x, In x ["usemodeldata"; "interpolation"; "soltab"] -> lookup (own step name ++ x) = None) by (intros x I; apply V in I; rewrite given_fallback in I; destruct (lookup (own step name ++ x)); congruence).
  rewrite (proj2 (fallback_string step name "parmdb" "" _) eq_refl). cbn [bind]. rewrite (proj2 (fallback_string step name "solset" "" _) eq_refl). cbn [bind].
  rewrite (proj2 (fallback_as as_int step name _ _ _) H1). cbn [bind]. rewrite (proj2 (fallback_as as_bool step name _ _ _) H3). cbn [bind]. unfold get_as at 1. rewrite O by (cbn; auto). cbn [bind].
  destruct (Z.eqb_spec (n mod 2 ^ 32) 0) as [E|_]; [contradiction|]. rewrite (proj2 (fallback_string step name "direction" dir _) eq_refl). cbn [bind andb].
  assert (I : (if sub then Ok false else fallback lookup (fun k => get_as lookup as_bool k true) (own step name) step "invert") = Ok inv) by (destruct sub; [congruence|now apply fallback_as]). rewrite I. cbn [bind].
  set (db := text (given step name "parmdb") "") in *. destruct (has_h5 db).
  - destruct H5 as [H5 H7]. unfold h5_options, h5_tables. unfold fallback at 1. rewrite O by (cbn; auto). unfold get_string at 1. rewrite O by (cbn; auto). cbn [bind String.eqb Ascii.eqb Bool.eqb].
    rewrite (proj2 (fallback_string step name "missingantennabehavior" "error" _) eq_refl). cbn [bind]. rewrite H7. cbn [bind]. rewrite (proj2 (fallback_needed step name "correction" c) H5). cbn [bind].
    unfold get_as. rewrite O by (cbn; auto). cbn [bind]. destruct (c =? "fulljones") eqn:Ec; cbn [List.length Nat.eqb negb bind andb]; [|eexists; rewrite Ec; reflexivity]. rewrite Ec. apply String.eqb_eq in Ec.
    destruct uw, inv; cbn [andb negb]; try (eexists; reflexivity). now destruct H6.
  - destruct H5 as [H5 H7]. rewrite (proj2 (fallback_string step name "correction" "gain" _) eq_refl). cbn [bind]. rewrite <- H5, H7. cbn [bind]. destruct (c =? "fulljones") eqn:Ec; cbn [andb]; [|eexists; reflexivity]. apply String.eqb_eq in Ec.
    destruct uw, inv; cbn [andb negb]; try (eexists; reflexivity). now destruct H6.
Qed.
Lemma make_accepts step sub dir l : Forall (fine lookup as_int as_bool known_missing known_correction step sub dir) l -> exists r, make lookup as_int as_bool as_list known_missing known_correction step sub dir l = Ok r.
Proof.
  induction l as [|n l IH]; intros F; [eexists; reflexivity|]. apply Forall_cons_iff in F. destruct F as [F1 F2]. destruct (one_accepts _ _ _ _ F1) as [s E]. destruct (IH F2) as [r E2]. cbn [make]. unfold own in E. rewrite E. cbn [bind]. rewrite E2. eexists. reflexivity.
Qed.
End Parset.

(** Every substep has the settings that were given for it, else those of the step, else the defaults; the substeps are in the order of the names.  Without names there is one substep with the settings of the step.
    Missing from the full statement: interpolation, soltab and usemodeldata, for which it is false. *)
Theorem C82_inherited_partial lookup as_int as_bool as_list known_missing known_correction step sub dir r :
  apply_cal lookup as_int as_bool as_list known_missing known_correction step sub dir = Ok r ->
  r <> [] /\ exists l, Forall2 (inherits lookup as_int as_bool step sub dir) l r /\
    match lookup (step ++ "steps") with Some (String "["%char v) => as_list (String "["%char v) = Ok l | Some v => l = [v] | None => l = [""] end.
Proof.
  unfold apply_cal. intros H. apply bind_ok in H. destruct H as (l & H1 & H). apply bind_ok in H. destruct H as (r' & H2 & H). destruct r' as [|s r']; [discriminate|]. injection H as <-. split; [discriminate|]. exists l.
  apply make_ok in H2. split; [exact H2|]. unfold names in H1. apply bind_ok in H1. destruct H1 as (v & H1 & H3). unfold get_string in H1.
  destruct (lookup (step ++ "steps")) as [w|]; injection H1 as <-; [|now injection H3 as <-]. destruct w as [|[[|] [|] [|] [|] [|] [|] [|] [|]] w]; try exact H3; now injection H3 as <-.
Qed.
Print Assumptions C82_inherited_partial.

(** Fine values are accepted *)
Theorem C82_accepted lookup as_int as_bool as_list known_missing known_correction step sub dir l :
  match lookup (step ++ "steps") with Some (String "["%char v) => as_list (String "["%char v) = Ok l | Some v => l = [v] | None => l = [""] end -> l <> [] ->
  Forall (fine lookup as_int as_bool known_missing known_correction step sub dir) l -> exists r, apply_cal lookup as_int as_bool as_list known_missing known_correction step sub dir = Ok r.
Proof.
  intros H1 N F. destruct (make_accepts lookup as_int as_bool as_list known_missing known_correction step sub dir l F) as [r E]. exists r. unfold apply_cal.
  assert (X : match lookup (step ++ "steps") with Some v => match v with String "["%char _ => as_list v | _ => Ok [v] end | None => Ok [""] end = Ok l).
  { destruct (lookup (step ++ "steps")) as [w|]; [|congruence]. destruct w as [|[[|] [|] [|] [|] [|] [|] [|] [|]] w]; congruence. }
  assert (Y : names lookup as_list step = Ok l) by (unfold names, get_string; destruct (lookup (step ++ "steps")); exact X). rewrite Y. cbn [bind]. rewrite E. cbn [bind].
  destruct r; [|reflexivity]. destruct l as [|n l]; [congruence|]. cbn [make] in E. apply bind_ok in E. destruct E as (s & _ & E). apply bind_ok in E. destruct E as (r & _ & E). discriminate.
Qed.
Print Assumptions C82_accepted.

(** A parset: a list of keys and values *)
Definition table (l : list (string * string)) (k : string) : option string := match find (fun p => fst p =? k) l with Some p => Some (snd p) | None => None end.
(** Enough of the conversions for the examples *)
Definition bool_of (s : string) : outcome bool := if s =? "true" then Ok true else if s =? "false" then Ok false else Throw.
Definition list_of (s : string) : outcome (list string) := if s =? "[a,b]" then Ok ["a"; "b"] else if s =? "[a]" then Ok ["a"] else if s =? "[]" then Ok [] else if s =? "[x,y]" then Ok ["x"; "y"] else Throw.
Definition int_of (s : string) : outcome Z := if s =? "3" then Ok 3%Z else Throw.
Notation run l := (apply_cal (table l) int_of bool_of list_of (fun _ => true) (fun _ => true) "s." false "").

(** interpolation=linear for the step is not used by its substeps: these use nearest (steps/OneApplyCal.cc:104-107 asks twice for the value of the substep) *)
Theorem C82_interpolation_refuted : exists l r, run l = Ok r /\ given (table l) "s." "a" "interpolation" = Some "linear" /\ map (fun s => (has_h5 (parmdb s), linear s)) r = [(true, false)].
Proof. exists [("s.steps", "[a]"); ("s.parmdb", "f.h5"); ("s.correction", "phase000"); ("s.interpolation", "linear")]. eexists. split; [vm_compute; reflexivity|]. split; reflexivity. Qed.
Print Assumptions C82_interpolation_refuted.
(** soltab for the step is not used by its substeps: these use amplitude000 and phase000 (steps/OneApplyCal.cc:137-138) *)
Theorem C82_soltab_refuted : exists l r, run l = Ok r /\ given (table l) "s." "a" "soltab" = Some "[x,y]" /\ list_of "[x,y]" = Ok ["x"; "y"] /\ map soltab r = [["amplitude000"; "phase000"]].
Proof. exists [("s.steps", "[a]"); ("s.parmdb", "f.h5"); ("s.correction", "fulljones"); ("s.soltab", "[x,y]")]. eexists. split; [vm_compute; reflexivity|]. repeat split; reflexivity. Qed.
Print Assumptions C82_soltab_refuted.
(** usemodeldata=true for the step is not used by its substeps: these correct the data (steps/OneApplyCal.cc:64) *)
Theorem C82_usemodeldata_refuted : exists l r, run l = Ok r /\ given (table l) "s." "a" "usemodeldata" = Some "true" /\ bool_of "true" = Ok true /\ map use_model r = [false].
Proof. exists [("s.steps", "[a]"); ("s.parmdb", "f.h5"); ("s.correction", "phase000"); ("s.usemodeldata", "true")]. eexists. split; [vm_compute; reflexivity|]. repeat split; reflexivity. Qed.
Print Assumptions C82_usemodeldata_refuted.
(** steps=[], which the documentation gives as the default, is not the same as no steps: the first element of an empty list is used (steps/ApplyCal.cc:74) *)
Theorem C82_no_steps_refuted : exists l, run (("s.steps", "[]") :: l) = Undefined /\ exists r, run l = Ok r.
Proof. exists [("s.parmdb", "f.h5"); ("s.correction", "phase000")]. split; [reflexivity|]. eexists. vm_compute. reflexivity. Qed.
Print Assumptions C82_no_steps_refuted.

(** The example of the documentation, with an update of weights for one of the substeps *)
Example C82_run : let l := [("s.steps", "[a,b]"); ("s.parmdb", "f.h5"); ("s.correction", "phase000"); ("s.a.correction", "amplitude000"); ("s.timeslotsperparmupdate", "3"); ("s.b.updateweights", "true"); ("s.b.parmdb", "g")] in
  exists x y, run l = Ok [x; y] /\ (parmdb x, correction x, per_update x, update_weights x, inverts x) = ("f.h5", "amplitude000", 3%Z, false, true) /\ (parmdb y, correction y, per_update y, update_weights y, inverts y) = ("g", "phase000", 3%Z, true, true).
Proof. eexists; eexists; split; [vm_compute; reflexivity|]; split; reflexivity. Qed.
(** The values of that example are fine *)
Example C82_fine : let l := [("s.steps", "[a,b]"); ("s.parmdb", "f.h5"); ("s.correction", "phase000"); ("s.a.correction", "amplitude000"); ("s.timeslotsperparmupdate", "3"); ("s.b.updateweights", "true"); ("s.b.parmdb", "g")] in
  Forall (fine (table l) int_of bool_of (fun _ => true) (fun _ => true) "s." false "") ["a"; "b"].
Proof.
  repeat constructor.
  - intros x [E|[E|[E|[]]]]; subst x; reflexivity.
  - exists 3%Z, false, true, "amplitude000". repeat split; try reflexivity; try discriminate. now intros [E _].
  - intros x [E|[E|[E|[]]]]; subst x; reflexivity.
  - exists 3%Z, true, true, "phase000". repeat split; try reflexivity; try discriminate. now intros [E _].
Qed.
