(** C91: scaledata *)
From Coq Require Import Reals Ascii String List Bool Arith Lia Lra.
From Verif Require Import InfoModel InfoProofs AverageModel GainModel DdecalProofs BeamModel BeamProofs ScaleModel ScaleSpec.
Import ListNotations.
Open Scope nat_scope.

Lemma horner_rev l x : forall f, fold_left (fun fact c => fact * x + c)%R (rev l) f = (polynomial l x + f * x ^ length l)%R.
Proof.
  assert (P : forall a l, polynomial (a :: l) x = (a + x * polynomial l x)%R).
  { clear. intros a l. unfold polynomial. cbn [length seq map fold_right]. replace (nth 0 (a :: l) 0 * x ^ 0)%R with a by (cbn; ring). f_equal. rewrite <- seq_shift, map_map. generalize (seq 0 (length l)). intros m.
    induction m as [|k m IH]; cbn [map fold_right]; [ring|]. rewrite IH. cbn [nth pow]. ring. }
  induction l as [|a l IH]; intros f; [unfold polynomial; cbn; ring|]. cbn [rev]. rewrite fold_left_app, IH, P. cbn [fold_left length pow]. ring.
Qed.
Lemma horner_ok c f : c <> [] -> horner c f = Ok (polynomial c (f / 1000000)%R).
Proof.
  intros N. unfold horner. replace (10 ^ 6)%R with 1000000%R by (cbn; ring). set (x := (f / 1000000)%R).
  destruct (rev c) as [|a l] eqn:E; [apply (f_equal (@rev R)) in E; rewrite rev_involutive in E; contradiction|].
  f_equal. pose proof (horner_rev c x 0%R) as H. rewrite E in H. cbn [fold_left] in H. replace (0 * x + a)%R with a in H by ring. rewrite H. ring.
Qed.
Lemma count_ok fields : forall counts, Forall (fun f => fst f < length counts) fields ->
  exists r, count_elements fields counts = Ok r /\ length r = length counts /\ forall a, nth_error r a = option_map (fun c => c + in_use fields a) (nth_error counts a).
Proof.
  induction fields as [|[a n] fields IH]; intros counts F; cbn [count_elements].
  - exists counts. split; [reflexivity|]. split; [reflexivity|]. intros a. destruct nth_error; cbn; [now rewrite Nat.add_0_r|reflexivity].
  - apply Forall_cons_iff in F as [La F]. cbn [fst] in La. unfold get. destruct (nth_error counts a) as [c|] eqn:E; [|apply nth_error_None in E; lia]. cbn [bind].
    destruct (IH (set_nth counts a (c + n))) as (r & -> & L & H); [rewrite set_nth_length; exact F|]. rewrite set_nth_length in L. exists r. split; [reflexivity|]. split; [exact L|].
    intros b. rewrite H, set_nth_get. unfold in_use. cbn [filter map fst snd]. rewrite (Nat.eqb_sym a b). destruct (Nat.eqb_spec b a) as [->|Nb].
    + rewrite E. cbn. f_equal. lia.
    + reflexivity.
Qed.
Lemma lba_prefix set : String.eqb (substring 0 3 set) "LBA" = String.prefix "LBA" set.
Proof.
  destruct set as [|c1 set]; [reflexivity|]. cbn [substring String.prefix String.eqb]. destruct (Ascii.ascii_dec "L"%char c1) as [<-|N]; [|destruct (Ascii.eqb_spec c1 "L"%char); [congruence|reflexivity]].
  destruct set as [|c2 set]; [reflexivity|]. cbn [substring String.prefix String.eqb]. destruct (Ascii.ascii_dec "B"%char c2) as [<-|N]; [|destruct (Ascii.eqb_spec c2 "B"%char); [congruence|reflexivity]].
  destruct set as [|c3 set]; [reflexivity|]. cbn [substring String.prefix String.eqb]. destruct (Ascii.ascii_dec "A"%char c3) as [<-|N]; [|destruct (Ascii.eqb_spec c3 "A"%char); [congruence|reflexivity]].
  destruct set; reflexivity.
Qed.
Lemma size_ok set t : Forall (fun f => fst f < length (t_names t)) (t_fields t) ->
  exists e, size_factors (snd (defaults set)) (Some t) = Ok e /\ length e = length (t_names t) /\ forall a, a < length (t_names t) -> nth_error e a = Some (size set (t_fields t) a).
Proof.
  intros F. unfold size_factors. destruct (count_ok (t_fields t) (repeat 0 (length (t_names t)))) as (r & -> & L & H); [rewrite repeat_length; exact F|]. cbn [bind]. rewrite repeat_length in L.
  eexists. split; [reflexivity|]. split; [now rewrite map_length|]. intros a La. rewrite nth_error_map, H. rewrite nth_error_repeat by exact La. cbn [option_map Nat.add]. f_equal. unfold size.
  destruct (Nat.eqb_spec (in_use (t_fields t) a) 0) as [|Nz]; [reflexivity|]. f_equal. unfold nominal, is_lba, defaults.
  rewrite lba_prefix. assert (INR (in_use (t_fields t) a) <> 0%R) by now apply not_0_INR. destruct (String.prefix "LBA" set); cbn [snd]; replace (INR 48) with 48%R by (cbn; lra); replace (INR 24) with 24%R by (cbn; lra); field; assumption.
Qed.

Section Match.
Variable matches : string -> string -> bool.
Hypothesis star : forall name, matches "*" name = true.
Notation given := (given matches).
Notation with_size := (with_size matches).
Notation station := (station matches).
Notation update_info := (update_info matches).

Lemma first_ok (sts : list string) (coeffs : list (list R)) dflt name : length sts = length coeffs ->
  let g := option_map snd (find (fun x => matches (fst x) name) (combine sts coeffs)) in
  exists j, first_match matches (sts ++ ["*"%string]) name = Some j /\ nth_error (coeffs ++ [dflt]) j = Some (match g with Some l => l | None => dflt end) /\
    (j =? length sts) = match g with Some _ => false | None => true end.
Proof.
  revert coeffs. induction sts as [|p sts IH]; intros [|c coeffs] L; try discriminate; cbn.
  - exists 0. rewrite star. split; [reflexivity|]. split; reflexivity.
  - destruct (matches p name) eqn:E; cbn; [exists 0; split; [reflexivity|]; split; reflexivity|]. injection L as L. destruct (IH coeffs L) as (j & -> & H1 & H2). exists (S j). split; [reflexivity|]. split; [exact H1|exact H2].
Qed.
Lemma scales_ok freqs l : ~ In [] l -> each (pattern_scales freqs) l = Ok (map (fun c => map (fun f => polynomial c (f / 1000000)%R) freqs) l).
Proof.
  induction l as [|c l IH]; intros N; [reflexivity|]. cbn [each map]. cbn in N.
  assert (E : pattern_scales freqs c = Ok (map (fun f => polynomial c (f / 1000000)%R) freqs)).
  { unfold pattern_scales. destruct c as [|x c]; [exfalso; apply N; now left|]. set (c' := x :: c). assert (c' <> []) by discriminate. clearbody c'. clear - H. induction freqs as [|f freqs IH]; [reflexivity|]. cbn [each map]. rewrite horner_ok by exact H. cbn [bind]. rewrite IH. reflexivity. }
  rewrite E. cbn [bind]. rewrite IH by tauto. reflexivity.
Qed.
Lemma scales_throw freqs l : In [] l -> each (pattern_scales freqs) l = Throw.
Proof.
  induction l as [|c l IH]; [easy|]. intros [->|H]; [reflexivity|]. cbn [each]. destruct c as [|x c]; [reflexivity|]. cbn [pattern_scales].
  assert (E : exists r, each (horner (x :: c)) freqs = Ok r). { apply each_total. intros f _. exists (polynomial (x :: c) (f / 1000000)%R). apply horner_ok. discriminate. }
  destruct E as [r ->]. cbn [bind]. now rewrite IH.
Qed.
Lemma stations_ok c dflt freqs extra (ex : nat -> value) names : length (c_stations c) = length (c_coeffs c) -> (forall a, a < length extra -> nth_error extra a = Some (ex a)) ->
  forall i factors, length factors = i -> i + length names <= length extra ->
  exists r, station_factors matches (c_scalesize c) (c_stations c ++ ["*"%string]) (map (fun l => map (fun f => polynomial l (f / 1000000)%R) freqs) (c_coeffs c ++ [dflt])) extra i names factors = Ok (factors ++ r) /\
    length r = length names /\
    forall k name, nth_error names k = Some name -> nth_error r k = Some (map (fun f => let p := polynomial (match given c name with Some l => l | None => dflt end) (f / 1000000)%R in
      if with_size c name then vmul (Some p) (ex (i + k)) else Some p) freqs).
Proof.
  intros L X. induction names as [|name names IH]; intros i factors Lf Le; cbn [station_factors].
  - exists []. rewrite app_nil_r. split; [reflexivity|]. split; [reflexivity|]. intros [|k] name; discriminate.
  - destruct (first_ok (c_stations c) (c_coeffs c) dflt name L) as (j & -> & H1 & H2). fold (ScaleSpec.given matches c name) in H1, H2.
    unfold get at 1. rewrite nth_error_map, H1. cbn [option_map bind]. rewrite app_length. cbn [length]. rewrite Nat.add_sub.
    set (coeffs := match given c name with Some l => l | None => dflt end) in *. set (row := map (fun f => polynomial coeffs (f / 1000000)%R) freqs).
    assert (W : match c_scalesize c with Some b => b | None => j =? length (c_stations c) end = with_size c name). { unfold ScaleSpec.with_size. destruct (c_scalesize c); [reflexivity|]. rewrite H2. destruct (given c name); reflexivity. }
    rewrite W. cbn [length] in Le.
    set (row' := map (fun f => if with_size c name then vmul (Some (polynomial coeffs (f / 1000000)%R)) (ex i) else Some (polynomial coeffs (f / 1000000)%R)) freqs).
    match goal with |- context [bind ?o _] => assert (E : o = Ok (factors ++ [row'])) end.
    { unfold row', row. destruct (with_size c name).
      - unfold get. rewrite nth_error_app2 by lia. replace (i - length factors) with 0 by lia. cbn [nth_error bind]. rewrite X by lia. cbn [bind]. f_equal.
        apply nth_error_same. intros k. rewrite set_nth_get. destruct (Nat.eqb_spec k i) as [->|Nk].
        + rewrite !nth_error_app2 by lia. replace (i - length factors) with 0 by lia. cbn. rewrite !map_map. reflexivity.
        + destruct (Nat.lt_ge_cases k (length factors)); [rewrite !nth_error_app1 by lia; reflexivity|]. rewrite !nth_error_app2 by lia. destruct (k - length factors) as [|m] eqn:Em; [lia|]. cbn. reflexivity.
      - f_equal. f_equal. f_equal. rewrite map_map. reflexivity. }
    rewrite E. cbn [bind]. destruct (IH (S i) (factors ++ [row'])) as (r & Er & Lr & Hr); [rewrite app_length; cbn; lia|lia|].
    exists (row' :: r). rewrite Er. split; [rewrite <- app_assoc; reflexivity|]. split; [cbn; lia|]. intros [|k] nm Hk; cbn [nth_error] in *.
    + injection Hk as <-. unfold row'. rewrite Nat.add_0_r. reflexivity.
    + rewrite (Hr k nm Hk). rewrite Nat.add_succ_comm. reflexivity.
Qed.

Lemma vsqrt_root s1 s2 : is_root (vsqrt (vmul s1 s2)) s1 s2.
Proof. destruct s1 as [x|], s2 as [y|]; cbn; try reflexivity. destruct (Rle_dec 0 (x * y)) as [H|H]; [|reflexivity]. exists (sqrt (x * y)). split; [reflexivity|]. split; [apply sqrt_pos|now apply sqrt_sqrt]. Qed.
Lemma defaults_fst set : fst (defaults set) = default_coeffs set.
Proof. unfold defaults, default_coeffs, is_lba. rewrite lba_prefix. now destruct String.prefix. Qed.
Lemma default_not_nil set : default_coeffs set <> [].
Proof. unfold default_coeffs. destruct is_lba; discriminate. Qed.
(** The rows of LOFAR_ANTENNA_FIELD, if it is there *)
Definition fields_of (i : info) : list (nat * nat) := match i_table i with Some t => t_fields t | None => [] end.

Lemma extra_ok c i : valid i -> ~ refused c i -> exists e,
  match c_scalesize c with Some false => Ok (repeat (Some 1%R) (length (i_names i))) | _ => let! e := size_factors (snd (defaults (i_set i))) (i_table i) in if length e =? length (i_names i) then Ok e else Throw end = Ok e /\
  length e = length (i_names i) /\ (c_scalesize c <> Some false -> forall a, a < length e -> nth_error e a = Some (size (i_set i) (fields_of i) a)).
Proof.
  intros [_ V] N. destruct (c_scalesize c) as [[|]|] eqn:E; [| |].
  2: { eexists. split; [reflexivity|]. split; [apply repeat_length|]. congruence. }
  all: assert (T : exists t, i_table i = Some t /\ length (t_names t) = length (i_names i)) by
    (destruct (i_table i) as [t|] eqn:Et; [exists t; split; [reflexivity|]; destruct (Nat.eq_dec (length (t_names t)) (length (i_names i))); [assumption|]; exfalso; apply N; right; right; rewrite E, Et; split; [discriminate|assumption]
    | exfalso; apply N; right; right; rewrite E, Et; split; [discriminate|exact I]]); destruct T as (t & Et & Lt);
    unfold fields_of; rewrite Et in *; destruct (size_ok (i_set i) t V) as (e & -> & Le & He); cbn [bind]; exists e; replace (length e =? length (i_names i)) with true by (symmetry; apply Nat.eqb_eq; congruence);
    (split; [reflexivity|]); (split; [congruence|]); intros _ a La; apply He; congruence.
Qed.
(** Without anything to refuse, the factor of every baseline, channel and correlation is the root of the product of the factors of the two stations *)
Theorem C91_factors c i : valid i -> ~ refused c i -> exists factors, update_info c i = Ok factors /\ length factors = length (i_baselines i) /\
  forall b a1 a2, nth_error (i_baselines i) b = Some (a1, a2) -> exists fb, nth_error factors b = Some fb /\ length fb = length (i_freqs i) /\
  forall j freq, nth_error (i_freqs i) j = Some freq -> exists fj, nth_error fb j = Some fj /\ length fj = i_ncorr i /\
  forall k x, nth_error fj k = Some x -> is_root x (station c i (fields_of i) a1 freq) (station c i (fields_of i) a2 freq).
Proof.
  intros V N. assert (L : length (c_stations c) = length (c_coeffs c)). { destruct (Nat.eq_dec (length (c_stations c)) (length (c_coeffs c))); [assumption|]. exfalso. apply N. now left. }
  assert (Ne : ~ In [] (c_coeffs c ++ [default_coeffs (i_set i)])). { rewrite in_app_iff. intros [H|[H|[]]]; [apply N; right; now left|now apply (default_not_nil (i_set i))]. }
  unfold ScaleModel.update_info. rewrite (proj2 (Nat.eqb_eq _ _) L). cbn [negb]. pose proof (defaults_fst (i_set i)) as Df. destruct (extra_ok c i V N) as (e & Ee & Le & He).
  destruct (defaults (i_set i)) as [coeffs nominal]. cbn [fst snd] in *. subst coeffs. rewrite scales_ok by exact Ne. cbn [bind]. rewrite Ee. cbn [bind].
  set (ex := fun a => match nth_error e a with Some x => x | None => None end).
  destruct (stations_ok c (default_coeffs (i_set i)) (i_freqs i) e ex (i_names i) L) with (i := 0) (factors := @nil (list value)) as (r & -> & Lr & Hr); [|reflexivity|cbn; lia|].
  { intros a La. unfold ex. destruct (nth_error e a) eqn:E; [reflexivity|]. apply nth_error_None in E. lia. }
  cbn [app bind]. unfold baseline_factors.
  assert (Row : forall a, a < length (i_names i) -> nth_error r a = Some (map (station c i (fields_of i) a) (i_freqs i))).
  { intros a La. destruct (nth_error (i_names i) a) as [name|] eqn:En; [|apply nth_error_None in En; lia]. rewrite (Hr a name En). f_equal. apply map_ext. intros f. unfold ScaleSpec.station. rewrite (nth_error_nth _ _ ""%string En).
    cbv zeta. cbn [Nat.add]. destruct (with_size c name) eqn:W; [|reflexivity]. unfold ex. assert (Ns : c_scalesize c <> Some false) by (intros X; unfold ScaleSpec.with_size in W; rewrite X in W; discriminate).
    rewrite (He Ns) by lia. reflexivity. }
  assert (T : forall ab, In ab (i_baselines i) -> (let! f1 := get r (fst ab) in let! f2 := get r (snd ab) in each (fun j => let! x := get f1 j in let! y := get f2 j in Ok (repeat (vsqrt (vmul x y)) (i_ncorr i))) (seq 0 (length (i_freqs i)))) =
    Ok (map (fun freq => repeat (vsqrt (vmul (station c i (fields_of i) (fst ab) freq) (station c i (fields_of i) (snd ab) freq))) (i_ncorr i)) (i_freqs i))).
  { intros ab H. destruct V as [V _]. rewrite Forall_forall in V. destruct (V ab H) as [V1 V2]. unfold get at 1 2. rewrite (Row _ V1), (Row _ V2). cbn [bind].
    apply each_ok. clear. assert (G : forall (l : list R) (f g : R -> value), Forall2 (fun j y => (let! x := get (map f l) j in let! y0 := get (map g l) j in Ok (repeat (vsqrt (vmul x y0)) (i_ncorr i))) = Ok y) (seq 0 (length l)) (map (fun q => repeat (vsqrt (vmul (f q) (g q))) (i_ncorr i)) l)).
    { intros l f g. assert (G : forall m k, Forall2 (fun j y => (let! x := get (map f (m ++ l)) j in let! y0 := get (map g (m ++ l)) j in Ok (repeat (vsqrt (vmul x y0)) (i_ncorr i))) = Ok y) (seq (length m) (length l)) (map (fun q => repeat (vsqrt (vmul (f q) (g q))) (i_ncorr i)) l) \/ k = 0).
      { induction l as [|q l IH]; intros m k; left; [constructor|]. cbn [length seq map]. constructor.
        - unfold get. rewrite !nth_error_map, !nth_error_app2 by lia. rewrite Nat.sub_diag. reflexivity.
        - destruct (IH (m ++ [q]) 1) as [H|H]; [|discriminate]. rewrite app_length in H. cbn [length] in H. rewrite Nat.add_1_r in H. rewrite <- app_assoc in H. exact H. }
      destruct (G [] 1) as [H|H]; [exact H|discriminate]. }
    apply G. }
  assert (Ea : exists factors, each (fun ab => let! f1 := get r (fst ab) in let! f2 := get r (snd ab) in each (fun j => let! x := get f1 j in let! y := get f2 j in Ok (repeat (vsqrt (vmul x y)) (i_ncorr i))) (seq 0 (length (i_freqs i)))) (i_baselines i) = Ok factors).
  { apply each_total. intros ab H. rewrite (T ab H). eauto. }
  destruct Ea as [factors Ef]. exists factors. split; [exact Ef|]. apply each_ok in Ef. split; [symmetry; eapply Forall2_length; exact Ef|].
  intros b a1 a2 Hb. destruct (Forall2_nth _ _ _ Ef b (a1, a2) Hb) as (fb & Hfb & Efb). rewrite T in Efb by (eapply nth_error_In; exact Hb). injection Efb as <-. cbn [fst snd] in Hfb. eexists. split; [exact Hfb|].
  split; [apply map_length|]. intros j freq Hj. rewrite nth_error_map, Hj. cbn [option_map]. eexists. split; [reflexivity|]. split; [apply repeat_length|]. intros k x Hx. apply nth_error_In, repeat_spec in Hx. subst x. apply vsqrt_root.
Qed.
(** What is refused *)
Theorem C91_refused c i : valid i -> (update_info c i = Throw <-> refused c i).
Proof.
  intros V. split.
  - intros H. destruct (Nat.eq_dec (length (c_stations c)) (length (c_coeffs c))) as [L|L]; [|now left]. destruct (in_dec (list_eq_dec Req_EM_T) [] (c_coeffs c)) as [I|I]; [right; now left|].
    assert (D : refused c i \/ ~ refused c i).
    { assert (D1 : {c_scalesize c = Some false} + {c_scalesize c <> Some false}) by (decide equality; apply bool_dec).
      destruct D1 as [D1|D1]; [right; intros [X|[X|[X _]]]; contradiction|]. destruct (i_table i) as [t|] eqn:Et; [|left; right; right; rewrite Et; tauto].
      destruct (Nat.eq_dec (length (t_names t)) (length (i_names i))) as [E|E]; [right; intros [X|[X|[_ X]]]; try contradiction; rewrite Et in X; contradiction|left; right; right; rewrite Et; tauto]. }
    destruct D as [D|D]; [exact D|]. destruct (C91_factors c i V D) as (f & E & _). congruence.
  - intros R. unfold ScaleModel.update_info. destruct (Nat.eqb_spec (length (c_stations c)) (length (c_coeffs c))) as [L|L]; [|reflexivity]. cbn [negb]. pose proof (defaults_fst (i_set i)) as Df.
    destruct R as [R|[R|[S R]]]; [contradiction| |].
    + destruct (defaults (i_set i)) as [coeffs nominal]. rewrite scales_throw; [reflexivity|]. apply in_app_iff. now left.
    + destruct (in_dec (list_eq_dec Req_EM_T) [] (c_coeffs c)) as [I|I]; [destruct (defaults (i_set i)) as [coeffs nominal]; rewrite scales_throw; [reflexivity|]; apply in_app_iff; now left|].
      assert (Ne : ~ In [] (c_coeffs c ++ [default_coeffs (i_set i)])). { rewrite in_app_iff. intros [H|[H|[]]]; [contradiction|now apply (default_not_nil (i_set i))]. }
      destruct V as [_ V]. destruct (defaults (i_set i)) as [coeffs nominal] eqn:Ed. cbn [fst] in Df. subst coeffs. rewrite scales_ok by exact Ne. cbn [bind].
      assert (X : (let! e := size_factors nominal (i_table i) in if length e =? length (i_names i) then Ok e else Throw) = Throw).
      { destruct (i_table i) as [t|]; [|reflexivity]. destruct (size_ok (i_set i) t V) as (e & Ee & Le & _). rewrite Ed in Ee. cbn [snd] in Ee. rewrite Ee. cbn [bind]. rewrite Le. now rewrite (proj2 (Nat.eqb_neq _ _) R). }
      destruct (c_scalesize c) as [[|]|]; [|contradiction|]; rewrite X; reflexivity.
Qed.
End Match.
Print Assumptions C91_factors. Print Assumptions C91_refused.

(** ** The data *)

Section Process.
Context {V : Type}.
Variable scale : value -> V -> V.
(** Every visibility is multiplied by the factor of its baseline, channel and correlation *)
Theorem C91_process factors data b j k : 
  match nth_error (process scale factors data) b with Some x => match nth_error x j with Some y => nth_error y k | None => None end | None => None end =
  match nth_error factors b, nth_error data b with
  | Some fb, Some db => match nth_error fb j, nth_error db j with
    | Some fj, Some dj => match nth_error fj k, nth_error dj k with Some f, Some v => Some (scale f v) | _, _ => None end
    | _, _ => None end
  | _, _ => None end.
Proof.
  unfold process. rewrite nth_error_map, combine_nth_error. destruct (nth_error factors b) as [fb|]; [|reflexivity]. destruct (nth_error data b) as [db|]; [|reflexivity]. cbn [option_map fst snd].
  rewrite nth_error_map, combine_nth_error. destruct (nth_error fb j) as [fj|]; [|reflexivity]. destruct (nth_error db j) as [dj|]; [|reflexivity]. cbn [option_map fst snd].
  rewrite nth_error_map, combine_nth_error. destruct (nth_error fj k), (nth_error dj k); reflexivity.
Qed.
(** BDA data whose rows all have as many channels as there are factors: every row is multiplied by the factors of its baseline *)
Theorem C91_bda factors rows : Forall (fun r => exists f, nth_error factors (fst r) = Some f /\ length (concat f) = length (snd r)) rows ->
  exists rows', process_bda scale factors rows = Ok rows' /\ length rows' = length rows /\
  forall n b d, nth_error rows n = Some (b, d) -> exists d' f, nth_error rows' n = Some (b, d') /\ nth_error factors b = Some f /\ length d' = length d /\
    forall k v, nth_error d k = Some v -> exists x, nth_error (concat f) k = Some x /\ nth_error d' k = Some (scale x v).
Proof.
  induction rows as [|[b d] rows IH]; intros F; unfold process_bda; cbn [each].
  - exists []. split; [reflexivity|]. split; [reflexivity|]. intros [|n] b d; discriminate.
  - apply Forall_cons_iff in F as [(f & Hf & Lf) F]. cbn [fst snd] in Hf, Lf. destruct (IH F) as (r & Er & Lr & Hr). unfold process_bda in Er. unfold get at 1. cbn [fst snd]. rewrite Hf. cbn [bind].
    rewrite (proj2 (Nat.eqb_eq _ _) Lf). cbn [bind]. unfold get in Er. unfold get. rewrite Er. cbn [bind]. eexists. split; [reflexivity|]. split; [cbn; lia|]. intros [|n] b' d' Hn; cbn [nth_error] in *.
    + injection Hn as <- <-. eexists _, f. split; [reflexivity|]. split; [exact Hf|]. split; [rewrite map_length, combine_length; lia|]. intros k v Hv.
      assert (Lk : k < length (concat f)). { rewrite Lf. apply nth_error_Some. congruence. } destruct (nth_error (concat f) k) as [x|] eqn:Ex; [|apply nth_error_None in Ex; lia].
      exists x. split; [reflexivity|]. rewrite nth_error_map, combine_nth_error, Ex, Hv. reflexivity.
    + destruct (Hr n b' d' Hn) as (d2 & f2 & H). exists d2, f2. exact H.
Qed.
End Process.
(** Rows of baselines that are averaged in frequency have fewer channels than the factors, which are those of the channels of the first baseline for all *)
Theorem C91_bda_refuted : exists matches c i factors, (forall name, matches "*"%string name = true) /\ valid i /\ ~ refused c i /\ update_info matches c i = Ok factors /\
  process_bda (V := unit) (fun _ v => v) factors [(1, [tt])] = Undefined.
Proof.
  set (matches := fun _ _ : string => true). set (c := Config ["*"%string] [[1%R]] (Some false)). set (i := Info "LBA_INNER" ["A"; "B"]%string [1%R; 2%R] [(0, 0); (0, 1)] 1 None).
  assert (V : valid i) by (split; [repeat constructor|exact I]). assert (N : ~ refused c i) by (intros [H|[[H|[]]|[H _]]]; [now apply H|discriminate|now apply H]).
  destruct (C91_factors matches (fun _ => eq_refl) c i V N) as (f & E & L & H). exists matches, c, i, f. split; [reflexivity|]. split; [exact V|]. split; [exact N|]. split; [exact E|].
  destruct (H 1 0 1 eq_refl) as (fb & Hb & Lb & Hj). unfold process_bda. cbn [each fst snd]. unfold get. rewrite Hb. cbn [bind]. cbn in Lb.
  destruct fb as [|x [|y [|z fb]]]; try discriminate. destruct (Hj 0 1%R eq_refl) as (fj & Hf & Lf & _), (Hj 1 2%R eq_refl) as (gj & Hg & Lg & _). cbn in Hf, Hg. injection Hf as ->. injection Hg as ->.
  cbn [concat]. rewrite !app_length. cbn in Lf, Lg. rewrite Lf, Lg. reflexivity.
Qed.
(** A station without any tile in use gets an infinite factor *)
Theorem C91_no_tiles_refuted : exists matches c i factors, (forall name, matches "*"%string name = true) /\ valid i /\ ~ refused c i /\ update_info matches c i = Ok factors /\
  exists fb fj, nth_error factors 0 = Some fb /\ nth_error fb 0 = Some fj /\ nth_error fj 0 = Some None.
Proof.
  set (matches := fun p _ : string => String.eqb p "*"). set (c := Config [] [] None). set (i := Info "LBA_INNER" ["A"; "B"]%string [1%R] [(0, 1)] 1 (Some (Table ["A"; "B"]%string [(0, 96); (1, 0)]))).
  assert (V : valid i) by (split; repeat constructor). assert (N : ~ refused c i) by (intros [H|[[]|[_ H]]]; now apply H).
  destruct (C91_factors matches (fun _ => eq_refl) c i V N) as (f & E & L & H). exists matches, c, i, f. split; [reflexivity|]. split; [exact V|]. split; [exact N|]. split; [exact E|].
  destruct (H 0 0 1 eq_refl) as (fb & Hb & Lb & Hj). destruct (Hj 0 1%R eq_refl) as (fj & Hf & Lf & Hk). exists fb, fj. split; [exact Hb|]. split; [exact Hf|]. cbn in Lf. destruct fj as [|x fj]; [discriminate|]. cbn. f_equal.
  specialize (Hk 0 x eq_refl). unfold station in Hk. cbn in Hk. exact Hk.
Qed.
(** The sizes are taken by number from the antennas of the measurement set: if a station has been left out and another one added, a station gets the size of another one *)
Theorem C91_renumbered_refuted : exists matches c i t factors, (forall name, matches "*"%string name = true) /\ valid i /\ ~ refused c i /\ i_table i = Some t /\ update_info matches c i = Ok factors /\
  nth_error (i_names i) 0 = Some "B"%string /\ nth_error (t_names t) 1 = Some "B"%string /\
  exists fb fj x, nth_error factors 0 = Some fb /\ nth_error fb 0 = Some fj /\ nth_error fj 0 = Some (Some x) /\ x <> 2%R /\ size "LBA_INNER" (t_fields t) 1 = Some 2%R /\ c_coeffs c = [[1%R]] /\ c_scalesize c = Some true.
Proof.
  set (matches := fun _ _ : string => true). set (c := Config ["*"%string] [[1%R]] (Some true)). set (t := Table ["A"; "B"]%string [(0, 96); (1, 48)]).
  set (i := Info "LBA_INNER" ["B"; "new"]%string [1%R] [(0, 0)] 1 (Some t)).
  assert (V : valid i) by (split; repeat constructor). assert (N : ~ refused c i) by (intros [H|[[H|[]]|[_ H]]]; [now apply H|discriminate|now apply H]).
  destruct (C91_factors matches (fun _ => eq_refl) c i V N) as (f & E & L & H). exists matches, c, i, t, f. split; [reflexivity|]. split; [exact V|]. split; [exact N|]. split; [reflexivity|]. split; [exact E|]. split; [reflexivity|]. split; [reflexivity|].
  destruct (H 0 0 0 eq_refl) as (fb & Hb & Lb & Hj). destruct (Hj 0 1%R eq_refl) as (fj & Hf & Lf & Hk). cbn in Lf. destruct fj as [|x fj]; [discriminate|]. specialize (Hk 0 x eq_refl).
  assert (S0 : station matches c i (fields_of i) 0 1 = Some 1%R). { unfold station, size, polynomial. cbn -[INR Rdiv]. f_equal. replace (INR 96) with 96%R by (rewrite INR_IZR_INZ; reflexivity). field. }
  rewrite S0 in Hk. cbn in Hk. destruct (Rle_dec 0 (1 * 1)) as [_|X]; [|exfalso; apply X; lra]. destruct Hk as (r & -> & R0 & R1). exists fb, (Some r :: fj), r. split; [exact Hb|]. split; [exact Hf|]. split; [reflexivity|].
  split; [intros ->; lra|]. split; [|split; reflexivity]. unfold size. cbn -[INR Rdiv]. f_equal. replace (INR 48) with 48%R by (rewrite INR_IZR_INZ; reflexivity). field.
Qed.
Print Assumptions C91_process. Print Assumptions C91_bda. Print Assumptions C91_bda_refuted. Print Assumptions C91_no_tiles_refuted. Print Assumptions C91_renumbered_refuted.

(** ** Cases *)

(** Coefficients of the first pattern that matches, for the frequency in MHz; two stations *)
Example C91_factors_case : let matches := fun p n : string => String.eqb p "*" || String.prefix p n in let c := Config ["CS"; "*"]%string [[1; 2]; [8]]%R None in
  let i := Info "HBA_DUAL" ["CS001"; "RS106"]%string [500000%R; 3500000%R] [(0, 1)] 4 (Some (Table ["CS001"; "RS106"]%string [(0, 48); (1, 96)])) in
  (forall name, matches "*"%string name = true) /\ valid i /\ ~ refused c i /\ station matches c i (fields_of i) 0 3500000 = Some 8%R /\ station matches c i (fields_of i) 0 500000 = Some 2%R /\
  station matches c i (fields_of i) 1 500000 = Some 8%R /\ is_root (Some 4%R) (Some 2%R) (Some 8%R).
Proof.
  cbv zeta. split; [reflexivity|]. split; [split; repeat constructor|]. split; [intros [H|[[H|[H|[]]]|[_ H]]]; [now apply H|discriminate|discriminate|now apply H]|]. unfold station, polynomial. cbn -[Rdiv Rmult].
  split; [f_equal; field|]. split; [f_equal; field|]. split; [f_equal; field|]. destruct (Rle_dec 0 (2 * 8)) as [_|X]; [|exfalso; apply X; lra]. exists 4%R. split; [reflexivity|]. lra.
Qed.
(** Half of the nominal number of tiles gives twice the factor, only for a station with the default coefficients *)
Example C91_size_case : let matches := fun p n : string => String.eqb p "*" || String.prefix p n in let c := Config ["CS"]%string [[1]]%R None in
  size "HBA_DUAL" [(0, 12); (0, 12); (1, 96)] 0 = Some 2%R /\ with_size matches c "CS001" = false /\ with_size matches c "RS106" = true /\ with_size matches (Config ["CS"]%string [[1]]%R (Some true)) "CS001" = true.
Proof. cbv zeta. split; [|repeat split; reflexivity]. unfold size. cbn -[INR Rdiv]. f_equal. replace (INR 24) with 24%R by (rewrite INR_IZR_INZ; reflexivity). unfold nominal. cbn. field. Qed.
Example C91_process_case : process (V := nat) (fun f v => match f with Some _ => v + 1 | None => v end) [[[Some 1%R; None]]] [[[5; 6]]] = [[[6; 6]]].
Proof. reflexivity. Qed.
Example C91_bda_case : process_bda (V := nat) (fun f v => match f with Some _ => v + 1 | None => v end) [[[None; None]]; [[Some 1%R; None]]] [(1, [5; 6]); (0, [7; 8])] = Ok [(1, [6; 6]); (0, [7; 8])].
Proof. reflexivity. Qed.
Example C91_refused_case : update_info (fun _ _ => true) (Config ["*"%string] [[]] (Some false)) (Info "LBA" [] [] [] 4 None) = Throw /\ update_info (fun _ _ => true) (Config [] [] None) (Info "LBA" [] [] [] 4 None) = Throw.
Proof. split; reflexivity. Qed.
