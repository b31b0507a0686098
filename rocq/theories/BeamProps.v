(** C89: ApplyBeam changes every visibility by the beams of its own two antennas, and what is told about the beam is true of the data. *)
From Coq Require Import String List Bool Arith QArith Qcanon Lia.
From Verif Require Import QcUtil Cplx AverageModel GainModel ApplyCalModel BeamModel BeamSpec BeamProofs.
Import ListNotations.
Open Scope nat_scope.

(** The stations of the antennas are found if these are in the order of the telescope, which may have more of them; else there is an exception *)
Theorem C89_stations : forall t wanted, homogeneous t = false -> NoDup (station_names t) ->
  (part_of wanted (station_names t) -> select_stations t wanted = Ok (map (fun n => place n (station_names t)) wanted)) /\
  (~ part_of wanted (station_names t) -> select_stations t wanted = Throw).
Proof.
  intros t wanted Hh D. unfold select_stations. rewrite Hh. destruct (select_loop 0 (station_names t) wanted) as [l w] eqn:E. split; intros P.
  - pose proof (loop_complete _ 0 _ P) as Q. rewrite E in Q. cbn in Q. subst w. f_equal. apply loop_found in E as [L E]. clear P.
    apply nth_ext with (d := 0) (d' := 0); [now rewrite map_length|]. intros k Hk. rewrite L in Hk. destruct (nth_error wanted k) as [n|] eqn:En; [|apply nth_error_None in En; lia].
    destruct (E _ _ En) as (j & A & B). rewrite (nth_error_nth _ _ _ A). symmetry. apply nth_error_nth. rewrite nth_error_map, En. cbn. now rewrite (place_nth _ _ _ D B).
  - destruct w; [|reflexivity]. exfalso. apply P. eapply loop_part; eauto.
Qed.
Print Assumptions C89_stations.
Example C89_stations_example : select_stations (Tel false ["a"; "b"; "c"]%string) ["a"; "c"]%string = Ok [0; 2] /\ select_stations (Tel false ["a"; "b"; "c"]%string) ["c"; "a"]%string = Throw.
Proof. split; reflexivity. Qed.

Lemma mode_eqb_spec a b : mode_eqb a b = true <-> a = b.
Proof. destruct a, b; cbn; split; congruence. Qed.
(** The data can be given back their beam only if they have been corrected for that beam; and the beam of data can be corrected always *)
Theorem C89_refused : forall s d i, 
  (invert s = true -> exists x, correction s d i = Ok x) /\
  (invert s = false -> use_model s = false ->
    ((exists x, correction s d i = Ok x) <-> i_mode i <> NoBeam /\ i_mode i = s_mode s /\ close (i_dir i) d = true) /\
    (correction s d i = Throw \/ exists out x, correction s d i = Ok (out, x) /\ i_mode out = NoBeam)).
Proof.
  intros s d i. unfold correction. split; [intros ->; eauto|]. intros -> ->. pose proof (mode_eqb_spec (i_mode i) NoBeam) as A. pose proof (mode_eqb_spec (i_mode i) (s_mode s)) as B.
  destruct (mode_eqb (i_mode i) NoBeam); [split; [|auto]; split; [intros [x E]; discriminate|intros (N & _); exfalso; apply N, A; reflexivity]|].
  destruct (mode_eqb (i_mode i) (s_mode s)); cbn; [|split; [|auto]; split; [intros [x E]; discriminate|intros (_ & N & _); apply B in N; discriminate]].
  destruct (close (i_dir i) d); cbn; [|split; [|auto]; split; [intros [x E]; discriminate|intros (_ & _ & N); discriminate]].
  split; [|right; eauto]. split; [intros _|eauto]. split; [intros N; apply A in N; discriminate|]. split; [now apply B|reflexivity].
Qed.
Print Assumptions C89_refused.
Example C89_refused_example : let i m := Info [] [] [] (0, 0)%Qc m (0, 0)%Qc [] in let s := Set_ false false None [] Full false in
  correction s (0, 0)%Qc (i ArrayFactor) = Throw /\ correction s (0, 1)%Qc (i Full) = Throw /\ correction s (0, 0)%Qc (i Full) <> Throw.
Proof. cbn. repeat split; try reflexivity. vm_compute. discriminate. Qed.

Lemma skipped_ok t l : homogeneous t = false -> forall js, select_skipped t l = Ok js -> Forall2 (fun n j => nth_error (station_names t) j = Some n) l js.
Proof.
  intros Hh. induction l as [|n l IH]; cbn; intros js H; [injection H as <-; constructor|]. apply bind_ok in H as (i & Ei & H). apply bind_ok in H as (j & Ej & H).
  apply bind_ok in H as (js' & El & H). injection H as <-. constructor; [|auto]. apply get_ok in Ej. apply select_ok in Ei as [[E _]|(_ & _ & Ei)]; [congruence|].
  destruct (Ei 0 n eq_refl) as (j' & A & B). rewrite Ej in A. injection A as <-. exact B.
Qed.
Lemma update_info_ok t s i e out : update_info t s i = Ok (e, out) -> select_stations t (names i) = Ok (indices e) /\ select_skipped t (skip s) = Ok (skipped e) /\
  e_dir e = match direction s with None => centre i | Some d => d end /\ correction s (e_dir e) i = Ok (out, (start_mode e, start_dir e)).
Proof.
  unfold update_info. destruct (use_model s && _); [discriminate|]. intros H. apply bind_ok in H as ([o [m sd]] & E1 & H). apply bind_ok in H as (ind & E2 & H).
  apply bind_ok in H as (sk & E3 & H). injection H as <- <-. cbn. auto.
Qed.
Lemma correction_same s d i out m sd : correction s d i = Ok (out, (m, sd)) -> names out = names i /\ baselines out = baselines i /\ freqs out = freqs i /\ centre out = centre i /\ models out = models i.
Proof.
  unfold correction. destruct (invert s); [intros E; injection E as <- _ _; auto|]. destruct (use_model s); [intros E; injection E as <- _ _; auto|].
  destruct (mode_eqb (i_mode i) NoBeam); [discriminate|]. destruct (negb _); [discriminate|]. destruct (negb _); [discriminate|]. intros E. injection E as <- _ _. auto.
Qed.

Section Response.
Variable response : Qc -> mode -> nat -> Qc -> dir -> mat.
Notation beam := (beam response).
Notation beam_but := (beam_but response).

Lemma factor_value t s i e time d inv m f a : NoDup (station_names t) -> select_skipped t (skip s) = Ok (skipped e) ->
  skip s = [] \/ homogeneous t = false /\ names i = station_names t -> a < length (names i) ->
  factor response t i e time d inv m f a =
    if mode_eqb m NoBeam then Ok unity else if existsb (String.eqb (nth a (names i) EmptyString)) (skip s) then Ok unity
    else if inv then inverse m (beam t i time m d f a) else Ok (beam t i time m d f a).
Proof.
  intros D S C La.
  assert (E : existsb (Nat.eqb (number_of t a)) (skipped e) = existsb (String.eqb (nth a (names i) EmptyString)) (skip s)).
  { destruct C as [C|[Hh Hn]]; [rewrite C in *; cbn in *; injection S as <-; reflexivity|]. unfold number_of. rewrite Hh. pose proof (skipped_ok _ _ Hh _ S) as F. clear S. rewrite Hn in *.
    induction F as [|n j l js Hj F IH]; cbn; [reflexivity|]. f_equal; [|exact IH].
    destruct (Nat.eqb_spec a j) as [->|N].
    - rewrite (nth_error_nth _ _ _ Hj). symmetry. apply String.eqb_refl.
    - symmetry. apply String.eqb_neq. intros E. apply N. destruct (nth_error (station_names t) a) as [n'|] eqn:Ea; [|apply nth_error_None in Ea; lia].
      rewrite (nth_error_nth _ _ _ Ea) in E. subst n'. eapply (NoDup_nth_error (station_names t)); eauto. congruence. }
  unfold factor, beam_value. rewrite E. unfold BeamSpec.beam, station_of. destruct m; cbn; reflexivity.
Qed.

(** What is asked of a step: no stations are skipped, or there are beams of exactly the antennas *)
Definition plain (t : telescope) (s : settings) (i : info) : Prop := skip s = [] \/ homogeneous t = false /\ names i = station_names t.

(** A step that corrects for the beam gives what, seen through the new beam, is what was there, seen through the old beam if there was one.  A step that puts the beam back gives what is seen
    through it.  Weights change only if asked for, and named visibilities not at all. *)
Theorem C89_apply : forall t s i e out time data named data' named', NoDup (station_names t) -> valid i -> fits i data -> plain t s i -> use_model s = false ->
  (forall st f, In f (freqs i) -> regular (s_mode s) (response time (s_mode s) st f (e_dir e))) ->
  update_info t s i = Ok (e, out) -> process response s e out time (data, named) = Ok (data', named') ->
  named' = named /\ fits i data' /\
  forall b c p q f, nth_error (baselines i) b = Some (p, q) -> nth_error (freqs i) c = Some f -> exists v w v' w', at_cell data b c = Some (v, w) /\ at_cell data' b c = Some (v', w') /\
    (update s = false -> w' = w) /\
    let now a := beam_but (skip s) t i time (s_mode s) (e_dir e) f a in let before a := beam_but (skip s) t i time (i_mode i) (i_dir i) f a in
    if invert s then through (now p) v' (now q) = through (before p) v (before q) else v' = through (now p) v (now q).
Proof.
  intros t s i e out time data named data' named' D V F P U R Hu H. apply update_info_ok in Hu as (Hs & Hk & Hd & Hc).
  pose proof (correction_same _ _ _ _ _ _ Hc) as (En & Eb & Ef & _ & _). unfold process in H. rewrite U in H. apply bind_ok in H as (dd & Hp & H). injection H as <- <-. split; [reflexivity|].
  assert (Vo : valid out) by (unfold valid in *; now rewrite En, Eb). assert (Fo : fits out data) by (unfold fits in *; now rewrite Eb, Ef).
  assert (So : select_stations t (names out) = Ok (indices e)) by (now rewrite En).
  assert (Fe : forall T (x : list (list T)), fits out x -> fits i x) by (intros T x; unfold fits; now rewrite Eb, Ef).
  assert (La : forall b p q, nth_error (baselines i) b = Some (p, q) -> p < length (names i) /\ q < length (names i)).
  { intros b p q Hb. unfold valid in V. rewrite Forall_forall in V. apply (V (p, q)). eapply nth_error_In; eauto. }
  assert (Fv : forall d inv m f a, a < length (names i) -> factor response t out e time d inv m f a =
    if mode_eqb m NoBeam then Ok unity else if existsb (String.eqb (nth a (names i) EmptyString)) (skip s) then Ok unity
    else if inv then inverse m (beam t i time m d f a) else Ok (beam t i time m d f a)).
  { intros d inv m f a L. rewrite <- (factor_value t s i e time d inv m f a D Hk P L). unfold factor, station_of. now rewrite En. }
  assert (Ex : forall b c p q f, nth_error (baselines i) b = Some (p, q) -> nth_error (freqs i) c = Some f -> exists x, at_cell data b c = Some x).
  { intros b c p q f Hb Hf. destruct F as [F1 F2]. unfold at_cell. destruct (nth_error data b) as [row|] eqn:Er.
    2: { apply nth_error_None in Er. assert (b < length (baselines i)) by (apply nth_error_Some; congruence). lia. }
    rewrite Forall_forall in F2. pose proof (F2 row (nth_error_In _ _ Er)) as L. destruct (nth_error row c) as [x|] eqn:Ec; [eauto|].
    apply nth_error_None in Ec. assert (c < length (freqs i)) by (apply nth_error_Some; congruence). lia. }
  assert (Fwd : forall d m f a, a < length (names i) -> factor response t out e time d false m f a = Ok (beam_but (skip s) t i time m d f a)).
  { intros d m f a L. rewrite Fv by exact L. unfold BeamSpec.beam_but. destruct (existsb _ (skip s)); [destruct m; reflexivity|]. destruct m; reflexivity. }
  unfold process_data in Hp. unfold correction in Hc. destruct (invert s) eqn:Ei.
  - injection Hc as Ho Hm Hsd. cbn in Hp.
    assert (Inv : forall f a l, In f (freqs i) -> a < length (names i) -> factor response t out e time (e_dir e) true (s_mode s) f a = Ok l -> mmul (beam_but (skip s) t i time (s_mode s) (e_dir e) f a) l = unity).
    { intros f a l Hf L E. rewrite Fv in E by exact L. unfold BeamSpec.beam_but, BeamSpec.beam in *.
      destruct (mode_eqb (s_mode s) NoBeam) eqn:Em.
      - apply mode_eqb_spec in Em. rewrite Em. injection E as <-. destruct (existsb _ _); apply mmul_1l.
      - destruct (existsb _ (skip s)); [injection E as <-; apply mmul_1l|].
        assert (Nm : s_mode s <> NoBeam) by (intros X; apply mode_eqb_spec in X; congruence).
        destruct (s_mode s) eqn:Es; try congruence; eapply inverse_ok in E; try (apply E); eauto; try congruence. }
    assert (Step2 : forall mid data'', fits out mid -> (bind (compute_beam response time e (freqs out) (e_dir e) true (s_mode s)) (fun values => apply_to_data out (length (indices e)) values (update s) mid) = Ok data'') ->
      fits i data'' /\ forall b c p q f v w, nth_error (baselines i) b = Some (p, q) -> nth_error (freqs i) c = Some f -> at_cell mid b c = Some (v, w) ->
        exists v' w', at_cell data'' b c = Some (v', w') /\ (update s = false -> w' = w) /\
          through (beam_but (skip s) t i time (s_mode s) (e_dir e) f p) v' (beam_but (skip s) t i time (s_mode s) (e_dir e) f q) = v).
    { intros mid data'' Fm Hx. apply bind_ok in Hx as (values & Ev & Ha). destruct (pass_cell response t out e time (e_dir e) true (s_mode s) (update s) values mid data'' D Vo So Fm Ev Ha) as [F' C].
      split; [auto|]. intros b c p q f v w Hb Hf Hv. rewrite <- Eb in Hb. rewrite <- Ef in Hf. destruct (C b c p q f Hb Hf) as [C1 _]. rewrite Eb in Hb. rewrite Ef in Hf.
      destruct (C1 _ Hv) as (l & r & El & Er & E). destruct (La _ _ _ Hb) as [Lp Lq]. eexists _, _. split; [exact E|]. cbn [fst snd]. split; [intros ->; reflexivity|].
      change (mmul l (mmul v (mherm r))) with (mmul l (mmul v (mherm r))). rewrite mmul_assoc. change (mmul (mmul l v) (mherm r)) with (through l v r). rewrite through_through.
      rewrite (Inv f p l), (Inv f q r); eauto using nth_error_In. apply through_1. }
    destruct (mode_eqb (start_mode e) NoBeam) eqn:Eo; cbn in Hp.
    + destruct (Step2 data dd Fo Hp) as [F' C]. split; [exact F'|]. intros b c p q f Hb Hf. destruct (Ex _ _ _ _ _ Hb Hf) as [[v w] Hv]. destruct (C _ _ _ _ _ _ _ Hb Hf Hv) as (v' & w' & A & B & E).
      exists v, w, v', w'. repeat (split; [assumption|]). cbv zeta beta iota. rewrite E. apply mode_eqb_spec in Eo. rewrite Hm, Eo. unfold BeamSpec.beam_but, BeamSpec.beam.
      destruct (existsb _ _), (existsb _ _); symmetry; apply through_1.
    + apply bind_ok in Hp as (mid & Hmid & Hp). apply bind_ok in Hmid as (values & Ev & Ha). destruct (pass_cell response t out e time _ _ _ _ values data mid D Vo So Fo Ev Ha) as [Fm C].
      destruct (Step2 mid dd Fm Hp) as [F' C2]. split; [exact F'|]. intros b c p q f Hb Hf. destruct (Ex _ _ _ _ _ Hb Hf) as [[v w] Hv].
      assert (Hb2 := Hb). assert (Hf2 := Hf). rewrite <- Eb in Hb2. rewrite <- Ef in Hf2. destruct (C b c p q f Hb2 Hf2) as [C1 _]. destruct (C1 _ Hv) as (l & r & El & Er & E).
      destruct (La _ _ _ Hb) as [Lp Lq]. rewrite Fwd in El, Er by assumption. injection El as <-. injection Er as <-.
      destruct (C2 _ _ _ _ _ _ _ Hb Hf E) as (v' & w' & A & B & E2). exists v, w, v', w'. split; [exact Hv|]. split; [exact A|]. split.
      * intros Eu. rewrite (B Eu), Eu. reflexivity.
      * cbv zeta beta iota. rewrite E2. unfold through. cbn [fst]. rewrite <- mmul_assoc, Hm, Hsd. reflexivity.
  - cbn in Hp. apply bind_ok in Hp as (values & Ev & Ha). destruct (pass_cell response t out e time _ _ _ _ values data dd D Vo So Fo Ev Ha) as [F' C]. split; [auto|].
    intros b c p q f Hb Hf. destruct (Ex _ _ _ _ _ Hb Hf) as [[v w] Hv]. assert (Hb2 := Hb). assert (Hf2 := Hf). rewrite <- Eb in Hb2. rewrite <- Ef in Hf2.
    destruct (C b c p q f Hb2 Hf2) as [C1 _]. destruct (C1 _ Hv) as (l & r & El & Er & E). destruct (La _ _ _ Hb) as [Lp Lq]. rewrite Fwd in El, Er by assumption. injection El as <-. injection Er as <-.
    eexists v, w, _, _. split; [exact Hv|]. split; [exact E|]. cbn [fst snd]. split; [intros ->; reflexivity|]. cbv zeta beta iota. unfold through. now rewrite <- mmul_assoc.
Qed.
(** If the beams have inverses, a step that is accepted gives something *)
Theorem C89_defined : forall t s i e out time data named, NoDup (station_names t) -> valid i -> fits i data -> use_model s = false ->
  (forall st f, In f (freqs i) -> regular (s_mode s) (response time (s_mode s) st f (e_dir e))) -> update_info t s i = Ok (e, out) ->
  exists x, process response s e out time (data, named) = Ok x.
Proof.
  intros t s i e out time data named D V F U R Hu. apply update_info_ok in Hu as (Hs & Hk & Hd & Hc). pose proof (correction_same _ _ _ _ _ _ Hc) as (En & Eb & Ef & _ & _).
  assert (Vo : valid out) by (unfold valid in *; now rewrite En, Eb). assert (So : select_stations t (names out) = Ok (indices e)) by (now rewrite En). rewrite <- Ef in R.
  assert (B : forall d inv m, (inv = true -> d = e_dir e /\ m = s_mode s) -> forall st ix f, nth_error (indices e) st = Some ix -> In f (freqs out) -> exists v, beam_value response time e d inv m st ix f = Ok v).
  { intros d inv m Hi st ix f _ Hf. unfold beam_value. destruct m; [eauto| | |]; (destruct (existsb _ _); [eauto|]); (destruct inv; [|eauto]); destruct (Hi eq_refl) as [-> ->]; apply inverse_total; now apply R. }
  unfold process. rewrite U. cbn [fst snd]. unfold process_data.
  assert (Step2 : forall mid, exists x, bind (compute_beam response time e (freqs out) (e_dir e) (invert s) (s_mode s)) (fun values => apply_to_data out (length (indices e)) values (update s) mid) = Ok x).
  { intros mid. destruct (pass_total response t out e time (e_dir e) (invert s) (s_mode s) (update s) mid D Vo So) as (values & x & -> & A); [apply B; auto|]. cbn. eauto. }
  destruct (invert s && negb (mode_eqb (start_mode e) NoBeam)).
  - destruct (pass_total response t out e time (start_dir e) false (start_mode e) (update s) data D Vo So) as (values & x & E & A); [apply B; discriminate|]. rewrite E. cbn. rewrite A. cbn.
    destruct (Step2 x) as [y ->]. cbn. eauto.
  - cbn. destruct (Step2 data) as [y ->]. cbn. eauto.
Qed.

Lemma bare_cell c b k : at_cell (bare c) b k = option_map (fun v => (v, Wt Nan Nan Nan Nan)) (at_cell c b k).
Proof. unfold at_cell, bare. rewrite nth_error_map. destruct (nth_error c b); cbn; [|reflexivity]. now rewrite nth_error_map. Qed.
Lemma fst_cell (c : main) b k : at_cell (map (map fst) c) b k = option_map fst (at_cell c b k).
Proof. unfold at_cell. rewrite nth_error_map. destruct (nth_error c b); cbn; [|reflexivity]. now rewrite nth_error_map. Qed.
(** With usemodeldata, each set of named visibilities that has a direction gets, or is corrected for, the beam in that direction, and the main visibilities stay as they are *)
Theorem C89_models : forall t s i e out time data named data' named', NoDup (station_names t) -> valid i -> Forall (fun x => fits i (snd x)) named -> plain t s i -> use_model s = true ->
  (forall st f d, In f (freqs i) -> regular (s_mode s) (response time (s_mode s) st f d)) ->
  update_info t s i = Ok (e, out) -> process response s e out time (data, named) = Ok (data', named') ->
  data' = data /\ length named' = length named /\ forall k name x, nth_error named k = Some (name, x) -> exists x', nth_error named' k = Some (name, x') /\
    ((forall d, ~ In (name, d) (models i)) -> x' = x) /\
    forall d, NoDup (map fst (models i)) -> In (name, d) (models i) ->
    forall b c p q f v, nth_error (baselines i) b = Some (p, q) -> nth_error (freqs i) c = Some f -> at_cell x b c = Some v -> exists v', at_cell x' b c = Some v' /\
      let now a := beam_but (skip s) t i time (s_mode s) d f a in if invert s then through (now p) v' (now q) = v else v' = through (now p) v (now q).
Proof.
  intros t s i e out time data named data' named' D V F P U R Hu H. apply update_info_ok in Hu as (Hs & Hk & Hd & Hc).
  pose proof (correction_same _ _ _ _ _ _ Hc) as (En & Eb & Ef & _ & Em). unfold process in H. rewrite U in H. apply bind_ok in H as (l & Hp & H). cbn in H. injection H as <- <-. split; [reflexivity|].
  unfold process_models in Hp. apply (proj1 (each_ok _ _ _)) in Hp. cbn [snd] in Hp. split; [symmetry; eapply Forall2_length; eauto|].
  intros k name x Hx. destruct (Forall2_nth _ _ _ Hp _ _ Hx) as ([name' x'] & Hx' & E). cbn [fst snd] in E. rewrite Em in E.
  destruct (find (fun y => String.eqb (fst y) name) (models i)) as [[n2 d2]|] eqn:Ed.
  - apply find_some in Ed as [Hin Hn]. apply String.eqb_eq in Hn. cbn in Hn. subst n2. apply bind_ok in E as (values & Ev & E). apply bind_ok in E as (dd & Ea & E). injection E as <- <-.
    exists (map (map fst) dd). split; [exact Hx'|]. split; [intros N; exfalso; eapply N; eauto|]. intros d Nd Hd2.
    assert (d = d2) as ->. { clear - Nd Hin Hd2. induction (models i) as [|[n y] l IH]; [contradiction|]. cbn in Nd. inversion Nd as [|? ? N1 N2]; subst.
      destruct Hin as [E|Hin], Hd2 as [E'|Hd2]; [congruence| | |auto].
      - injection E as -> ->. exfalso. apply N1. apply (in_map fst) in Hd2. exact Hd2.
      - injection E' as -> ->. exfalso. apply N1. apply (in_map fst) in Hin. exact Hin. }
    intros b c p q f v Hb Hf Hv.
    assert (Vo : valid out) by (unfold valid in *; now rewrite En, Eb). assert (So : select_stations t (names out) = Ok (indices e)) by (now rewrite En).
    assert (Fx : fits out (bare x)).
    { rewrite Forall_forall in F. destruct (F _ (nth_error_In _ _ Hx)) as [F1 F2]. cbn in F1, F2. unfold fits, bare. rewrite Eb, Ef, map_length. split; [exact F1|].
      rewrite Forall_map. eapply Forall_impl; [|exact F2]. cbn. intros r Hr. now rewrite map_length. }
    destruct (pass_cell response t out e time d2 (invert s) (s_mode s) false values (bare x) dd D Vo So Fx Ev Ea) as [_ C]. assert (Hb2 := Hb). assert (Hf2 := Hf). rewrite <- Eb in Hb2. rewrite <- Ef in Hf2.
    destruct (C b c p q f Hb2 Hf2) as [C1 _]. specialize (C1 (v, Wt Nan Nan Nan Nan)). rewrite bare_cell, Hv in C1. destruct (C1 eq_refl) as (a1 & a2 & E1 & E2 & E3).
    rewrite fst_cell, E3. eexists. split; [reflexivity|]. cbn [fst].
    assert (Lp : p < length (names i) /\ q < length (names i)). { unfold valid in V. rewrite Forall_forall in V. apply (V (p, q)). eapply nth_error_In; eauto. }
    destruct Lp as [Lp Lq]. cbv zeta beta.
    assert (Fv : forall a, a < length (names i) -> factor response t out e time d2 (invert s) (s_mode s) f a =
      if mode_eqb (s_mode s) NoBeam then Ok unity else if existsb (String.eqb (nth a (names i) EmptyString)) (skip s) then Ok unity
      else if invert s then inverse (s_mode s) (beam t i time (s_mode s) d2 f a) else Ok (beam t i time (s_mode s) d2 f a)).
    { intros a L. rewrite <- (factor_value t s i e time d2 (invert s) (s_mode s) f a D Hk P L). unfold factor, station_of. now rewrite En. }
    assert (G : forall a l, a < length (names i) -> factor response t out e time d2 (invert s) (s_mode s) f a = Ok l ->
       if invert s then mmul (beam_but (skip s) t i time (s_mode s) d2 f a) l = unity else l = beam_but (skip s) t i time (s_mode s) d2 f a).
    { intros a l0 L E. rewrite Fv in E by exact L. unfold BeamSpec.beam_but, BeamSpec.beam in *. destruct (mode_eqb (s_mode s) NoBeam) eqn:Eo.
      - apply mode_eqb_spec in Eo. rewrite Eo. injection E as <-. destruct (invert s); destruct (existsb _ _); try reflexivity; apply mmul_1l.
      - destruct (existsb _ (skip s)); [injection E as <-; destruct (invert s); [apply mmul_1l|reflexivity]|].
        assert (Nm : s_mode s <> NoBeam) by (intros X; apply mode_eqb_spec in X; congruence).
        destruct (invert s); [|injection E as <-; destruct (s_mode s); try congruence; reflexivity].
        destruct (s_mode s) eqn:Es; try congruence; eapply inverse_ok in E; try (apply E); eauto using nth_error_In; congruence. }
    pose proof (G _ _ Lp E1) as G1. pose proof (G _ _ Lq E2) as G2. unfold apply_sample. cbn [fst snd]. rewrite mmul_assoc. change (mmul (mmul a1 v) (mherm a2)) with (through a1 v a2). destruct (invert s); [|now subst].
    rewrite through_through, G1, G2. apply through_1.
  - injection E as <- <-. exists x. split; [exact Hx'|]. split; [reflexivity|]. intros d _ Hd2. exfalso. apply find_none with (x := (name, d)) in Ed; [|exact Hd2]. cbn in Ed. rewrite String.eqb_refl in Ed. discriminate.
Qed.
(** The actions that keep the beam of the main visibilities known: ApplyBeam on these without skipped stations, ApplyBeam that gives named visibilities their beam, and a prediction of the main
    visibilities *)
Definition allowed (i : info) (a : action) : Prop :=
  match a with
  | Apply s => if use_model s then invert s = false else skip s = []
  | Replace name data => name = EmptyString /\ fits i data
  end.
Lemma seen_as_same t i j time m d data raw : names j = names i -> baselines j = baselines i -> freqs j = freqs i -> seen_as response t i time m d data raw -> seen_as response t j time m d data raw.
Proof. unfold seen_as, BeamSpec.beam. intros -> -> ->. auto. Qed.
Lemma fits_same {T} i j (x : list (list T)) : baselines j = baselines i -> freqs j = freqs i -> fits i x -> fits j x.
Proof. unfold fits. now intros -> ->. Qed.
Lemma cell_out i (data : main) b c y : fits i data -> at_cell data b c = Some y -> exists p f, nth_error (baselines i) b = Some p /\ nth_error (freqs i) c = Some f.
Proof.
  intros [F1 F2]. unfold at_cell. destruct (nth_error data b) as [r|] eqn:Er; [|discriminate]. intros Ec.
  destruct (nth_error (baselines i) b) as [p|] eqn:Ep. 2: { apply nth_error_None in Ep. assert (b < length data) by (apply nth_error_Some; congruence). lia. }
  rewrite Forall_forall in F2. pose proof (F2 r (nth_error_In _ _ Er)) as L. destruct (nth_error (freqs i) c) as [f|] eqn:Ef; [eauto|].
  apply nth_error_None in Ef. assert (c < length r) by (apply nth_error_Some; congruence). lia.
Qed.
Lemma chain_aux t time DD l : NoDup (station_names t) -> (forall d d', In d DD -> In d' DD -> close d d' = true -> d = d') -> incl (asked l) DD -> forall i b raw i' b',
  valid i -> fits i (fst b) -> In (i_dir i) DD -> In (centre i) DD -> (forall st f m d, In f (freqs i) -> regular m (response time m st f d)) -> Forall (allowed i) l ->
  seen_as response t i time (i_mode i) (i_dir i) (fst b) raw -> act_all response t time (i, b) l = Ok (i', b') ->
  seen_as response t i time (i_mode i') (i_dir i') (fst b') (measured raw l).
Proof.
  intros D Sep. induction l as [|a l IH]; intros Hin i b raw i' b' V F Hd Hc R A S H; cbn in H.
  - injection H as <- <-. exact S.
  - apply Forall_cons_iff in A as [Aa A]. apply bind_ok in H as ([i1 b1] & H1 & H). destruct a as [s|name data].
    + assert (Hin2 : incl (asked l) DD) by (intros d Hx; apply Hin; unfold asked; cbn; apply in_or_app; now right).
      destruct b as [data named]. cbn [fst] in *. cbn in H1. apply bind_ok in H1 as ([e out] & Hu & H1). apply bind_ok in H1 as (b2 & Hp & H1). injection H1 as <- <-. destruct b2 as [data' named'].
      pose proof (update_info_ok _ _ _ _ _ Hu) as (Hs & Hk & Hed & Hco). pose proof (correction_same _ _ _ _ _ _ Hco) as (En & Eb & Ef & Ec & _).
      assert (He : In (e_dir e) DD). { rewrite Hed. destruct (direction s) as [d|] eqn:Es; [|exact Hc]. apply Hin. unfold asked. cbn. rewrite Es. now left. }
      cbn in Aa. cbn [measured].
      assert (Main : fits i data' /\ seen_as response t i time (i_mode out) (i_dir out) data' raw /\ In (i_dir out) DD).
      { destruct (use_model s) eqn:U.
        - unfold process in Hp. rewrite U in Hp. apply bind_ok in Hp as (x & _ & Hp). cbn in Hp. injection Hp as <- _. unfold correction in Hco. rewrite Aa, U in Hco. injection Hco as <- _ _. auto.
        - destruct (C89_apply t s i e out time data named data' named' D V F (or_introl Aa) U (fun st f Hf => R st f _ _ Hf) Hu Hp) as (_ & F' & C). split; [exact F'|]. unfold correction in Hco. rewrite U in Hco.
          destruct (invert s) eqn:Ei.
          + injection Hco as Ho _ _. subst out. cbn. split; [|exact He]. intros b c p q f v w Hb Hf Hv. destruct (C b c p q f Hb Hf) as (v0 & w0 & v' & w' & E0 & E' & _ & E).
            rewrite Hv in E'. injection E' as <- <-. unfold BeamSpec.beam_but in E. rewrite Aa in E. cbn in E. rewrite E. apply (S b c p q f v0 w0 Hb Hf E0).
          + destruct (mode_eqb (i_mode i) NoBeam); [discriminate|]. destruct (mode_eqb (i_mode i) (s_mode s)) eqn:Em; [|discriminate]. apply mode_eqb_spec in Em. cbn in Hco.
            destruct (close (i_dir i) (e_dir e)) eqn:El; [|discriminate]. cbn in Hco. injection Hco as Ho _ _. subst out. cbn. split; [|exact Hd].
            intros b c p q f v w Hb Hf Hv. destruct (C b c p q f Hb Hf) as (v0 & w0 & v' & w' & E0 & E' & _ & E). rewrite Hv in E'. injection E' as <- <-.
            destruct (S b c p q f v0 w0 Hb Hf E0) as (w1 & E1). exists w1. change (Mat c1 c0 c0 c1) with unity. rewrite through_1, E1. f_equal. f_equal. rewrite E. unfold BeamSpec.beam_but. rewrite Aa. cbn.
            rewrite Em, (Sep _ _ Hd He El). reflexivity. }
      destruct Main as (F' & S' & Hd'). eapply seen_as_same; [| | |eapply (IH Hin2 out (data', named') raw)]; try (symmetry; assumption).
      * unfold valid in *. now rewrite En, Eb.
      * eapply fits_same; [| |exact F']; assumption.
      * exact Hd'.
      * now rewrite Ec.
      * rewrite Ef. exact R.
      * eapply Forall_impl; [|exact A]. intros [s'|n x]; cbn; [auto|]. intros [E Fx]. split; [exact E|]. eapply fits_same; [| |exact Fx]; assumption.
      * eapply seen_as_same; [| | |exact S']; assumption.
      * exact H.
    + cbn in Aa. destruct Aa as [-> Fx]. cbn in H1. injection H1 as <- <-. cbn [measured]. change (seen_as response t (set_mode NoBeam i) time (i_mode i') (i_dir i') (fst b') (measured data l)).
      apply (IH Hin (set_mode NoBeam i) (data, snd b)); try assumption. cbn. intros b0 c p q f v w Hb Hf Hv. exists w. change (Mat c1 c0 c0 c1) with unity. rewrite through_1. exact Hv.
Qed.
(** However often the beam is corrected for and put back, in whatever directions, and predictions replace the data: the main visibilities, seen through the beam that the metadata tell, are the
    visibilities with the full beam that were there at first or were predicted last *)
Theorem C89_chain : forall t time i b raw l i' b', NoDup (station_names t) -> valid i -> fits i (fst b) -> (forall st f m d, In f (freqs i) -> regular m (response time m st f d)) ->
  (forall d d', In d (i_dir i :: centre i :: asked l) -> In d' (i_dir i :: centre i :: asked l) -> close d d' = true -> d = d') -> Forall (allowed i) l ->
  seen_as response t i time (i_mode i) (i_dir i) (fst b) raw -> act_all response t time (i, b) l = Ok (i', b') ->
  seen_as response t i time (i_mode i') (i_dir i') (fst b') (measured raw l).
Proof.
  intros t time i b raw l i' b' D V F R Sep A S H. eapply (chain_aux t time (i_dir i :: centre i :: asked l)); eauto; cbn; auto. intros d Hx. cbn. auto.
Qed.
End Response.
Print Assumptions C89_apply.
Print Assumptions C89_defined.
Print Assumptions C89_models.
Print Assumptions C89_chain.

(** The beam of a station is twice its number plus two *)
Definition beam_ex (_ : Qc) (_ : mode) (st : nat) (_ : Qc) (_ : dir) : mat := mdiag (C (qn (2 * st + 2)) 0) (C (qn (2 * st + 2)) 0).
Definition tel_ex := Tel false ["a"; "b"; "c"]%string.
Definition info_ex (m : mode) := Info ["b"; "c"]%string [(0, 0); (0, 1); (1, 1)] [1%Qc] (0, 0)%Qc m (0, 0)%Qc [("m"%string, (0, 0)%Qc)].
Definition data_ex : main := let x := [(Mat c1 c0 c0 c1, Wt (Fin 1) (Fin 1) (Fin 1) (Fin 1))] in [x; x; x].
(** What there is after some actions: the mode, and the first element of each visibility *)
Definition result_ex (i : info) (l : list action) : outcome (mode * list cplx) :=
  let! (i, b) := act_all beam_ex tel_ex 0%Qc (i, (data_ex, [])) l in Ok (i_mode i, map (fun r => match r with (v, _) :: _ => m0 v | [] => c0 end) (fst b)).
Lemma beam_ex_regular time m st f d : regular m (beam_ex time m st f d).
Proof.
  assert (N : cnorm (C (qn (2 * st + 2)) 0) <> 0%Qc).
  { unfold cnorm. cbn [re im]. intros E. assert (P : (0 < qn (2 * st + 2))%Qc) by (apply qn_pos; lia). pose proof (qc_mult_pos _ _ P P) as Hm. rewrite Qcmult_0_l, Qcplus_0_r in E. rewrite E in Hm. now apply Qclt_not_eq in Hm. }
  assert (M : cnorm (mdet (beam_ex time m st f d)) <> 0%Qc).
  { unfold beam_ex, mdet. cbn [m0 m1 m2 m3 mdiag]. set (x := C _ _) in *. replace (csub (cmul x x) (cmul c0 c0)) with (cmul x x) by ring. rewrite cnorm_mul. intros E. apply Qcmult_integral in E as [E|E]; contradiction. }
  destruct m; cbn [regular]; auto.
Qed.
(** Correcting and putting back: 1/16, 1/24 and 1/36, and then 1 again *)
Example C89_chain_example :
  let s inv := Apply (Set_ inv false None [] Full false) in
  Forall (allowed (info_ex NoBeam)) [s true; s true; s false] /\ seen_as beam_ex tel_ex (info_ex NoBeam) 0%Qc NoBeam (0, 0)%Qc data_ex data_ex /\
  result_ex (info_ex NoBeam) [s true; s true] = Ok (Full, [C (Q2Qc (1 # 16)) 0; C (Q2Qc (1 # 24)) 0; C (Q2Qc (1 # 36)) 0]%Qc) /\
  result_ex (info_ex NoBeam) [s true; s true; s false] = Ok (NoBeam, [c1; c1; c1]).
Proof.
  cbn [allowed use_model invert skip]. split; [repeat constructor|]. split.
  - intros b c p q f v w Hb Hf Hv. exists w. change (Mat c1 c0 c0 c1) with unity. cbn [beam]. change (Mat c1 c0 c0 c1) with unity. rewrite through_1. exact Hv.
  - split; vm_compute; reflexivity.
Qed.

(** Finding: a station that is to be skipped is looked up in the list of stations of the telescope, but compared with the numbers of the antennas in the data.  If antennas have been removed before
    (here the first one), another station is skipped instead. *)
Theorem C89_skip_refuted : exists s i e out data', skip s = ["b"%string] /\ update_info tel_ex s i = Ok (e, out) /\ valid i /\ fits i data_ex /\ nth_error (names i) 0 = Some "b"%string /\ nth_error (names i) 1 = Some "c"%string /\
  nth_error (baselines i) 0 = Some (0, 0) /\ nth_error (baselines i) 2 = Some (1, 1) /\ process beam_ex s e out 0%Qc (data_ex, []) = Ok (data', []) /\
  at_cell data' 0 0 <> at_cell data_ex 0 0 /\ at_cell data' 2 0 = at_cell data_ex 2 0.
Proof.
  exists (Set_ true false None ["b"%string] Full false), (info_ex NoBeam). eexists _, _, _. split; [reflexivity|]. split; [reflexivity|]. split; [unfold valid; repeat constructor|].
  split; [split; [reflexivity|repeat constructor]|]. repeat (split; [reflexivity|]).  split; [vm_compute; discriminate|vm_compute; reflexivity].
Qed.
Print Assumptions C89_skip_refuted.

(** Finding: with usemodeldata and invert the main visibilities are left alone, but the metadata tell that these have been corrected for the beam.  A next ApplyBeam then "undoes" this. *)
Theorem C89_model_invert_refuted : exists a i b i' b', act beam_ex tel_ex 0%Qc (i, b) a = Ok (i', b') /\ fst b' = fst b /\ valid i /\ fits i (fst b) /\ i_mode i = NoBeam /\ i_mode i' = Full /\
  seen_as beam_ex tel_ex i 0%Qc (i_mode i) (i_dir i) (fst b) (fst b) /\ ~ seen_as beam_ex tel_ex i 0%Qc (i_mode i') (i_dir i') (fst b') (fst b).
Proof.
  exists (Apply (Set_ true false None [] Full true)), (info_ex NoBeam), (data_ex, []). eexists _, _. split; [reflexivity|]. split; [reflexivity|]. split; [unfold valid; repeat constructor|].
  split; [split; [reflexivity|repeat constructor]|]. split; [reflexivity|]. split; [reflexivity|]. split.
  - intros b c p q f v w Hb Hf Hv. exists w. cbn [i_mode info_ex beam]. change (Mat c1 c0 c0 c1) with unity. rewrite through_1. exact Hv.
  - intros H. destruct (H 0 0 0 0 1%Qc _ _ eq_refl eq_refl eq_refl) as [w E]. vm_compute in E. discriminate.
Qed.
Print Assumptions C89_model_invert_refuted.

(** Finding: a prediction that is put in named visibilities leaves the main visibilities alone, but the metadata tell that these have not been corrected for the beam, though they may have been.
    The next ApplyBeam corrects for the beam again. *)
Theorem C89_named_prediction_refuted : exists a i b raw i' b', act beam_ex tel_ex 0%Qc (i, b) a = Ok (i', b') /\ fst b' = fst b /\ valid i /\ fits i (fst b) /\ i_mode i = Full /\ i_mode i' = NoBeam /\
  seen_as beam_ex tel_ex i 0%Qc (i_mode i) (i_dir i) (fst b) raw /\ ~ seen_as beam_ex tel_ex i 0%Qc (i_mode i') (i_dir i') (fst b') raw.
Proof.
  pose (raw := map (fun x => [(mdiag (C (qn x) 0%Qc) (C (qn x) 0%Qc), Wt Nan Nan Nan Nan)]) [16; 24; 36] : main).
  exists (Replace "m"%string data_ex), (info_ex Full), (data_ex, []), raw. eexists _, _. split; [reflexivity|]. split; [reflexivity|]. split; [unfold valid; repeat constructor|].
  split; [split; [reflexivity|repeat constructor]|]. split; [reflexivity|]. split; [reflexivity|]. split.
  - intros b c p q f v w Hb Hf Hv. destruct c as [|c]; [|destruct c; discriminate]. injection Hf as <-. exists (Wt Nan Nan Nan Nan).
    destruct b as [|[|[|b]]]; cbn in Hb; [| | |destruct b; discriminate]; injection Hb as <- <-; vm_compute in Hv; injection Hv as <- _; vm_compute; reflexivity.
  - intros H. destruct (H 0 0 0 0 1%Qc _ _ eq_refl eq_refl eq_refl) as [w E]. vm_compute in E. discriminate.
Qed.
Print Assumptions C89_named_prediction_refuted.

(** C89_apply with a skipped station: the telescope has the same stations as the data; only the beam of "c" (4) is corrected for.  C89_models: the named visibilities get the beams 4 and 6. *)
Example C89_apply_example : let t := Tel false ["b"; "c"]%string in let i := info_ex NoBeam in let s := Set_ true false None ["b"%string] Full false in
  NoDup (station_names t) /\ valid i /\ fits i data_ex /\ plain t s i /\ exists e out data', update_info t s i = Ok (e, out) /\ process beam_ex s e out 0%Qc (data_ex, []) = Ok (data', []) /\
    option_map (fun x => m0 (fst x)) (at_cell data' 0 0) = Some c1 /\ option_map (fun x => m0 (fst x)) (at_cell data' 1 0) = Some (C (Q2Qc (1 # 4)) 0%Qc).
Proof.
  cbn zeta. split; [repeat constructor; cbn; intuition discriminate|]. split; [unfold valid; repeat constructor|]. split; [split; [reflexivity|repeat constructor]|]. split; [right; auto|].
  eexists _, _, _. split; [reflexivity|]. split; [vm_compute; reflexivity|]. split; vm_compute; reflexivity.
Qed.
Example C89_models_example : let i := info_ex NoBeam in let s := Set_ false false None [] Full true in let named := [("m"%string, map (map fst) data_ex)] in
  Forall (fun x => fits i (snd x)) named /\ exists e out named', update_info tel_ex s i = Ok (e, out) /\ process beam_ex s e out 0%Qc (data_ex, named) = Ok (data_ex, named') /\
    map (fun x => option_map m0 (at_cell (snd x) 1 0)) named' = [Some (C (qn 24) 0%Qc)].
Proof.
  cbn zeta. split; [repeat constructor|]. eexists _, _, _. split; [reflexivity|]. split; [vm_compute; reflexivity|]. vm_compute. reflexivity.
Qed.
