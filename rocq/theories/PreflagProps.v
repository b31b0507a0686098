(** Properties C19, C20, C21 and C51: the preflagger. *)
From Coq Require Import QArith Qcanon Qround List Bool Arith ZArith Lia Ascii String.
From Verif Require Import QcUtil FlagExprModel FlagExprSpec FlagExprProofs PreflagModel PreflagSpec PreflagProofs PreflagSets.
Import ListNotations.
Open Scope nat_scope.

(** * C19 *)

(** Set modes: no flag is removed, and only samples acted on change. *)
Theorem C19_set : forall nbl nchan ncorr m inp bad s b c, m = SetFlag \/ m = SetComp -> b < nbl -> c < nchan ->
  set_allowed (acts_on m (inp b c)) (fs_flags s b c) (fs_flags (apply_mode nbl nchan ncorr m inp bad s) b c).
Proof. exact set_modes. Qed.
Print Assumptions C19_set.

(** Set modes: with equal flags over the correlations, the result is exactly the old flags or the match. *)
Theorem C19_set_exact : forall nbl nchan ncorr m inp bad s b c p, m = SetFlag \/ m = SetComp -> b < nbl -> c < nchan ->
  uniform (fs_flags s b c) ->
  fs_flags (apply_mode nbl nchan ncorr m inp bad s) b c p = fs_flags s b c p || acts_on m (inp b c).
Proof. exact set_modes_exact. Qed.
Print Assumptions C19_set_exact.

(** Clear modes: a flag is only removed for samples acted on with valid data. *)
Theorem C19_clear : forall nbl nchan ncorr m inp bad s b c, m = ClearFlag \/ m = ClearComp -> b < nbl -> c < nchan ->
  clear_allowed (acts_on m (inp b c)) (forallb (fun p => negb (bad b c p)) (seq 0 ncorr))
    (fs_flags s b c) (fs_flags (apply_mode nbl nchan ncorr m inp bad s) b c).
Proof. exact clear_modes. Qed.
Print Assumptions C19_clear.

(** Clear modes: with equal flags over the correlations, the flags of the samples acted on
    become: some correlation is invalid; the others keep their flags. *)
Theorem C19_clear_exact : forall nbl nchan ncorr m inp bad s b c p, m = ClearFlag \/ m = ClearComp -> b < nbl -> c < nchan ->
  uniform (fs_flags s b c) ->
  fs_flags (apply_mode nbl nchan ncorr m inp bad s) b c p =
  if acts_on m (inp b c) then existsb (bad b c) (seq 0 ncorr) else fs_flags s b c p.
Proof. exact clear_modes_exact. Qed.
Print Assumptions C19_clear_exact.

(** The counters grow by the number of samples whose first flag changed. *)
Theorem C19_counts : forall nbl nchan ncorr m inp bad s,
  let s' := apply_mode nbl nchan ncorr m inp bad s in
  let changed := fun b c => negb (Bool.eqb (fs_flags s b c 0) (fs_flags s' b c 0)) in
  (forall b, b < nbl -> fs_bl s' b = fs_bl s b + List.length (filter (changed b) (seq 0 nchan))) /\
  (forall c, c < nchan -> fs_ch s' c = fs_ch s c + List.length (filter (fun b => changed b c) (seq 0 nbl))).
Proof. exact apply_mode_counts. Qed.
Print Assumptions C19_counts.

(** Buffers of 2 baselines, 2 channels and 2 correlations. *)
Example C19_case :
  let s := MkFstate (fun b c _ => b =? c) (fun _ => 0) (fun _ => 0) in
  let inp := fun b _ => b =? 1 in
  let bad := fun b c p => (b =? 1) && (c =? 1) && (p =? 1) in
  let run m := let s' := apply_mode 2 2 2 m inp bad s in
    (map (fun b => map (fun c => map (fs_flags s' b c) [0; 1]) [0; 1]) [0; 1], map (fs_bl s') [0; 1], map (fs_ch s') [0; 1]) in
  run SetFlag = ([[[true; true]; [false; false]]; [[true; true]; [true; true]]], [0; 1], [1; 0]) /\
  run ClearFlag = ([[[true; true]; [false; false]]; [[false; false]; [true; true]]], [0; 0], [0; 0]) /\
  run SetComp = ([[[true; true]; [true; true]]; [[false; false]; [true; true]]], [1; 0], [0; 1]) /\
  run ClearComp = ([[[false; false]; [false; false]]; [[false; false]; [true; true]]], [1; 0], [1; 0]).
Proof. vm_compute. repeat split. Qed.

(** Findings. Without equal flags a matching sample can stay partly unflagged: only the
    flag of the first correlation is looked at. *)
Theorem C19_set_incomplete_refuted : exists nbl nchan ncorr inp bad s b c p,
  b < nbl /\ c < nchan /\ p < ncorr /\ inp b c = true /\
  fs_flags (apply_mode nbl nchan ncorr SetFlag inp bad s) b c p = false.
Proof.
  exists 1, 1, 2, (fun _ _ => true), (fun _ _ _ => false), (MkFstate (fun _ _ p => p =? 0) (fun _ => 0) (fun _ => 0)), 0, 0, 1.
  repeat split; auto.
Qed.
Print Assumptions C19_set_incomplete_refuted.

(** A matching valid sample can keep a flag in clear mode. *)
Theorem C19_clear_incomplete_refuted : exists nbl nchan ncorr inp s b c p,
  b < nbl /\ c < nchan /\ p < ncorr /\ inp b c = true /\
  fs_flags (apply_mode nbl nchan ncorr ClearFlag inp (fun _ _ _ => false) s) b c p = true.
Proof.
  exists 1, 1, 2, (fun _ _ => true), (MkFstate (fun _ _ p => p =? 1) (fun _ => 0) (fun _ => 0)), 0, 0, 1.
  repeat split; auto.
Qed.
Print Assumptions C19_clear_incomplete_refuted.

(** Clear mode can add flags: matching samples with invalid data get flagged. *)
Theorem C19_clear_adds_refuted : exists nbl nchan ncorr inp bad s b c p,
  b < nbl /\ c < nchan /\ p < ncorr /\ fs_flags s b c p = false /\
  fs_flags (apply_mode nbl nchan ncorr ClearFlag inp bad s) b c p = true.
Proof.
  exists 1, 1, 1, (fun _ _ => true), (fun _ _ _ => true), (MkFstate (fun _ _ _ => false) (fun _ => 0) (fun _ => 0)), 0, 0, 0.
  repeat split; auto.
Qed.
Print Assumptions C19_clear_adds_refuted.

(** * C20 *)

(** Ranges within the day and half widths up to 12 hours select exactly the times in
    one of the intervals on the circle of 24 hours. *)
Theorem C20_time_of_day : forall rs, Forall sane_range rs -> exists l, fill_times true rs = Some l /\
  forall t, match_range (time_of_day t) l = true <-> Exists (fun r => in_day_range r t) rs.
Proof. exact day_ranges. Qed.
Print Assumptions C20_time_of_day.

(** Absolute and relative ranges, whenever accepted. *)
Theorem C20_absolute : forall rs l, fill_times false rs = Some l ->
  forall t, match_range t l = true <-> Exists (fun r => in_abs_range r t) rs.
Proof. exact abs_ranges. Qed.
Print Assumptions C20_absolute.

(** They are accepted exactly when none is negative or empty. *)
Theorem C20_absolute_accepted : forall rs, fill_times false rs <> None <-> Forall proper_range rs.
Proof. exact abs_accepted. Qed.
Print Assumptions C20_absolute_accepted.

(** 23:00..01:00 and 00:30+-2h. *)
Example C20_case :
  let r1 := MkTrange false (Q2Qc 82800) (Q2Qc 3600) in
  let r2 := MkTrange true (Q2Qc 1800) (Q2Qc 7200) in
  sane_range r1 /\ sane_range r2 /\
  option_map (map this) (fill_times true [r1; r2]) = Some [(-1); 3600; 82800; 86401; (-1); 9000; 81000; 86401]%Q.
Proof. split; [|split]; [| |vm_compute; reflexivity]; unfold sane_range; cbn [r_pm r_v1 r_v2]; repeat split; vm_compute; congruence. Qed.

(** Findings: half widths above 12 hours select the wrong side of the circle: 12:00+-50000s
    covers the whole day, but noon is not selected. *)
Theorem C20_wide_refuted : exists r t l, r_pm r = true /\ (0 <= r_v1 r)%Qc /\ (r_v1 r < day)%Qc /\ (r_v2 r < day)%Qc /\
  fill_times true [r] = Some l /\ in_day_range r t /\ match_range (time_of_day t) l = false.
Proof.
  exists (MkTrange true (Q2Qc 43200) (Q2Qc 50000)), (Q2Qc 43200). eexists.
  split; [reflexivity|]. split; [vm_compute; congruence|]. split; [reflexivity|]. split; [reflexivity|].
  split; [vm_compute; reflexivity|]. split; [exists 0%Z; split; reflexivity|]. vm_compute. reflexivity.
Qed.
Print Assumptions C20_wide_refuted.

(** A range that starts after 24:00 is accepted and selects too much: 25:00..26:00 selects 00:30. *)
Theorem C20_next_day_refuted : exists r t l, r_pm r = false /\ (r_v1 r < r_v2 r)%Qc /\
  fill_times true [r] = Some l /\ ~ in_day_range r t /\ match_range (time_of_day t) l = true.
Proof.
  exists (MkTrange false (Q2Qc 90000) (Q2Qc 93600)), (Q2Qc 1800). eexists.
  split; [reflexivity|]. split; [reflexivity|]. split; [vm_compute; reflexivity|]. split; [|vm_compute; reflexivity].
  unfold in_day_range. cbn [r_pm r_v1 r_v2]. intros (k & H1 & H2).
  replace (qltb (Q2Qc 90000) (Q2Qc 93600)) with true in H2 by reflexivity.
  unfold at_day, day, Qclt in H1, H2. rewrite !this_plus, !this_mult in H1, H2. cbn [this Q2Qc] in H1, H2. rewrite !Qred_correct in H1, H2.
  unfold Qlt, Qplus, Qmult, inject_Z in H1, H2. cbn [Qnum Qden] in H1, H2. lia.
Qed.
Print Assumptions C20_next_day_refuted.

(** * C21 *)

(** The mask has the channels in the ranges of both selections. *)
Theorem C21_mask : forall freqs ranges fr, (forall r, In r ranges -> fst r <= snd r) ->
  exists mask, fill_channels freqs ranges fr = Some mask /\ List.length mask = List.length freqs /\
    forall c, c < List.length freqs -> (nth c mask false = true <-> channel_selected freqs ranges fr c).
Proof. exact fill_channels_spec. Qed.
Print Assumptions C21_mask.

(** A channel range that ends before it starts is the only thing refused. *)
Theorem C21_refused : forall freqs ranges fr, fill_channels freqs ranges fr = None <-> exists r, In r ranges /\ snd r < fst r.
Proof. exact channels_refused. Qed.
Print Assumptions C21_refused.

(** Missing: the case of a selection without channels, which is refuted below.  A sample
    in a channel that is not selected is not selected by a set whose selection has a channel. *)
Theorem C21_partial : forall o d cf P mask b c,
  (forall p, leaves_channel o (fst (cf p))) -> builds cf [] P -> k_chan (fst (cf [])) = Some mask ->
  b < o_nbl o -> c < o_nchan o -> nth c mask false = false ->
  exists f, process o d P [] = Some f /\ nth c (nth b f []) false = false.
Proof. exact unselected_channel. Qed.
Print Assumptions C21_partial.

Definition no_criteria : crit := MkCrit [] [] [] [] [] [] [] None None None None None None None.
Definition obs_2x2 : pobs := MkPobs 2 2 1 (fun b => b) (fun _ => 1) 0%Qc.
Definition buffer_0 : pbuffer := MkPbuffer 0%Qc 0 0%Qc (fun _ => 0%Qc) (fun _ => (0, 0)%Qc) (fun _ _ _ _ => Some 0%Qc).
Definition with_chan (k : crit) (m : list bool) : crit :=
  MkCrit (k_times k) (k_lst k) (k_atimes k) (k_rtimes k) (k_slots k) (k_azim k) (k_elev k) (k_uv k) (k_bl k) (Some m)
    (k_ampl k) (k_real k) (k_imag k) (k_phase k).
Definition cross_only : crit := MkCrit [] [] [] [] [] [] [] None (Some (fun a b => negb (a =? b))) None None None None None.
Definition slot_0 : crit := MkCrit [] [] [] [] [0] [] [] None None None None None None None.

Example C21_case :
  let cf : config := fun _ => (with_chan cross_only [false; true], []) in
  (forall p, leaves_channel obs_2x2 (fst (cf p))) /\ builds cf [] (PSet (with_chan cross_only [false; true]) [] []) /\
  process obs_2x2 buffer_0 (PSet (with_chan cross_only [false; true]) [] []) [] = Some [[false; true]; [false; false]].
Proof.
  split; [intros p m [= <-]; split; [reflexivity|cbn; auto]|]. split; [now constructor|reflexivity].
Qed.

(** A selection without channels is ignored: with "baseline" (or "timeslot") it selects all channels. *)
Theorem C21_refuted : exists o d k m cf P f b c, fill_channels [Q2Qc 1; Q2Qc 2] [] [(Q2Qc 5, Q2Qc 6)] = Some m /\
  k_chan k = Some m /\ (forall x, ~ channel_selected [Q2Qc 1; Q2Qc 2] [] [(Q2Qc 5, Q2Qc 6)] x) /\
  cf [] = (k, []) /\ builds cf [] P /\ b < o_nbl o /\ c < o_nchan o /\
  process o d P [] = Some f /\ nth c (nth b f []) false = true.
Proof.
  exists obs_2x2, buffer_0, (with_chan slot_0 [false; false]), [false; false], (fun _ => (with_chan slot_0 [false; false], [])),
    (PSet (with_chan slot_0 [false; false]) [] []), [[true; true]; [true; true]], 0, 0.
  split; [vm_compute; reflexivity|]. split; [reflexivity|]. split.
  - intros x [_ [H|(r & f & [<-|[]] & Hf & H1 & H2)]]; [discriminate|]. cbn [fst] in H1.
    destruct x as [|[|x]]; cbn in Hf; [| |destruct x; discriminate]; injection Hf as <-; vm_compute in H1; discriminate.
  - split; [reflexivity|]. split; [now constructor|]. split; [cbn; auto|]. split; [cbn; auto|]. split; reflexivity.
Qed.
Print Assumptions C21_refuted.

(** * C51 *)

(** The flags of a set tree are those of the criteria and expressions of the configuration. *)
Theorem C51_selects : forall o d cf P, (forall p, leaves_channel o (fst (cf p))) ->
  (forall p, snd (cf p) <> [] -> exists ts e, expression ts (snd (cf p)) /\ disj ts e) ->
  builds cf [] P ->
  exists f, process o d P [] = Some f /\ List.length f = o_nbl o /\
    (forall b, b < o_nbl o -> List.length (nth b f []) = o_nchan o) /\
    forall b c, b < o_nbl o -> c < o_nchan o -> selects o d cf [] b c (nth c (nth b f []) false).
Proof. exact set_tree_selects. Qed.
Print Assumptions C51_selects.

(** ... which is a unique answer. *)
Theorem C51_unique : forall o d cf P, (forall p, leaves_channel o (fst (cf p))) -> builds cf [] P ->
  forall b c v v', b < o_nbl o -> c < o_nchan o -> selects o d cf [] b c v -> selects o d cf [] b c v' -> v = v'.
Proof. exact selects_unique. Qed.
Print Assumptions C51_unique.

(** The limits on the uv distance. *)
Theorem C51_uv : forall mn mx lim dist, uv_limits mn mx = Some lim -> (0 <= dist)%Qc -> (dist * dist <= Q2Qc (10 ^ 30))%Qc ->
  ((exists lo hi, lim = Some (lo, hi) /\ ((dist * dist < lo)%Qc \/ (hi < dist * dist)%Qc)) <-> uv_flagged mn mx dist).
Proof. exact uv_limits_spec. Qed.
Print Assumptions C51_uv.

Theorem C51_uv_accepted : forall mn mx, ((mx <= 0)%Qc \/ (mn < mx)%Qc) -> (mn < Q2Qc (10 ^ 15))%Qc -> uv_limits mn mx <> None.
Proof. exact uv_limits_accepted. Qed.
Print Assumptions C51_uv_accepted.

(** "!a" with cross correlations only, where a selects the second channel. *)
Example C51_case :
  let a : list ascii := chars "a" in
  let cf : config := fun p => match p with [] => (cross_only, chars "!a") | _ => (with_chan no_criteria [false; true], []) end in
  (forall p, leaves_channel obs_2x2 (fst (cf p))) /\
  (forall p, snd (cf p) <> [] -> exists ts e, expression ts (snd (cf p)) /\ disj ts e) /\
  exists P, builds cf [] P /\ process obs_2x2 buffer_0 P [] = Some [[true; false]; [false; false]].
Proof.
  intros a cf. split; [|split].
  - intros [|n p] m; cbn; [discriminate|]. intros [= <-]. split; [reflexivity|cbn; auto].
  - intros [|n p] H; [|now cbn in H]. exists [TNot; TName a], (BNot (BName a)). split.
    + exists [], (chars "!a"). split; [reflexivity|]. split; [constructor|].
      apply (wr_cons TNot _ (chars "!") [] (chars "a")); [apply sp_not1|constructor|cbn; apply mt_symbol; cbn; auto 10|].
      apply (wr_cons (TName a) _ (chars "a") [] []); [|constructor|exact I|constructor].
      apply sp_name; [reflexivity|..]; intros Hf; discriminate Hf.
    + apply disj_conj, conj_unary, unary_not, unary_prim, prim_name.
  - exists (PSet cross_only [RSet 0; ROp OpNot] [PSet (with_chan no_criteria [false; true]) [] []]). split; [|reflexivity].
    apply (builds_node cf [] cross_only (chars "!a") _ [a]); [reflexivity|discriminate|reflexivity|].
    constructor; [|constructor]. now constructor.
Qed.

Example C51_uv_case : uv_limits (Q2Qc 10) (Q2Qc 0) <> None /\ option_map (option_map (fun l => (this (fst l), this (snd l)))) (uv_limits (Q2Qc 10) (Q2Qc 20)) = Some (Some (100, 400)%Q) /\
  uv_flagged (Q2Qc 10) (Q2Qc 20) (Q2Qc 9) /\ ~ uv_flagged (Q2Qc 10) (Q2Qc 20) (Q2Qc 15).
Proof.
  split; [vm_compute; discriminate|]. split; [vm_compute; reflexivity|]. split; [left; reflexivity|].
  intros [H|[_ H]]; vm_compute in H; discriminate.
Qed.
