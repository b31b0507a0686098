(** What the preflagger should select and change. *)
From Coq Require Import QArith Qcanon List Bool Arith ZArith Ascii.
From Verif Require Import QcUtil FlagExprModel FlagExprSpec PreflagModel.
Import ListNotations.
Open Scope nat_scope.

(** * C19: what a mode may do to a sample.
    [f], [f']: flags of the sample before and after, [hit]: the sample is to be acted on,
    [valid]: all its data are finite with non-zero weight. *)
Definition set_allowed (hit : bool) (f f' : nat -> bool) : Prop :=
  (forall p, f p = true -> f' p = true) /\ (hit = false -> forall p, f' p = f p).
Definition clear_allowed (hit valid : bool) (f f' : nat -> bool) : Prop :=
  forall p, f p = true -> f' p = false -> hit = true /\ valid = true.

(** The samples a mode acts on, given the ones that match. *)
Definition acts_on (m : pmode) (matched : bool) : bool :=
  match m with SetFlag | ClearFlag => matched | SetComp | ClearComp => negb matched end.

(** The flags of the correlations are all equal. *)
Definition uniform (f : nat -> bool) : Prop := forall p, f p = f 0.

(** * C20: an interval on the circle of 24 hours, lifted to all times *)
Definition at_day (k : Z) (t : Qc) : Qc := (t + Q2Qc (inject_Z k) * day)%Qc.

(** Some day has an interval around [t]: from [v1] to [v2], on the next day if [v2] is not after
    [v1]; or less than the half width from the centre. *)
Definition in_day_range (r : trange) (t : Qc) : Prop :=
  if r_pm r then exists k, (at_day k (r_v1 r) - r_v2 r < t)%Qc /\ (t < at_day k (r_v1 r) + r_v2 r)%Qc
  else exists k, (at_day k (r_v1 r) < t)%Qc /\ (t < at_day (if qltb (r_v1 r) (r_v2 r) then k else k + 1) (r_v2 r))%Qc.

(** Ranges within the day; half widths of at most 12 hours. *)
Definition sane_range (r : trange) : Prop :=
  (0 <= r_v1 r)%Qc /\ (r_v1 r < day)%Qc /\
  if r_pm r then (0 < r_v2 r)%Qc /\ (r_v2 r + r_v2 r <= day)%Qc else (0 <= r_v2 r)%Qc /\ (r_v2 r <= day)%Qc.

(** Absolute ranges. *)
Definition in_abs_range (r : trange) (t : Qc) : Prop :=
  if r_pm r then (r_v1 r - r_v2 r < t)%Qc /\ (t < r_v1 r + r_v2 r)%Qc else (r_v1 r < t)%Qc /\ (t < r_v2 r)%Qc.

(** * C51: the samples a set selects *)
Section Sets.
Variables (o : pobs) (d : pbuffer).

Definition in_range (v : Qc) (ranges : list Qc) : Prop :=
  exists i, S (2 * i) < length ranges /\ (nth (2 * i) ranges 0%Qc < v)%Qc /\ (v < nth (S (2 * i)) ranges 0%Qc)%Qc.

Definition beyond (lim : list Qc * list Qc) (x : Qc) (j : nat) : Prop :=
  (x < nth j (fst lim) 0%Qc)%Qc \/ (nth j (snd lim) 0%Qc < x)%Qc.

Definition value_match (q : quantity) (lim : option (list Qc * list Qc)) (b c : nat) : Prop :=
  forall l, lim = Some l -> exists j x, j < o_ncorr o /\ d_val d q b c j = Some x /\ beyond l x j.

(** Every criterion that is given holds. *)
Record matches (k : crit) (b c : nat) : Prop := MkMatches {
  m_atimes : k_atimes k <> [] -> in_range (d_time d) (k_atimes k);
  m_rtimes : k_rtimes k <> [] -> in_range (d_time d - o_start o)%Qc (k_rtimes k);
  m_times : k_times k <> [] -> in_range (time_of_day (d_time d)) (k_times k);
  m_slots : k_slots k <> [] -> In (d_slot d) (k_slots k);
  m_lst : k_lst k <> [] -> in_range (d_lst d) (k_lst k);
  m_bl : forall mat, k_bl k = Some mat -> mat (o_ant1 o b) (o_ant2 o b) = true;
  m_uv : forall lo hi, k_uv k = Some (lo, hi) -> (d_uv2 d b < lo)%Qc \/ (hi < d_uv2 d b)%Qc;
  m_azel : forall a, a = o_ant1 o b \/ a = o_ant2 o b ->
    (k_azim k <> [] -> in_range (fst (d_azel d a)) (k_azim k)) /\
    (k_elev k <> [] -> in_range (snd (d_azel d a)) (k_elev k));
  m_chan : forall mask, k_chan k = Some mask -> nth c mask false = true;
  m_ampl : value_match Ampl (k_ampl k) b c;
  m_real : value_match Real (k_real k) b c;
  m_imag : value_match Imag (k_imag k) b c;
  m_phase : value_match Phase (k_phase k) b c }.

(** A set without criteria and expression selects nothing. *)
Definition some_criterion (k : crit) : Prop :=
  k_times k <> [] \/ k_lst k <> [] \/ k_atimes k <> [] \/ k_rtimes k <> [] \/ k_slots k <> [] \/
  k_azim k <> [] \/ k_elev k <> [] \/ k_uv k <> None \/ k_bl k <> None \/ k_chan k <> None \/
  k_ampl k <> None \/ k_real k <> None \/ k_imag k <> None \/ k_phase k <> None.

(** [selects p b c v]: the set named by the path [p] selects the sample or not. *)
Inductive selects (cf : config) : list (list ascii) -> nat -> nat -> bool -> Prop :=
| sel_leaf p k b c v : cf p = (k, []) -> (v = true <-> some_criterion k /\ matches k b c) -> selects cf p b c v
| sel_node p k s ts e env own b c v : cf p = (k, s) -> s <> [] -> expression ts s -> disj ts e ->
    (forall n, In n (names_of ts) -> selects cf (p ++ [n]) b c (env n)) ->
    (own = true <-> matches k b c) -> v = own && beval env e -> selects cf p b c v.
End Sets.

(** The channel selection of a set, if given, leaves a channel. *)
Definition leaves_channel (o : pobs) (k : crit) : Prop :=
  forall mask, k_chan k = Some mask -> length mask = o_nchan o /\ In true mask.

(** The channel is selected by the channel ranges (bounds included) and the frequency
    ranges (open intervals), where no ranges means no restriction. *)
Definition channel_selected (chan_freqs : list Qc) (ranges : list (nat * nat)) (freqs : list (Qc * Qc)) (c : nat) : Prop :=
  (ranges = [] \/ exists r, In r ranges /\ fst r <= c <= snd r) /\
  (freqs = [] \/ exists r f, In r freqs /\ nth_error chan_freqs c = Some f /\ (fst r < f)%Qc /\ (f < snd r)%Qc).

(** uvmmin and uvmmax in terms of the distance: flag below the minimum, beyond the maximum if it is positive. *)
Definition uv_flagged (mn mx dist : Qc) : Prop := (dist < mn)%Qc \/ ((0 < mx)%Qc /\ (mx < dist)%Qc).

(** Absolute ranges that make sense: not negative and not empty. *)
Definition proper_range (r : trange) : Prop :=
  (0 <= r_v1 r)%Qc /\ if r_pm r then (0 < r_v2 r)%Qc else (r_v1 r < r_v2 r)%Qc.
