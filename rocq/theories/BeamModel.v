(** Model of steps/ApplyBeam.cc, of SelectStationIndices in base/Telescope.cc, and of what other steps tell about the beam (steps/OnePredict.cc:272-277).  Numbers are exact; a beam that
    has no inverse is undefined.  The response of a station (EveryBeam) is a parameter: it depends on the time, the mode, the station, the frequency and the direction. *)
From Coq Require Import String List Bool Arith QArith Qcanon.
From Verif Require Import QcUtil Cplx AverageModel GainModel ApplyCalModel.
Import ListNotations.
Open Scope nat_scope.

(** everybeam::BeamMode, as used in steps/ApplyBeam.cc:116-168 *)
Inductive mode := NoBeam | Full | Element | ArrayFactor.
(** steps/ApplyBeam.cc:282-287: equality of modes *)
Definition mode_eqb (a b : mode) : bool :=
  match a, b with NoBeam, NoBeam | Full, Full | Element, Element | ArrayFactor, ArrayFactor => true | _, _ => false end.
(** casacore::MDirection in J2000: right ascension and declination *)
Notation dir := (Qc * Qc)%type.
(** everybeam::telescope::Telescope, as used in base/Telescope.cc:17-49: IsHomogeneous and the names of the stations *)
Record telescope := Tel { homogeneous : bool; station_names : list string }.
(** base/DPInfo.h:281-294, 341-375: the names of the antennas, the antennas of the baselines, the frequencies, the phase centre, the beam for which the data have been corrected, and the
    directions of the model data *)
Record info := Info { names : list string; baselines : list (nat * nat); freqs : list Qc; centre : dir; i_mode : mode; i_dir : dir; models : list (string * dir) }.
(** steps/ApplyBeam.h:129-162: the settings *)
Record settings := Set_ { invert : bool; update : bool; direction : option dir; skip : list string; s_mode : mode; use_model : bool }.
(** steps/ApplyBeam.h:129-162: what updateInfo keeps *)
Record step := Step { e_dir : dir; start_mode : mode; start_dir : dir; indices : list nat; skipped : list nat }.

(** base/Telescope.cc:36-42: the stations from number [i]; the names that are left are those after the last one found *)
Fixpoint select_loop (i : nat) (stations : list string) (wanted : list string) : list nat * list string :=
  match stations with
  | [] => ([], wanted)
  | s :: stations =>
      match wanted with
      | w :: rest =>
          if String.eqb s w then let '(l, w) := select_loop (S i) stations rest in (i :: l, w) else select_loop (S i) stations wanted
      | [] => select_loop (S i) stations []
      end
  end.
(** base/Telescope.cc:17-49 (SelectStationIndices) *)
Definition select_stations (t : telescope) (wanted : list string) : outcome (list nat) :=
  if homogeneous t then Ok [0]
  else let '(l, w) := select_loop 0 (station_names t) wanted in match w with [] => Ok l | _ => Throw end.
(** steps/ApplyBeam.cc:340-344: the stations to skip *)
Fixpoint select_skipped (t : telescope) (l : list string) : outcome (list nat) :=
  match l with
  | [] => Ok []
  | s :: l => let! i := select_stations t [s] in let! i := get i 0 in let! l := select_skipped t l in Ok (i :: l)
  end.
(** steps/ApplyBeam.cc:293-299: 1e-9 *)
Definition tolerance : Qc := Q2Qc (1 # 1000000000).
(** std::abs *)
Definition qabs (x : Qc) : Qc := if qltb x 0 then (- x)%Qc else x.
(** steps/ApplyBeam.cc:293-299 *)
Definition close (a b : dir) : bool := negb (qltb tolerance (qabs (fst a - fst b)%Qc) || qltb tolerance (qabs (snd a - snd b)%Qc)).
(** base/DPInfo.h:286-294 (setBeamCorrectionMode) *)
Definition set_mode (m : mode) (i : info) : info := Info (names i) (baselines i) (freqs i) (centre i) m (i_dir i) (models i).
(** base/DPInfo.h:286-294 (setBeamCorrectionDir) *)
Definition set_dir (d : dir) (i : info) : info := Info (names i) (baselines i) (freqs i) (centre i) (i_mode i) d (models i).
(** steps/ApplyBeam.cc:273-311: what is told about the beam after this step, and the mode and direction before it if these have to be undone *)
Definition correction (s : settings) (d : dir) (i : info) : outcome (info * (mode * dir)) :=
  if invert s then Ok (set_dir d (set_mode (s_mode s) i), (i_mode i, i_dir i))
  else if use_model s then Ok (i, (NoBeam, (0%Qc, 0%Qc)))
  else if mode_eqb (i_mode i) NoBeam then Throw
  else if negb (mode_eqb (i_mode i) (s_mode s)) then Throw
  else if negb (close (i_dir i) d) then Throw
  else Ok (set_mode NoBeam i, (NoBeam, (0%Qc, 0%Qc))).
(** steps/ApplyBeam.cc:240-346 (updateInfo) *)
Definition update_info (t : telescope) (s : settings) (i : info) : outcome (step * info) :=
  if use_model s && match models i with [] => true | _ => false end then Throw
  else
    let d := match direction s with None => centre i | Some d => d end in
    let! (out, (m, sd)) := correction s d i in
    let! ind := select_stations t (names i) in
    let! sk := select_skipped t (skip s) in
    Ok (Step d m sd ind sk, out).

(** aocommon::MC2x2::Unity, steps/ApplyBeam.cc:122 *)
Definition unity : mat := Mat c1 c0 c0 c1.
(** std::complex: one divided by a number *)
Definition reciprocal (a : cplx) : outcome cplx := if Qc_eq_dec (cnorm a) 0 then Undefined else Ok (cinv a).
(** steps/ApplyBeam.cc:125-132, 149-156: the inverse of a response; only the diagonal is used for an array factor *)
Definition inverse (m : mode) (a : mat) : outcome mat :=
  match m with
  | ArrayFactor => let! x := reciprocal (m0 a) in let! y := reciprocal (m3 a) in Ok (Mat x c0 c0 y)
  | NoBeam => Ok a
  | _ => match minvert a with Some b => Ok b | None => Undefined end
  end.
(** steps/ApplyBeam.cc:147-157: channel by channel, baseline by baseline and so on; nothing is done after something undefined *)
Fixpoint each {T U} (f : T -> outcome U) (l : list T) : outcome (list U) :=
  match l with [] => Ok [] | x :: l => let! y := f x in let! l := each f l in Ok (y :: l) end.

(** base/DPBuffer.h: the weights and main visibilities, and the named visibilities *)
Notation main := (list (list (mat * weights))).
(** base/DPBuffer.h: named visibilities *)
Notation cube := (list (list mat)).

Section Response.
(** everybeam::pointresponse::PointResponse::Response: time, mode, station, frequency and direction *)
Variable response : Qc -> mode -> nat -> Qc -> dir -> mat.

(** steps/ApplyBeam.cc:118-136, 140-160, 162-168: the beam of a station in a channel; [st] is the number in the list of indices *)
Definition beam_value (time : Qc) (s : step) (d : dir) (inv : bool) (m : mode) (st : nat) (index : nat) (f : Qc) : outcome mat :=
  match m with
  | NoBeam => Ok unity
  | _ =>
      if existsb (Nat.eqb st) (skipped s) then Ok unity
      else let r := response time m index f d in if inv then inverse m r else Ok r
  end.
(** steps/ApplyBeam.cc:96-169 (ComputeBeam): the beam values, station by station and channel by channel *)
Definition compute_beam (time : Qc) (s : step) (fs : list Qc) (d : dir) (inv : bool) (m : mode) : outcome (list mat) :=
  let! l := each (fun x => each (beam_value time s d inv m (fst x) (snd x)) fs) (combine (seq 0 (length (indices s))) (indices s)) in Ok (concat l).
(** steps/ApplyBeam.cc:70-73: the first value of an antenna *)
Definition start_of (n_stations n_channels antenna : nat) : nat := if n_stations =? 1 then 0 else n_channels * antenna.
(** steps/ApplyBeam.cc:74-86: a channel *)
Definition apply_sample (upd : bool) (l r : mat) (x : mat * weights) : mat * weights :=
  (mmul l (mmul (fst x) (mherm r)), if upd then full_weights l r (snd x) else snd x).
(** steps/ApplyBeam.cc:54-88 (ApplyBeamToData) *)
Definition apply_to_data (i : info) (n_stations : nat) (values : list mat) (upd : bool) (data : main) : outcome main :=
  let n := length (freqs i) in
  each (fun x : (nat * nat) * list (mat * weights) =>
      let '((a, b), row) := x in
      each (fun y : nat * (mat * weights) =>
          let! l := get values (start_of n_stations n a + fst y) in
          let! r := get values (start_of n_stations n b + fst y) in
          Ok (apply_sample upd l r (snd y))) (combine (seq 0 n) row))
    (combine (baselines i) data).
(** steps/ApplyBeam.cc:417-458 (ProcessData) *)
Definition process_data (s : settings) (e : step) (i : info) (time : Qc) (data : main) : outcome main :=
  let! data :=
    if invert s && negb (mode_eqb (start_mode e) NoBeam) then
      let! values := compute_beam time e (freqs i) (start_dir e) false (start_mode e) in
      apply_to_data i (length (indices e)) values (update s) data
    else Ok data in
  let! values := compute_beam time e (freqs i) (e_dir e) (invert s) (s_mode s) in
  apply_to_data i (length (indices e)) values (update s) data.
(** steps/ApplyBeam.cc:384-415: visibilities without weights *)
Definition bare (c : cube) : main := map (map (fun v => (v, Wt Nan Nan Nan Nan))) c.
(** steps/ApplyBeam.cc:384-415 (ProcessModelData): the visibilities of each direction with their own beam; there are visibilities for each direction *)
Definition process_models (s : settings) (e : step) (i : info) (time : Qc) (l : list (string * cube)) : outcome (list (string * cube)) :=
  each (fun x : string * cube =>
      match find (fun y => String.eqb (fst y) (fst x)) (models i) with
      | None => Ok x
      | Some (_, d) =>
          let! values := compute_beam time e (freqs i) d (invert s) (s_mode s) in
          let! data := apply_to_data i (length (indices e)) values false (bare (snd x)) in
          Ok (fst x, map (map fst) data)
      end) l.
(** steps/ApplyBeam.h:103-109 (process) *)
Definition process (s : settings) (e : step) (i : info) (time : Qc) (b : main * list (string * cube)) : outcome (main * list (string * cube)) :=
  if use_model s then let! l := process_models s e i time (snd b) in Ok (fst b, l)
  else let! data := process_data s e i time (fst b) in Ok (data, snd b).

(** Steps that change the data or what is told about the beam: ApplyBeam; and Predict, whose data are given here, and which puts these in the main visibilities or in named ones
    (steps/OnePredict.cc:272-277, 505-537), with operation replace *)
Inductive action := Apply (s : settings) | Replace (name : string) (data : main).
(** base/DP3.cc:374-398: a step, for one time slot *)
Definition act (t : telescope) (time : Qc) (x : info * (main * list (string * cube))) (a : action) : outcome (info * (main * list (string * cube))) :=
  let '(i, b) := x in
  match a with
  | Apply s => let! (e, out) := update_info t s i in let! b := process s e out time b in Ok (out, b)
  | Replace name data =>
      Ok (set_mode NoBeam i, if String.eqb name "" then (data, snd b) else (fst b, (name, map (map fst) data) :: filter (fun x => negb (String.eqb (fst x) name)) (snd b)))
  end.
(** base/DP3.cc:374-398: the steps one after the other, for one time slot *)
Fixpoint act_all (t : telescope) (time : Qc) (x : info * (main * list (string * cube))) (l : list action) : outcome (info * (main * list (string * cube))) :=
  match l with [] => Ok x | a :: l => let! x := act t time x a in act_all t time x l end.
End Response.
