(** Model of the AntennaFlagger step: steps/AntennaFlagger.cc:19-33, 57-134 and antennaflagger/Flagger.cc:20-253.  Numbers are exact; infinity and not-a-number are kept.
    The statistics of the channels of a baseline (standard deviation and sum of squares, Flagger.cc:64-82) and the complex logarithm are parameters. *)
From Coq Require Import List Bool Arith ZArith QArith Qcanon.
From Verif Require Import QcUtil AverageModel BaselineModel InfoModel.
From Verif Require ApplyCalModel.
Import ListNotations.
Open Scope nat_scope.

(** Numbers that are not negative, with infinity and not-a-number, of antennaflagger/Flagger.cc *)
Notation ext := ApplyCalModel.ext.
Notation Fin := ApplyCalModel.Fin.
Notation Inf := ApplyCalModel.Inf.
Notation Nan := ApplyCalModel.Nan.
Notation eadd := ApplyCalModel.eadd.
Notation emul := ApplyCalModel.emul.
Notation einv := ApplyCalModel.einv.
(** antennaflagger/Flagger.cc:166-172: the division operator of C++ *)
Definition ediv (a b : ext) : ext := emul a (einv b).
(** antennaflagger/Flagger.cc:23: xt::isfinite *)
Definition finite (a : ext) : option Qc := match a with ApplyCalModel.Fin x => Some x | _ => None end.

(** xt::median of antennaflagger/Flagger.cc:166-172 for numbers that may be infinite: sorted, and the middle one or the mean of the two in the middle.  Numbers that are no number come last;
    they do not occur, since xt::nansum skips them. *)
Definition eleb (a b : ext) : bool :=
  match a, b with
  | ApplyCalModel.Fin x, ApplyCalModel.Fin y => qleb x y
  | ApplyCalModel.Fin _, _ | ApplyCalModel.Inf, ApplyCalModel.Inf | _, ApplyCalModel.Nan => true
  | _, _ => false
  end.
(** antennaflagger/Flagger.cc:166-172: sorting by insertion *)
Fixpoint einsert (x : ext) (l : list ext) : list ext := match l with [] => [x] | y :: r => if eleb x y then x :: l else y :: einsert x r end.
(** antennaflagger/Flagger.cc:166-172 *)
Fixpoint esort (l : list ext) : list ext := match l with [] => [] | x :: r => einsert x (esort r) end.
(** antennaflagger/Flagger.cc:166-172 *)
Definition emedian (l : list ext) : ext :=
  let s := esort l in let h := length s / 2 in
  if Nat.odd (length s) then nth h s Nan else emul (eadd (nth (h - 1) s Nan) (nth h s Nan)) (Fin half).

(** xt::stddev of antennaflagger/Flagger.cc:37, squared *)
Definition variance (l : list Qc) : Qc := let n := qn (length l) in let mean := (qsum l / n)%Qc in (qsum (map (fun x => (x - mean) * (x - mean))%Qc l) / n)%Qc.

Section Outliers.
(** The threshold *)
Variable sigma : Qc.
(** antennaflagger/Flagger.cc:40-45: a value is compared with median -/+ sigma * stddev; for a threshold that is not negative this is the same as comparing the squares, which have no square root *)
Definition outside (m v x : Qc) : bool := qltb (sigma * sigma * v)%Qc ((x - m) * (x - m))%Qc.
(** antennaflagger/Flagger.cc:36-55: the loop; a flagged value is replaced by the median *)
Fixpoint iterate (n : nat) (m : Qc) (l : list (bool * Qc)) : list bool :=
  match n with
  | 0 => map fst l
  | S n =>
      let v := variance (map snd l) in
      let l' := map (fun p => if negb (fst p) && outside m v (snd p) then (true, m) else p) l in
      if existsb (fun p => negb (fst p) && outside m v (snd p)) l then iterate n m l' else map fst l'
  end.
(** antennaflagger/Flagger.cc:20-58 (FindOutliers) *)
Definition find_outliers (max : nat) (data : list (option Qc)) : list bool :=
  let flags := map (fun x => match x with Some _ => false | None => true end) data in
  if forallb (fun b => b) flags then flags else
  let m := match emedian (flat_map (fun x => match x with Some x => [Fin x] | None => [] end) data) with ApplyCalModel.Fin m => m | _ => 0%Qc end in
  iterate max m (map (fun x => match x with Some x => (false, x) | None => (true, m) end) data).
End Outliers.

(** Operators | and & of xtensor on flags, antennaflagger/Flagger.cc:123-125, 174-176 *)
Definition map2 (f : bool -> bool -> bool) (a b : list bool) : list bool := map (fun p => f (fst p) (snd p)) (combine a b).
(** antennaflagger/Flagger.cc:123-125, 174-176 *)
Definition orl := map2 orb.
(** antennaflagger/Flagger.cc:219, 240 *)
Definition andl := map2 andb.

Section Step.
Context {D : Type}.
(** antennaflagger/Flagger.cc:64-82: the statistics of the visibilities of a baseline over the channels: of the real parts and the imaginary parts *)
Variables deviation squares : list D -> ext * ext.
(** antennaflagger/Flagger.cc:120-121: the real and imaginary part of log (1 + z), if finite *)
Variable log1 : ext * ext -> option Qc * option Qc.
(** The numbers of stations, antennas per station and correlations, the order of the baselines and the settings *)
Variables n_stations per n_corr : nat.
Variable o : order.
Variables sigma_a sigma_s : Qc.
Variables max_a max_s : nat.
(** n_antennas_ of antennaflagger/Flagger.h:40 *)
Definition n_ant : nat := n_stations * per.
(** The visibilities of a baseline and correlation *)
Variable vis : nat -> nat -> list D.

(** xt::nansum of antennaflagger/Flagger.cc:99: a complex number with a part that is no number is skipped *)
Definition nan_add (s x : ext * ext) : ext * ext :=
  match x with (ApplyCalModel.Nan, _) | (_, ApplyCalModel.Nan) => s | _ => (eadd (fst s) (fst x), eadd (snd s) (snd x)) end.
(** antennaflagger/Flagger.cc:84-107 (GroupStats): of an antenna and correlation *)
Definition group_stats (stat : list D -> ext * ext) (antenna c : nat) : ext * ext :=
  let s := fold_left nan_add (map (fun bl => stat (vis (Z.to_nat bl) c)) (baseline_list (Z.of_nat antenna) n_ant o)) (Fin 0%Qc, Fin 0%Qc) in
  (ediv (fst s) (Fin (qn per)), ediv (snd s) (Fin (qn per))).
(** antennaflagger/Flagger.cc:109-130 (ComputeAntennaFlags): of the antennas of a station *)
Definition antenna_flags (stat : list D -> ext * ext) (station : nat) : list bool :=
  fold_left (fun flags c =>
    let l := map (fun i => log1 (group_stats stat (station * per + i) c)) (seq 0 per) in
    orl flags (orl (find_outliers sigma_a max_a (map fst l)) (find_outliers sigma_a max_a (map snd l))))
  (seq 0 n_corr) (repeat false per).
(** antennaflagger/Flagger.cc:159-176: the values of a part of a correlation for the stations *)
Definition station_values (stat : list D -> ext * ext) (part : ext * ext -> ext) (c : nat) : list (option Qc) :=
  let value station i := part (group_stats stat (station * per + i) c) in
  let scale := emedian (flat_map (fun s => map (value s) (seq 0 per)) (seq 0 n_stations)) in
  map (fun s => finite (ediv (emedian (map (value s) (seq 0 per))) scale)) (seq 0 n_stations).
(** antennaflagger/Flagger.cc:132-180 (ComputeStationFlags): of a correlation, for all stations *)
Definition station_flags (stat : list D -> ext * ext) (c : nat) : list bool :=
  orl (find_outliers sigma_s max_s (station_values stat fst c)) (find_outliers sigma_s max_s (station_values stat snd c)).
(** antennaflagger/Flagger.cc:205-224 (FindBadAntennas) *)
Definition bad_antennas : list bool :=
  andl (flat_map (antenna_flags deviation) (seq 0 n_stations)) (flat_map (antenna_flags squares) (seq 0 n_stations)).
(** antennaflagger/Flagger.cc:138-140: the correlations that are used for the stations *)
Definition used : list nat := if n_corr =? 4 then [0; 3] else [0].
(** antennaflagger/Flagger.cc:226-253 (FindBadStations) *)
Definition bad_stations : list bool :=
  let bad s := forallb (fun c => nth s (andl (station_flags deviation c) (station_flags squares c)) false) used in
  flat_map (fun s => repeat (bad s) per) (seq 0 n_stations).
(** steps/AntennaFlagger.cc:102-108: the antennas that are flagged *)
Definition flagged_antennas : list nat := filter (fun a => nth a (orl bad_antennas bad_stations) false) (seq 0 n_ant).
(** steps/AntennaFlagger.cc:98-134 (process): the flags of every baseline, channel and correlation *)
Definition process (flags : list (list (list bool))) : list (list (list bool)) :=
  fold_left (fun flags bl => set_nth flags bl (map (map (fun _ => true)) (nth bl flags [])))
    (flat_map (fun a1 => map (fun a2 => Z.to_nat (baseline_index (Z.of_nat a1) (Z.of_nat a2) (Z.of_nat n_ant) o)) (seq 0 n_ant)) flagged_antennas) flags.
End Step.

(** steps/AntennaFlagger.cc:19-33 (HasBaselineOrder) *)
Definition has_order (o : order) (n : nat) (baselines : list (nat * nat)) : bool :=
  forallb (fun p => let '(a, b) := baseline_of_index (Z.of_nat (fst p)) (Z.of_nat n) o in (a =? Z.of_nat (fst (snd p)))%Z && (b =? Z.of_nat (snd (snd p)))%Z) (combine (seq 0 (length baselines)) baselines).
(** steps/AntennaFlagger.cc:57-96 (updateInfo): the order of the baselines, the number of stations and of antennas per station; [a12]: the name of the first antenna starts with A12 *)
Definition update_info (n : nat) (a12 : bool) (baselines : list (nat * nat)) : outcome (order * nat * nat) :=
  if negb (n_baselines (Z.of_nat n) =? Z.of_nat (length baselines))%Z then Throw else
  match (if has_order ColumnMajor n baselines then Some ColumnMajor else if has_order RowMajor n baselines then Some RowMajor else None) with
  | None => Throw
  | Some o => if a12 then if n mod 48 =? 0 then Ok (o, n / 48, 48) else Throw else Ok (o, n, 1)
  end.
