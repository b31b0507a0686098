(** Which antennas are bad, and what must be flagged *)
From Coq Require Import List Bool Arith ZArith Permutation QArith Qcanon.
From Verif Require Import QcUtil AverageModel BaselineModel MedianSpec AntFlagModel.
Import ListNotations.
Open Scope nat_scope.

(** The order of numbers *)
Definition ele (a b : ext) : Prop :=
  match a, b with
  | ApplyCalModel.Fin x, ApplyCalModel.Fin y => (x <= y)%Qc
  | ApplyCalModel.Inf, ApplyCalModel.Fin _ | ApplyCalModel.Nan, ApplyCalModel.Fin _ | ApplyCalModel.Nan, ApplyCalModel.Inf => False
  | _, _ => True
  end.
Inductive in_order : list ext -> Prop := io_nil : in_order [] | io_cons x l : (forall y, In y l -> ele x y) -> in_order l -> in_order (x :: l).
(** [m] is the median of numbers, some of which may be infinite *)
Definition is_emedian (v : list ext) (m : ext) : Prop :=
  exists s, Permutation v s /\ in_order s /\
  if Nat.odd (length s) then nth_error s (length s / 2) = Some m
  else exists a b, nth_error s (length s / 2 - 1) = Some a /\ nth_error s (length s / 2) = Some b /\ m = emul (eadd a b) (Fin half).

(** The mean of the squares minus the square of the mean *)
Definition spread (n : nat) (f : nat -> Qc) : Qc :=
  let l := map f (seq 0 n) in (qsum (map (fun x => x * x)%Qc l) / qn n - (qsum l / qn n) * (qsum l / qn n))%Qc.
(** Outliers of [n] values after [k] rounds: all that are not finite, and those that in some round were further from the median of the finite values than [sigma] standard deviations;
    for the standard deviation of a round the values that were found before are replaced by the median *)
Fixpoint outlier (n : nat) (x : nat -> option Qc) (m sigma : Qc) (k : nat) (j : nat) : bool :=
  match k with
  | 0 => match x j with Some _ => false | None => true end
  | S k => outlier n x m sigma k j ||
      match x j with
      | Some v => qltb (sigma * sigma * spread n (fun i => if outlier n x m sigma k i then m else match x i with Some y => y | None => m end))%Qc ((v - m) * (v - m))%Qc
      | None => true
      end
  end.
Definition finites (n : nat) (x : nat -> option Qc) : list Qc := flat_map (fun i => match x i with Some y => [y] | None => [] end) (seq 0 n).

Section Spec.
Context {D : Type}.
(** Medians *)
Variable qmedian : list Qc -> Qc.
Variable median : list ext -> ext.
Variables deviation squares : list D -> ext * ext.
Variable log1 : ext * ext -> option Qc * option Qc.
Variables n_stations per n_corr : nat.
Variables sigma_a sigma_s : Qc.
Variables max_a max_s : nat.
(** The visibilities of two antennas, the lower number first, and of a correlation *)
Variable vis : nat -> nat -> nat -> list D.

(** The sum of what is a number *)
Fixpoint total (l : list (ext * ext)) : ext * ext :=
  match l with
  | [] => (Fin 0%Qc, Fin 0%Qc)
  | (a, b) :: l => match a, b with ApplyCalModel.Nan, _ | _, ApplyCalModel.Nan => total l | _, _ => (eadd a (fst (total l)), eadd b (snd (total l))) end
  end.
(** The statistic of an antenna: the sum over its baselines with all antennas, per antenna of a station *)
Definition statistic (stat : list D -> ext * ext) (a c : nat) : ext * ext :=
  let t := total (map (fun b => stat (vis (Nat.min a b) (Nat.max a b) c)) (seq 0 (n_stations * per))) in (ediv (fst t) (Fin (qn per)), ediv (snd t) (Fin (qn per))).
Definition is_outlier (sigma : Qc) (max n : nat) (x : nat -> option Qc) (j : nat) : bool := outlier n x (qmedian (finites n x)) sigma max j.
(** Antenna i of a station is an outlier in the station, for some correlation and part *)
Definition antenna_out (stat : list D -> ext * ext) (s i : nat) : bool :=
  existsb (fun c => let x i := log1 (statistic stat (s * per + i) c) in is_outlier sigma_a max_a per (fun i => fst (x i)) i || is_outlier sigma_a max_a per (fun i => snd (x i)) i) (seq 0 n_corr).
(** The station is an outlier for a correlation: the median of its antennas relative to the median of all *)
Definition station_out (stat : list D -> ext * ext) (s c : nat) : bool :=
  let x (part : ext * ext -> ext) s := finite (ediv (median (map (fun i => part (statistic stat (s * per + i) c)) (seq 0 per))) (median (map (fun a => part (statistic stat a c)) (seq 0 (n_stations * per))))) in
  is_outlier sigma_s max_s n_stations (x fst) s || is_outlier sigma_s max_s n_stations (x snd) s.
(** A bad antenna: an outlier for both statistics, or in a station that is an outlier for both statistics in XX and, of four correlations, in YY *)
Definition bad (a : nat) : bool :=
  let s := a / per in
  antenna_out deviation s (a mod per) && antenna_out squares s (a mod per) ||
  (station_out deviation s 0 && station_out squares s 0 && (negb (n_corr =? 4) || station_out deviation s 3 && station_out squares s 3)).
End Spec.

(** The outliers as documented: in every round only the values that were not found before are used, for the median and for the standard deviation *)
Fixpoint documented (qmedian : list Qc -> Qc) (n : nat) (x : nat -> Qc) (sigma : Qc) (k : nat) (j : nat) : bool :=
  match k with
  | 0 => false
  | S k =>
      let l := map x (filter (fun i => negb (documented qmedian n x sigma k i)) (seq 0 n)) in
      let m := qmedian l in
      documented qmedian n x sigma k j || qltb (sigma * sigma * spread (length l) (fun i => nth i l 0%Qc))%Qc ((x j - m) * (x j - m))%Qc
  end.
(** The baselines are all pairs of antennas, at the places of an order *)
Definition laid_out (o : order) (n : nat) (baselines : list (nat * nat)) : Prop :=
  Z.of_nat (length baselines) = n_baselines (Z.of_nat n) /\ forall p q, p <= q < n -> nth_error baselines (Z.to_nat (baseline_index (Z.of_nat p) (Z.of_nat q) (Z.of_nat n) o)) = Some (p, q).
