(** Model of the visibilities, flags and weights that steps/MsReader.cc reads for a time slot, and of its channel selection. *)
From Coq Require Import QArith Qround Qcanon List Bool Arith ZArith.
From Verif Require Import QcUtil AverageModel InfoModel.
Import ListNotations.
Open Scope nat_scope.

(** * Channel selection *)

(** Conversion of a double to unsigned int: truncated; values that do not fit are undefined behaviour *)
(** steps/MsReader.cc:546,548 *)
Definition to_unsigned (x : Qc) : option Z :=
  let z := if qltb x 0 then (- Qfloor (this (- x)%Qc))%Z else Qfloor (this x) in
  if ((0 <=? z) && (z <? 2 ^ 32))%Z then Some z else None.
(** steps/MsReader.cc:537-561 (ParseChannelSelection): [start] and [n] are the values of the two expressions, [n_all] the number
    of channels in the measurement set *)
Definition parse_channels (start n : Qc) (n_all : Z) : outcome (Z * Z) :=
  match to_unsigned (start + Q2Qc (1 # 1000))%Qc with
  | None => Undefined
  | Some start_channel =>
    match to_unsigned (n + Q2Qc (1 # 10000))%Qc with
    | None => Undefined
    | Some n_channels =>
      if (n_all <=? start_channel)%Z then Throw
      else let max_n := (n_all - start_channel)%Z in
           Ok (start_channel, if (n_channels =? 0)%Z then max_n else Z.min n_channels max_n)
    end
  end.

Section Cells.
(** Visibilities, with what the code asks of them: zero, std::isfinite of both parts, and the real part *)
Variables (D : Type) (zero : D) (finite : D -> bool) (re : D -> Qc).

(** A row of the measurement set: DATA and FLAG (channels, correlations), FLAG_ROW, WEIGHT (correlations) and WEIGHT_SPECTRUM
    (channels, correlations) *)
(** steps/MsReader.cc:266,303,315,934,945 *)
Record row := MkRow { r_data : list (list D); r_flag : list (list bool); r_flag_row : bool; r_weight : list Qc;
                      r_spectrum : list (list Qc) }.
(** What the reader knows: the number of baselines, the antennas of the baselines, the selected channels (steps/MsReader.cc:580-597),
    their widths and the interval, the number of correlations, the fields to read, the settings of the user, and which columns
    there are *)
(** steps/MsReader.h:226-248 *)
Record settings := MkSettings {
  n_bl : nat; ant1 : list nat; ant2 : list nat; start : nat; n_chan : nat; widths : list Qc; interval : Qc; n_corr : nat;
  read_data : bool; read_flags : bool; read_weights : bool;
  use_flags : bool; auto_weight : bool; missing_data : bool; has_spectrum : bool }.
(** The cubes of the buffer, in memory order (baseline, channel, correlation); empty if not read *)
(** base/DPBuffer.h *)
Record cells := MkCells { c_data : list D; c_flags : list bool; c_weights : list Qc }.

(** steps/MsReader.cc:588-593: the slicers; all channels are read without them, which gives the same *)
Definition slice {A} (s : settings) (l : list (list A)) : list A := concat (firstn (n_chan s) (skipn (start s) l)).
(** steps/MsReader.cc:269-278, 305-312, 935-942: a column of the rows of the time slot *)
Definition column {A} (s : settings) (f : row -> list (list A)) (rows : list row) : list A := flat_map (fun r => slice s (f r)) rows.

(** steps/MsReader.cc:383-385: set the flags of a sample *)
Definition fill_flags (n i : nat) (flags : list bool) : list bool := fold_left (fun l k => set_nth l k true) (seq i n) flags.
(** steps/MsReader.cc:376-389: the correlations of the sample at [i]; [n] are left from [j] on *)
Fixpoint flag_sample (ncorr : nat) (data : list D) (i j n : nat) (st : list bool * list nat) : list bool * list nat :=
  match n with
  | O => st
  | S n =>
    let (flags, counts) := st in
    let bad := negb (finite (nth j data zero)) in
    let counts := if bad then set_nth counts (j - i) (nth (j - i) counts 0 + 1) else counts in
    if bad || nth j flags false then (fill_flags ncorr i flags, counts)
    else flag_sample ncorr data i (j + 1) n (flags, counts)
  end.
(** steps/MsReader.cc:371-391 (FlagInfinityNan).  The number of correlations is that of the data, which is empty if it is not
    read. *)
Definition flag_infinity_nan (ncorr : nat) (data : list D) (st : list bool * list nat) : list bool * list nat :=
  match data with
  | [] => st
  | _ => fold_left (fun st i => flag_sample ncorr data i i ncorr st) (map (fun g => g * ncorr) (seq 0 (length data / ncorr))) st
  end.
(** steps/MsReader.cc:301-329: the flags, and the counts per correlation *)
Definition get_flags (s : settings) (rows : list row) (data : list D) (counts : list nat) : list bool * list nat :=
  let flags :=
    if use_flags s then
      flat_map (fun r => if r_flag_row r then repeat true (n_chan s * n_corr s) else slice s (r_flag r)) rows
    else repeat false (n_bl s * n_chan s * n_corr s) in
  flag_infinity_nan (n_corr s) data (flags, counts).

(** base/DPInfo.cc:487-503 (getAutoCorrIndex): the last baseline between a station and itself *)
Definition auto_index (s : settings) (a : nat) : option nat :=
  fold_left (fun r b => if (nth b (ant1 s) 0 =? a) && (nth b (ant2 s) 0 =? a) then Some b else r) (seq 0 (n_bl s)) None.
(** steps/MsReader.cc:987-1005: the weights of a sample *)
Definition auto_weight_sample (npol : nat) (w : Qc) (auto1 auto2 : nat -> Qc) (weight : list Qc) : list Qc :=
  let zero_at (k : nat) := Qc_eq_bool (auto1 k) 0 || Qc_eq_bool (auto2 k) 0 in
  let times (l : list Qc) (k i j : nat) := set_nth l k (nth k l 0 * (w / (auto1 i * auto2 j)))%Qc in
  if zero_at 0 then weight
  else
    let weight := times weight 0 0 0 in
    if npol =? 4 then
      if zero_at 3 then weight else times (times (times weight 1 0 3) 2 3 0) 3 3 3
    else if npol =? 2 then
      if zero_at 1 then weight else times weight 1 1 1
    else weight.
(** steps/MsReader.cc:983-1006: the weights of a baseline and channel *)
Definition auto_cell (s : settings) (data : list D) (weights : list Qc) (b c : nat) : list Qc :=
  let at_ k := (k * n_chan s + c) * n_corr s in
  let weight := firstn (n_corr s) (skipn (at_ b) weights) in
  match auto_index s (nth b (ant1 s) 0), auto_index s (nth b (ant2 s) 0) with
  | Some k1, Some k2 =>
    auto_weight_sample (n_corr s) (nth c (widths s) 0 * interval s)%Qc
      (fun k => re (nth (at_ k1 + k) data zero)) (fun k => re (nth (at_ k2 + k) data zero)) weight
  | _, _ => weight
  end.
(** steps/MsReader.cc:971-1009 (AutoWeight): each sample is changed by itself *)
Definition auto_weights (s : settings) (data : list D) (weights : list Qc) : list Qc :=
  flat_map (fun b => flat_map (auto_cell s data weights b) (seq 0 (n_chan s))) (seq 0 (n_bl s)).
(** steps/MsReader.cc:918-969 (GetWeights), for a time slot that is stored; without data, the automatic weights are made from
    memory that is not there *)
Definition get_weights (s : settings) (rows : list row) (data : list D) : outcome (list Qc) :=
  let weights :=
    if has_spectrum s then column s r_spectrum rows
    else flat_map (fun r => concat (repeat (map (fun x => if Qc_eq_bool x 0 then 1%Qc else x) (r_weight r)) (n_chan s))) rows in
  if auto_weight s then if read_data s then Ok (auto_weights s data weights) else Undefined else Ok weights.

(** steps/MsReader.cc:169-369 (process): what is read for a time slot; [None]: it is inserted.  Without the extra data columns.
    Also gives the counts of the flags per correlation. *)
Definition read_cells (s : settings) (slot : option (list row)) (counts : list nat) : outcome (cells * list nat) :=
  let size := n_bl s * n_chan s * n_corr s in
  let zeros := if read_data s then repeat zero size else [] in
  let all_flags := if read_flags s then repeat true size else [] in
  match slot with
  | None => Ok (MkCells zeros all_flags (if read_weights s then repeat 0%Qc size else []), counts)
  | Some rows =>
    if negb (length rows =? n_bl s) then Throw
    else
      let '(data, flags, counts) :=
        if missing_data s then (zeros, all_flags, counts)
        else
          let data := if read_data s then column s r_data rows else [] in
          if read_flags s then let '(f, c) := get_flags s rows data counts in (data, f, c) else (data, [], counts) in
      if read_weights s then
        match get_weights s rows data with
        | Ok w => Ok (MkCells data flags w, counts)
        | Throw => Throw
        | Undefined => Undefined
        end
      else Ok (MkCells data flags [], counts)
  end.
End Cells.
Arguments MkRow {D}. Arguments r_data {D}. Arguments r_flag {D}. Arguments r_flag_row {D}. Arguments r_weight {D}. Arguments r_spectrum {D}.
Arguments MkCells {D}. Arguments c_data {D}. Arguments c_flags {D}. Arguments c_weights {D}.
Arguments column {D A}. Arguments flag_sample {D}. Arguments flag_infinity_nan {D}. Arguments get_flags {D}. Arguments auto_cell {D}. Arguments auto_weights {D}.
Arguments get_weights {D}. Arguments read_cells {D}.
