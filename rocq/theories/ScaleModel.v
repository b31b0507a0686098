(** Model of steps/ScaleData.cc: the scale factors of the stations and baselines, and what is done with them.  Real numbers; a value that is not finite in the code is [None]. *)
From Coq Require Import Reals String List Bool Arith.
From Verif Require Import InfoModel AverageModel GainModel BeamModel.
Import ListNotations.
Open Scope nat_scope.

(** C++ float: a number, or infinity or not a number *)
Notation value := (option R).
(** steps/ScaleData.cc:137, 154: product *)
Definition vmul (a b : value) : value := match a, b with Some x, Some y => Some (x * y)%R | _, _ => None end.
(** steps/ScaleData.cc:154: square root *)
Definition vsqrt (a : value) : value := match a with Some x => if Rle_dec 0 x then Some (sqrt x) else None | None => None end.

(** steps/ScaleData.cc:44-62: the parameters stations, coeffs (as numbers) and scalesize *)
Record config := Config { c_stations : list string; c_coeffs : list (list R); c_scalesize : option bool }.
(** steps/ScaleData.cc:223-240: the measurement set: the names of its antennas and, for each row of LOFAR_ANTENNA_FIELD, ANTENNA_ID and the number of elements that are not flagged *)
Record table := Table { t_names : list string; t_fields : list (nat * nat) }.
(** base/DPInfo.h: antenna set, names, frequencies, the antennas of the baselines, the number of correlations; the table if LOFAR_ANTENNA_FIELD is there *)
Record info := Info { i_set : string; i_names : list string; i_freqs : list R; i_baselines : list (nat * nat); i_ncorr : nat; i_table : option table }.

(** steps/ScaleData.cc:75-80: LBA *)
Definition default_lba : list R := [102306755 / 10 ^ 2; - (731426342 / 10 ^ 4); 205537660 / 10 ^ 5; - (261310245 / 10 ^ 7); 126031118 / 10 ^ 9]%R.
(** steps/ScaleData.cc:81-86: HBA *)
Definition default_hba : list R := [235166277 / 10 ^ 3; - (620793100 / 10 ^ 5); 622685124 / 10 ^ 7; - (278418826 / 10 ^ 9); 467920578 / 10 ^ 12]%R.
(** steps/ScaleData.cc:71-87: the coefficients for all other stations and the nominal number of tiles or dipoles *)
Definition defaults (set : string) : list R * nat := if String.eqb (substring 0 3 set) "LBA" then (default_lba, 48) else (default_hba, 24).
(** steps/ScaleData.cc:105-109: the polynomial *)
Definition horner (coeffs : list R) (freq : R) : outcome R :=
  match rev coeffs with
  | [] => Throw
  | c :: l => Ok (fold_left (fun fact c => fact * (freq / 10 ^ 6) + c)%R l c)
  end.
(** steps/ScaleData.cc:96-111: the scale factors of a pattern; an empty vector is refused even if there are no frequencies *)
Definition pattern_scales (freqs : list R) (coeffs : list R) : outcome (list R) := match coeffs with [] => Throw | _ => each (horner coeffs) freqs end.

(** steps/ScaleData.cc:241-243: the elements that are used, in halves *)
Fixpoint count_elements (fields : list (nat * nat)) (counts : list nat) : outcome (list nat) :=
  match fields with
  | [] => Ok counts
  | (a, n) :: fields => let! c := get counts a in count_elements fields (set_nth counts a (c + n))
  end.
(** steps/ScaleData.cc:221-248 (fillSizeScaleFactors) *)
Definition size_factors (nominal : nat) (t : option table) : outcome (list value) :=
  match t with
  | None => Throw
  | Some t =>
      let! counts := count_elements (t_fields t) (repeat 0 (length (t_names t))) in
      Ok (map (fun c => if c =? 0 then None else Some (INR nominal / (/ 2 * INR c))%R) counts)
  end.

Section Match.
(** casacore::Regex::fromPattern and String::matches: pattern and name *)
Variable matches : string -> string -> bool.
(** steps/ScaleData.cc:129-142: the index of the first pattern that matches *)
Fixpoint first_match (patterns : list string) (name : string) : option nat :=
  match patterns with
  | [] => None
  | p :: patterns => if matches p name then Some 0 else option_map S (first_match patterns name)
  end.
(** steps/ScaleData.cc:127-143: the factors of the stations, in the order of the names; [i] is the index of the first name *)
Fixpoint station_factors (scalesize : option bool) (patterns : list string) (scales : list (list R)) (extra : list value) (i : nat) (names : list string) (factors : list (list value)) : outcome (list (list value)) :=
  match names with
  | [] => Ok factors
  | name :: names =>
      let! factors :=
        match first_match patterns name with
        | None => Ok factors
        | Some j =>
            let! s := get scales j in
            let factors := factors ++ [map Some s] in
            if match scalesize with Some b => b | None => j =? length patterns - 1 end
            then let! f := get factors i in let! e := get extra i in Ok (set_nth factors i (map (fun x => vmul x e) f))
            else Ok factors
        end in
      station_factors scalesize patterns scales extra (S i) names factors
  end.
(** steps/ScaleData.cc:144-159: the factors for baseline, channel and correlation *)
Definition baseline_factors (i : info) (factors : list (list value)) : outcome (list (list (list value))) :=
  each (fun ab => let! f1 := get factors (fst ab) in let! f2 := get factors (snd ab) in
    each (fun j => let! x := get f1 j in let! y := get f2 j in Ok (repeat (vsqrt (vmul x y)) (i_ncorr i))) (seq 0 (length (i_freqs i)))) (i_baselines i).
(** steps/ScaleData.cc:44-62 and 66-160 (constructor and updateInfo, called once): the factors that are kept *)
Definition update_info (c : config) (i : info) : outcome (list (list (list value))) :=
  if negb (length (c_stations c) =? length (c_coeffs c)) then Throw
  else
    let '(coeffs, nominal) := defaults (i_set i) in
    let patterns := c_stations c ++ ["*"%string] in
    let! scales := each (pattern_scales (i_freqs i)) (c_coeffs c ++ [coeffs]) in
    let n := length (i_names i) in
    let! extra :=
      match c_scalesize c with
      | Some false => Ok (repeat (Some 1%R) n)
      | _ => let! e := size_factors nominal (i_table i) in if length e =? n then Ok e else Throw
      end in
    let! factors := station_factors (c_scalesize c) patterns scales extra 0 (i_names i) [] in
    baseline_factors i factors.
End Match.

Section Process.
(** Complex numbers times a factor *)
Context {V : Type}.
Variable scale : value -> V -> V.
(** steps/ScaleData.cc:188-194 (process): xtensor's elementwise product of two arrays of the same shape *)
Definition process (factors : list (list (list value))) (data : list (list (list V))) : list (list (list V)) :=
  map (fun x => map (fun y => map (fun z => scale (fst z) (snd z)) (combine (fst y) (snd y))) (combine (fst x) (snd x))) (combine factors data).
(** steps/ScaleData.cc:196-214 (process for BDA data): rows with their baseline and data; as many values are changed as there are factors, so that another number of values is undefined (an assertion fails, or
    values of other rows or beyond the end change) *)
Definition process_bda (factors : list (list (list value))) (rows : list (nat * list V)) : outcome (list (nat * list V)) :=
  each (fun r => let! f := get factors (fst r) in
    if length (concat f) =? length (snd r) then Ok (fst r, map (fun z => scale (fst z) (snd z)) (combine (concat f) (snd r))) else Undefined) rows.
End Process.
