(** Model of steps/StationAdder.cc: which stations form a superstation, which baselines form its new baselines, and the
    visibilities, weights, flags and UVW coordinates of the new baselines.  Exact arithmetic; positions are not modelled. *)
From Coq Require Import Ascii String List Bool Arith ZArith QArith Qcanon.
From Verif Require Import QcUtil AverageModel.
Import ListNotations.
Open Scope nat_scope.

(** * Definition of the superstations *)
Section Define.
(** std::regex_match of a name with common::PatternToRegex of a pattern *)
Variable matches : string -> string -> bool.

(** steps/StationAdder.cc:75-79: the pattern without its sign, and the value that it sets *)
Definition sign (pattern : string) : bool * string :=
  match pattern with
  | String c rest =>
    if negb (String.eqb rest ""%string) && (Ascii.eqb c "!"%char || Ascii.eqb c "^"%char) then (false, rest) else (true, pattern)
  | EmptyString => (true, pattern)
  end.
(** steps/StationAdder.cc:66-74 (SetUsed) *)
Definition set_used (names : list string) (used : list bool) (new_value : bool) (pattern : string) : list bool :=
  map (fun nu => if matches pattern (fst nu) then new_value else snd nu) (combine names used).
(** steps/StationAdder.cc:60-94 (GetMatchingStations) *)
Definition matching_stations (names patterns : list string) : list nat :=
  let used := fold_left (fun used p => let (v, q) := sign p in set_used names used v q) patterns (repeat false (length names)) in
  map fst (filter snd (combine (seq 0 (length used)) used)).

(** steps/StationAdder.cc:131-139: marks the parts; [None]: a part is used already *)
Fixpoint mark (stations : list Z) (id : Z) (parts : list nat) : option (list Z) :=
  match parts with
  | [] => Some stations
  | p :: r =>
    if (0 <=? nth p stations 0)%Z then None
    else mark (map (fun iz => if fst iz =? p then id else snd iz) (combine (seq 0 (length stations)) stations)) id r
  end.
(** steps/StationAdder.cc:112-160: the new names and their parts; the entries of the record in their order *)
Fixpoint define (names : list string) (entries : list (string * list string)) (stations : list Z) (new : list (string * list nat))
  : outcome (list (string * list nat)) :=
  match entries with
  | [] => Ok new
  | (name, patterns) :: r =>
    if existsb (String.eqb name) names || existsb (String.eqb name) (map fst new) then Throw
    else
      match matching_stations names patterns with
      | [] => define names r stations new
      | parts =>
        match mark stations (Z.of_nat (length new)) parts with
        | None => Throw
        | Some stations' => define names r stations' (new ++ [(name, parts)])
        end
      end
  end.
(** steps/StationAdder.cc:108-160 *)
Definition superstations (names : list string) (entries : list (string * list string)) : outcome (list (string * list nat)) :=
  define names entries (repeat (-1)%Z (length names)) [].
End Define.

(** * New baselines *)
(** steps/StationAdder.cc:50-54: itsMakeAutoCorr, itsSumAutoCorr, itsDoAverage, itsUseWeight, itsMinNPoint *)
Record settings := { make_auto : bool; sum_auto : bool; average : bool; use_weight : bool; min_points : nat }.

(** steps/StationAdder.cc:194-195: linearSearch1 *)
Definition have (parts : list nat) (a : nat) : bool := existsb (Nat.eqb a) parts.
(** steps/StationAdder.cc:194-211: the factor (0: not used) and the antenna that the new baseline is with *)
Definition take (c : settings) (parts : list nat) (super : nat) (bl : nat * nat) : Z * nat :=
  let (a1, a2) := bl in
  if have parts a1 then
    if have parts a2 then (if make_auto c && Bool.eqb (sum_auto c) (a1 =? a2) then 1%Z else 0%Z, super)
    else ((-1)%Z, a2)
  else if have parts a2 then (1%Z, a1)
  else (0%Z, super).

(** steps/StationAdder.cc:178, 189-190: newbl, itsBufRows, newAnt1 and newAnt2.  newbl is a function here, in the code a vector with an entry per antenna,
    indexed with the antenna numbers of the baselines. *)
Record scan := { newbl : nat -> Z; buf_rows : list (list Z); new_bl : list (nat * nat) }.
(** steps/StationAdder.cc:222: pushing at the end of itsBufRows[i] *)
Definition push_at (l : list (list Z)) (i : nat) (z : Z) : list (list Z) :=
  map (fun kl => if fst kl =? i then snd kl ++ [z] else snd kl) (combine (seq 0 (length l)) l).
(** steps/StationAdder.cc:193-224: baseline [i] *)
Definition scan_step (c : settings) (parts : list nat) (super : nat) (s : scan) (ib : nat * (nat * nat)) : scan :=
  let (i, bl) := ib in
  let (t, ant) := take c parts super bl in
  if (t =? 0)%Z then s
  else
    let s1 := if (newbl s ant <? 0)%Z
              then {| newbl := fun a => if a =? ant then Z.of_nat (length (buf_rows s)) else newbl s a;
                      buf_rows := buf_rows s ++ [[]]; new_bl := new_bl s ++ [(ant, super)] |}
              else s in
    {| newbl := newbl s1; buf_rows := push_at (buf_rows s1) (Z.to_nat (newbl s1 ant)) (t * Z.of_nat (i + 1))%Z; new_bl := new_bl s1 |}.
(** steps/StationAdder.cc:188-239: one superstation *)
Definition form_one (c : settings) (bls : list (nat * nat)) (rows : list (list Z)) (super : nat) (parts : list nat)
  : list (nat * nat) * list (list Z) :=
  let s := fold_left (scan_step c parts super) (combine (seq 0 (length bls)) bls)
                     {| newbl := fun _ => (-1)%Z; buf_rows := rows; new_bl := [] |} in
  (bls ++ new_bl s, buf_rows s).
(** steps/StationAdder.cc:187-240: all of them; the first superstation gets number [super] *)
Fixpoint form (c : settings) (bls : list (nat * nat)) (rows : list (list Z)) (super : nat) (all : list (list nat))
  : list (nat * nat) * list (list Z) :=
  match all with
  | [] => (bls, rows)
  | parts :: r => let (bls', rows') := form_one c bls rows super parts in form c bls' rows' (super + 1) r
  end.

(** * Visibilities *)
(** steps/StationAdder.cc:304: std::complex<float> with exact numbers *)
Record cplx := { re : Qc; im : Qc }.
(** steps/StationAdder.cc:315: std::complex<float>() *)
Definition c0 : cplx := {| re := 0; im := 0 |}%Qc.
(** steps/StationAdder.cc:356: += *)
Definition cadd (a b : cplx) : cplx := {| re := re a + re b; im := im a + im b |}%Qc.
(** steps/StationAdder.cc:356, 425: multiplied with (or divided by) a number *)
Definition cscale (w : Qc) (a : cplx) : cplx := {| re := re a * w; im := im a * w |}%Qc.
(** steps/StationAdder.cc:352: conj *)
Definition cconj (a : cplx) : cplx := {| re := re a; im := Qcopp (im a) |}%Qc.
(** steps/StationAdder.cc:304-306: dataPtr[k], wghtPtr[k], flagPtr[k] *)
Record sample := { data : cplx; weight : Qc; flagged : bool }.
(** steps/StationAdder.cc:304-307: the samples and the coordinates of a baseline *)
Record row := { samples : list sample; uvw : list Qc }.

(** steps/StationAdder.cc:314-320: dataPtr[k], wghtPtr[k], npoints[k], dataFlg[k], wghtFlg[k] *)
Record acc := { sum : cplx; wsum : Qc; npoints : nat; fsum : cplx; fwsum : Qc }.
(** steps/StationAdder.cc:314-320 *)
Definition acc0 : acc := {| sum := c0; wsum := 0%Qc; npoints := 0; fsum := c0; fwsum := 0%Qc |}.
(** steps/StationAdder.cc:331-337: the row and whether its conjugate is used *)
Definition decode (z : Z) : bool * nat := ((z <? 0)%Z, Z.to_nat (Z.abs z - 1)).
(** steps/StationAdder.cc:348-413: one sample of one constituent *)
Definition add_sample (c : settings) (a : acc) (cx : bool * sample) : acc :=
  let (useconj, x) := cx in
  let d := if useconj then cconj (data x) else data x in
  let w := if use_weight c then weight x else 1%Qc in
  if flagged x then {| sum := sum a; wsum := wsum a; npoints := npoints a; fsum := cadd (fsum a) (cscale w d); fwsum := (fwsum a + w)%Qc |}
  else {| sum := cadd (sum a) (cscale w d); wsum := (wsum a + w)%Qc; npoints := npoints a + 1; fsum := fsum a; fwsum := fwsum a |}.
(** steps/StationAdder.cc:416-427.  Dividing by a zero weight gives 0 here and NaN in the code; the sample is flagged then. *)
Definition finish_sample (c : settings) (a : acc) : sample :=
  let bad := Qc_eq_bool (wsum a) 0 || (npoints a <? min_points c) in
  let d := if bad then cadd (sum a) (fsum a) else sum a in
  let w := if bad then (wsum a + fwsum a)%Qc else wsum a in
  {| data := if average c then cscale (/ w) d else d; weight := w; flagged := bad |}.
(** steps/StationAdder.cc:304-306.  Not in the code: the default of [nth], not used for rows and samples that exist *)
Definition no_sample : sample := {| data := c0; weight := 0%Qc; flagged := true |}.
(** steps/StationAdder.cc:304-307.  Not in the code: the default of [nth] *)
Definition no_row : row := {| samples := []; uvw := [] |}.
(** steps/StationAdder.cc:314-427: sample [k] of a new baseline *)
Definition new_sample (c : settings) (rows : list row) (zs : list Z) (k : nat) : sample :=
  finish_sample c (fold_left (add_sample c) (map (fun z => let (u, r) := decode z in (u, nth k (samples (nth r rows no_row)) no_sample)) zs) acc0).

(** steps/StationAdder.cc:322-325, 358-361, 373-376, 390-393, 405-408: the sums of coordinate [ui] and of the weights *)
Definition uvw_sums (c : settings) (nrcc : nat) (rows : list row) (zs : list Z) (ui : nat) : Qc * Qc :=
  fold_left (fun a z =>
    let (u, r) := decode z in let x := nth r rows no_row in
    fold_left (fun a k =>
      let s := nth k (samples x) no_sample in
      let w := if use_weight c then weight s else 1%Qc in
      if flagged s then a
      else ((if u then fst a - nth ui (uvw x) 0 * w else fst a + nth ui (uvw x) 0 * w), snd a + w)%Qc) (seq 0 nrcc) a) zs (0, 0)%Qc.
(** steps/StationAdder.cc:430-442; [calc] is the UVW calculator for the new baseline *)
Definition new_uvw (c : settings) (nrcc : nat) (rows : list row) (zs : list Z) (calc : nat -> Qc) : list Qc :=
  map (fun ui => let (s, w) := uvw_sums c nrcc rows zs ui in
                 if average c && negb (Qc_eq_bool w 0) then (s / w)%Qc else calc ui) [0; 1; 2].
(** steps/StationAdder.cc:312-448: one new baseline after the rows so far *)
Definition add_row (c : settings) (nrcc : nat) (calc : nat -> nat -> Qc) (rows : list row) (zs : list Z) : list row :=
  rows ++ [{| samples := map (new_sample c rows zs) (seq 0 nrcc); uvw := new_uvw c nrcc rows zs (calc (length rows)) |}].
(** steps/StationAdder.cc:274-452 (process) *)
Definition process (c : settings) (nrcc : nat) (calc : nat -> nat -> Qc) (rows : list row) (buf : list (list Z)) : list row :=
  fold_left (add_row c nrcc calc) buf rows.
