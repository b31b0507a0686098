(** Model of steps/UVWFlagger.cc.  Coordinates are exact real numbers; reading of the
    ranges from strings and the recalculation of coordinates for another phase centre
    are not modelled (the coordinates are inputs), nor are the counters. *)
From Coq Require Import Reals List Bool Arith.
Import ListNotations.
Open Scope R_scope.

(** UVWFlagger.cc:289-315: comparison of doubles, exact here *)
Definition rltb (x y : R) : bool := if Rlt_dec x y then true else false.

(** A range as read: two values, and whether it was written with "+-". *)
(** UVWFlagger.cc:327-353 *)
Record urange := MkUrange { u_pm : bool; u_v1 : R; u_v2 : R }.

(** The settings for one coordinate: <name>range, <name>min, <name>max. *)
(** UVWFlagger.cc:320-324 *)
Record usel := MkUsel { s_ranges : list urange; s_min : R; s_max : R }.

(** UVWFlagger.cc:356, 361, 366: 1e15 *)
Definition huge : R := 10 ^ 15.

(** UVWFlagger.cc:317-372 (fillUVW) *)
Definition range_values (r : urange) : list R :=
  if u_pm r then [u_v1 r - u_v2 r; u_v1 r + u_v2 r] else [u_v1 r; u_v2 r].
(** UVWFlagger.cc:363-370 *)
Definition square_value (x : R) : R := if Req_EM_T x (- huge) then x else x * x.
(** UVWFlagger.cc:317-372 (fillUVW) *)
Definition fill_uvw (s : usel) (square : bool) : list R :=
  let vals := flat_map range_values (s_ranges s) in
  let vals := vals ++ (if rltb 0 (s_min s) then [- huge; s_min s] else []) in
  let vals := vals ++ (if rltb 0 (s_max s) then [s_max s; huge] else []) in
  if square then map square_value vals else vals.

(** UVWFlagger.cc:289-296 (testUVWm), also the inner loop of testUVWl (307-312) *)
Fixpoint test_range (x : R) (ranges : list R) : bool :=
  match ranges with
  | a :: b :: rest => if rltb a x && rltb x b then true else test_range x rest
  | _ => false
  end.

(** The ranges of the eight coordinates (constructor, UVWFlagger.cc:41-48). *)
Record uranges := MkUranges { g_uvm : list R; g_um : list R; g_vm : list R; g_wm : list R;
                              g_uvl : list R; g_ul : list R; g_vl : list R; g_wl : list R }.
(** UVWFlagger.cc:41-48: the settings read *)
Record usettings := MkUsettings { t_uvm : usel; t_um : usel; t_vm : usel; t_wm : usel;
                                  t_uvl : usel; t_ul : usel; t_vl : usel; t_wl : usel }.
(** UVWFlagger.cc:41-48 *)
Definition make_ranges (t : usettings) : uranges :=
  MkUranges (fill_uvw (t_uvm t) true) (fill_uvw (t_um t) false) (fill_uvw (t_vm t) false) (fill_uvw (t_wm t) false)
    (fill_uvw (t_uvl t) false) (fill_uvw (t_ul t) false) (fill_uvw (t_vl t) false) (fill_uvw (t_wl t) false).
(** UVWFlagger.cc:49-53: itsIsDegenerate *)
Definition degenerate (g : uranges) : bool :=
  (length (g_uvm g) + length (g_uvl g) + length (g_um g) + length (g_vm g) + length (g_wm g) + length (g_ul g) + length (g_vl g) + length (g_wl g) =? 0)%nat.

(** std::fill_n(flags + pos, n, true), for pos + n within the flags. *)
Definition fill_true (pos n : nat) (f : list bool) : list bool := firstn pos f ++ repeat true n ++ skipn (pos + n) f.

(** UVWFlagger.cc:298-315 (testUVWl); [recwavel]: the reciprocal wavelengths of the baseline. *)
Definition test_lambda (x : R) (ranges : list R) (ncorr : nat) (recwavel : list R) (f : list bool) : list bool :=
  fold_left (fun f j => if test_range (x * nth j recwavel 0) ranges then fill_true (j * ncorr) ncorr f else f)
    (seq 0 (length recwavel)) f.
(** UVWFlagger.cc:265-281: only if ranges are given *)
Definition lambda_opt (x : R) (ranges : list R) (ncorr : nat) (recwavel : list R) (f : list bool) : list bool :=
  match ranges with [] => f | _ => test_lambda x ranges ncorr recwavel f end.

(** UVWFlagger.cc:245-282 (doFlag), on the flags of one row *)
Definition metre_opt (found : bool) (x : R) (ranges : list R) : bool :=
  if found then true else match ranges with [] => false | _ => test_range x ranges end.
(** UVWFlagger.cc:245-282 (doFlag) *)
Definition do_flag (g : uranges) (uvw : R * R * R) (ncorr nchan : nat) (recwavel : list R) (f : list bool) : list bool :=
  let '(u, v, w) := uvw in
  let uvdist := u * u + v * v in
  let flag_bl := metre_opt (metre_opt (metre_opt (metre_opt false uvdist (g_uvm g)) u (g_um g)) v (g_vm g)) w (g_wm g) in
  if flag_bl then fill_true 0 (ncorr * nchan) f
  else
    let f := lambda_opt (sqrt uvdist) (g_uvl g) ncorr recwavel f in
    let f := lambda_opt u (g_ul g) ncorr recwavel f in
    let f := lambda_opt v (g_vl g) ncorr recwavel f in
    lambda_opt w (g_wl g) ncorr recwavel f.

(** UVWFlagger.cc:113-131: frequencies times 1 / c *)
Definition light : R := 299792458.
(** UVWFlagger.cc:113-131 *)
Definition rec_wavelengths (freqs : list R) : list R := map (fun f => f * (1 / light)) freqs.

(** UVWFlagger.cc:133-190 (process of a regular buffer): the flags of all baselines one after
    the other; [uvw b]: the coordinates of baseline b. *)
Definition process_regular (g : uranges) (uvw : nat -> R * R * R) (nbl nchan ncorr : nat) (recwavel : list R) (f : list bool) : list bool :=
  if degenerate g then f else
  let stride := (ncorr * nchan)%nat in
  flat_map (fun b => do_flag g (uvw b) ncorr nchan recwavel (firstn stride (skipn (b * stride) f))) (seq 0 nbl).

(** UVWFlagger.cc:192-243 (process of a BDA buffer): rows of a baseline, coordinates and flags. *)
Record urow := MkUrow { w_bl : nat; w_uvw : R * R * R; w_ncorr : nat; w_nchan : nat; w_flags : list bool }.
(** UVWFlagger.cc:192-243 *)
Definition process_bda (g : uranges) (recwavel : nat -> list R) (rows : list urow) : list urow :=
  if degenerate g then rows else
  map (fun r => MkUrow (w_bl r) (w_uvw r) (w_ncorr r) (w_nchan r)
    (do_flag g (w_uvw r) (w_ncorr r) (w_nchan r) (recwavel (w_bl r)) (w_flags r))) rows.
