(** What the UVW flagger should flag. *)
From Coq Require Import Reals List Bool Arith.
From Verif Require Import UvwFlagModel.
Import ListNotations.
Open Scope R_scope.

(** In one of the ranges, below the minimum if it is positive, or above the maximum if it is positive. *)
Definition wanted (s : usel) (x : R) : Prop :=
  (exists r, In r (s_ranges s) /\
     if u_pm r then u_v1 r - u_v2 r < x < u_v1 r + u_v2 r else u_v1 r < x < u_v2 r) \/
  (0 < s_min s /\ x < s_min s) \/ (0 < s_max s /\ s_max s < x).

(** Baselines below 10^15 metre or wavelengths. *)
Definition moderate (x : R) : Prop := - 10 ^ 15 < x < 10 ^ 15.

(** Ranges of a distance, without negative bounds. *)
Definition distance_ranges (s : usel) : Prop :=
  forall r, In r (s_ranges s) -> if u_pm r then 0 <= u_v2 r <= u_v1 r else 0 <= u_v1 r /\ 0 <= u_v2 r.

(** A sample with coordinates [uvw] (metres) at frequency [freq] (Hz) is to be flagged. *)
Definition uvw_wanted (t : usettings) (uvw : R * R * R) (freq : R) : Prop :=
  let '(u, v, w) := uvw in
  let dist := sqrt (u * u + v * v) in
  let lambda := 299792458 / freq in
  wanted (t_uvm t) dist \/ wanted (t_um t) u \/ wanted (t_vm t) v \/ wanted (t_wm t) w \/
  wanted (t_uvl t) (dist / lambda) \/ wanted (t_ul t) (u / lambda) \/ wanted (t_vl t) (v / lambda) \/ wanted (t_wl t) (w / lambda).

Definition uvw_moderate (uvw : R * R * R) (freq : R) : Prop :=
  let '(u, v, w) := uvw in
  let dist := sqrt (u * u + v * v) in
  let lambda := 299792458 / freq in
  0 < freq /\ moderate dist /\ moderate u /\ moderate v /\ moderate w /\
  moderate (dist / lambda) /\ moderate (u / lambda) /\ moderate (v / lambda) /\ moderate (w / lambda).
