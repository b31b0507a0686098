(** Property C22: flagging on UVW coordinates. *)
From Coq Require Import Reals List Bool Arith Lia Lra.
From Verif Require Import UvwFlagModel UvwFlagSpec UvwFlagProofs.
Import ListNotations.
Open Scope R_scope.

(** Regular buffers: a sample is flagged afterwards exactly if it was flagged before or one of
    its coordinates, in metres or in wavelengths of its channel, is in one of the ranges. *)
Theorem C22_regular : forall t uvw nbl nchan ncorr freqs f,
  length freqs = nchan -> length f = (nbl * (ncorr * nchan))%nat -> distance_ranges (t_uvm t) ->
  let f' := process_regular (make_ranges t) uvw nbl nchan ncorr (rec_wavelengths freqs) f in
  length f' = length f /\
  forall b c p, (b < nbl)%nat -> (c < nchan)%nat -> (p < ncorr)%nat -> uvw_moderate (uvw b) (nth c freqs 0) ->
    let i := ((b * nchan + c) * ncorr + p)%nat in
    (nth i f' false = true <-> nth i f false = true \/ uvw_wanted t (uvw b) (nth c freqs 0)).
Proof. exact regular_flags. Qed.
Print Assumptions C22_regular.

(** The same for rows of a BDA buffer with the frequencies of the baseline of the row. *)
Theorem C22_bda : forall t freqs rows i r, nth_error rows i = Some r ->
  length (freqs (w_bl r)) = w_nchan r -> length (w_flags r) = (w_nchan r * w_ncorr r)%nat ->
  distance_ranges (t_uvm t) ->
  exists r', nth_error (process_bda (make_ranges t) (fun b => rec_wavelengths (freqs b)) rows) i = Some r' /\
    length (w_flags r') = length (w_flags r) /\
    forall c p, (c < w_nchan r)%nat -> (p < w_ncorr r)%nat -> uvw_moderate (w_uvw r) (nth c (freqs (w_bl r)) 0) ->
      (nth (c * w_ncorr r + p) (w_flags r') false = true <->
       nth (c * w_ncorr r + p) (w_flags r) false = true \/ uvw_wanted t (w_uvw r) (nth c (freqs (w_bl r)) 0)).
Proof. exact bda_flags. Qed.
Print Assumptions C22_bda.

(** Flags are never removed, whatever the ranges. *)
Theorem C22_monotone : forall g uvw nbl nchan ncorr recwavel f i,
  length recwavel = nchan -> length f = (nbl * (ncorr * nchan))%nat ->
  nth i f false = true -> nth i (process_regular g uvw nbl nchan ncorr recwavel f) false = true.
Proof. exact regular_monotone. Qed.
Print Assumptions C22_monotone.

Definition any : usel := MkUsel [] 0 0.

Lemma moderate_small x : -10000 <= x <= 10000 -> moderate x.
Proof. intros H. unfold moderate. simpl. lra. Qed.

(** A baseline of 50 m (30 east, 40 north) with uvmmin=60. *)
Example C22_case :
  let t := MkUsettings (MkUsel [] 60 0) any any any any any any any in
  distance_ranges (t_uvm t) /\ uvw_moderate (30, 40, 0) 299792458 /\ uvw_wanted t (30, 40, 0) 299792458 /\
  nth 1 (process_regular (make_ranges t) (fun _ => (30, 40, 0)) 1 1 2 (rec_wavelengths [299792458]) [false; false]) false = true.
Proof.
  intros t. assert (Hs : sqrt (30 * 30 + 40 * 40) = 50) by (replace (30 * 30 + 40 * 40) with (50 * 50) by ring; apply sqrt_square; lra).
  assert (H1 : distance_ranges (t_uvm t)) by (intros r []).
  assert (H2 : uvw_moderate (30, 40, 0) 299792458).
  { unfold uvw_moderate. cbn zeta. rewrite Hs. replace (299792458 / 299792458) with 1 by field.
    split; [lra|]. repeat apply conj; apply moderate_small; lra. }
  assert (H3 : uvw_wanted t (30, 40, 0) 299792458).
  { unfold uvw_wanted. cbn zeta. rewrite Hs. left. right. left. cbn. lra. }
  split; [exact H1|]. split; [exact H2|]. split; [exact H3|].
  destruct (C22_regular t (fun _ => (30, 40, 0)) 1 1 2 [299792458] [false; false] eq_refl eq_refl H1) as [_ N].
  apply (N 0%nat 0%nat 1%nat); auto.
Qed.

(** Finding: a range of the uv distance with a negative lower bound, such as 10+-20, is squared to
    (100, 900), so baselines of 5 m are not flagged although 5 is in (-10, 30). *)
Theorem C22_negative_bound_refuted : exists t uvw freq, uvw_moderate uvw freq /\ uvw_wanted t uvw freq /\
  process_regular (make_ranges t) (fun _ => uvw) 1 1 1 (rec_wavelengths [freq]) [false] = [false].
Proof.
  set (t := MkUsettings (MkUsel [MkUrange true 10 20] 0 0) any any any any any any any).
  exists t, (3, 4, 0), 299792458.
  assert (Hs : sqrt (3 * 3 + 4 * 4) = 5) by (replace (3 * 3 + 4 * 4) with (5 * 5) by ring; apply sqrt_square; lra).
  split; [|split].
  - unfold uvw_moderate. cbn zeta. rewrite Hs. replace (299792458 / 299792458) with 1 by field.
    split; [lra|]. repeat apply conj; apply moderate_small; lra.
  - unfold uvw_wanted. cbn zeta. rewrite Hs. left. left. exists (MkUrange true 10 20). split; [now left|]. cbn. lra.
  - assert (E : make_ranges t = MkUranges [100; 900] [] [] [] [] [] [] []).
    { unfold make_ranges, t, any, fill_uvw. cbn [t_uvm t_um t_vm t_wm t_uvl t_ul t_vl t_wl s_ranges s_min s_max flat_map range_values u_pm u_v1 u_v2 app].
      assert (rltb 0 0 = false) as -> by (apply rltb_false; lra). cbn [app map].
      pose proof huge_pos. unfold square_value. destruct (Req_EM_T (10 - 20) (- huge)) as [E|_].
      - exfalso. unfold huge in E. simpl in E. lra.
      - destruct (Req_EM_T (10 + 20) (- huge)); [lra|]. f_equal. f_equal; [ring|f_equal; ring]. }
    rewrite E. unfold process_regular, degenerate. cbn [g_uvm g_um g_vm g_wm g_uvl g_ul g_vl g_wl length Nat.add Nat.eqb].
    cbn [Nat.mul Nat.add seq flat_map skipn firstn app]. unfold do_flag. cbn [g_uvm g_um g_vm g_wm g_uvl g_ul g_vl g_wl metre_opt lambda_opt test_range].
    assert (rltb 100 (3 * 3 + 4 * 4) = false) as -> by (apply rltb_false; lra). reflexivity.
Qed.
Print Assumptions C22_negative_bound_refuted.
