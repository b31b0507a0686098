(** Model of base/GainCalAlgorithm.cc: the estimation of the gains of the stations for one solution interval and one group of channels.  Numbers are real
    numbers.  Arrays are functions of the position in memory, or of the indices. *)
From Coq Require Import Reals List Arith Bool.
From Verif Require Import RealCplx.
Import ListNotations.
Open Scope R_scope.

(** base/GainCalAlgorithm.h:24 *)
Inductive status := Converged | NotConverged | Stalled | Failed.
(** base/GainCalAlgorithm.h:26 *)
Inductive mode := Default | PhaseOnly | AmplitudeOnly | FullJones.
(** base/GainCalAlgorithm.h:100-114: what does not change during a solution interval; the constructor throws for matrices that are scalar
    (GainCalAlgorithm.cc:42-45) *)
Record config := Config { n_st : nat; sol_int : nat; n_chan : nat; c_mode : mode; scalar : bool; tolerance : R; detect : bool }.
(** base/GainCalAlgorithm.cc:42-57: _nCr *)
Definition n_cr (c : config) : nat := match c_mode c with FullJones => 4 | _ => 1 end.
(** base/GainCalAlgorithm.cc:42-57: _nSp *)
Definition n_sp (c : config) : nat := match c_mode c with FullJones => 1 | _ => if scalar c then 2 else 1 end.
(** base/GainCalAlgorithm.cc:62-66: _nUn *)
Definition n_un (c : config) : nat := match c_mode c with FullJones => n_st c | _ => if scalar c then n_st c else 2 * n_st c end.
(** base/GainCalAlgorithm.cc:59-60: the position in an array of shape (stations, 2, times, channels, 2, stations); the first index is the fastest *)
Definition position (c : config) (st2 pol2 time ch pol1 st1 : nat) : nat :=
  st2 + n_st c * (pol2 + 2 * (time + sol_int c * (ch + n_chan c * (pol1 + 2 * st1)))).
(** base/GainCalAlgorithm.cc:59-60: the number of elements of the array *)
Definition size (c : config) : nat := n_st c * 2 * sol_int c * n_chan c * 2 * n_st c.

(** base/GainCalAlgorithm.h:90-97: a matrix of gains, indexed by unknown and correlation *)
Definition gains := nat -> nat -> rc.
(** base/GainCalAlgorithm.cc:381, 337-341: assignment to an element of a matrix of gains *)
Definition set_gain (g : gains) (u cr : nat) (v : rc) : gains := fun u' cr' => if ((u' =? u) && (cr' =? cr))%nat%bool then v else g u' cr'.
(** base/GainCalAlgorithm.cc:333, 376: assignment to an element of _stationFlagged *)
Definition set_flag (f : nat -> bool) (st : nat) : nat -> bool := fun st' => if (st' =? st)%nat then true else f st'.
(** base/GainCalAlgorithm.h:86-97: the gains and the flags of the stations *)
Record state := State { gain : gains; flagged : nat -> bool }.

(** * One estimate of each gain, without polarisation leakage *)

Section Data.
Variable c : config.
(** base/GainCalAlgorithm.h:88-89: the data and the model *)
Variables vis mvis : nat -> rc.

(** base/GainCalAlgorithm.cc:357-372: the sums for an unknown; [h] are the conjugates of the gains of before *)
Definition sums (h : nat -> rc) (st1 : nat) : R * rc :=
  let off := position c 0 0 0 0 (st1 / n_st c) (st1 mod n_st c) in
  fold_left (fun acc i =>
    fold_left (fun (acc : R * rc) st2 =>
      let index := (i * n_un c + st2)%nat in
      let z := rmul (h st2) (mvis (off + index)%nat) in
      (fst acc + rnorm z, radd (snd acc) (rmul (rconj z) (vis (off + index)%nat))))
    (seq 0 (n_un c)) acc)
  (seq 0 (n_sp c * n_chan c * sol_int c * n_sp c)) (0, rc0).
(** base/GainCalAlgorithm.cc:382-394: the two throws are not modelled: they are for gains that are zero or not finite, which an exact quotient is not *)
Definition constrain (m : mode) (g : rc) : rc :=
  match m with
  | PhaseOnly => rscale (/ rabs g) g
  | AmplitudeOnly => RC (rabs g) 0
  | _ => g
  end.
(** base/GainCalAlgorithm.cc:353-395: one unknown *)
Definition solve_unknown (h : nat -> rc) (s : state) (st1 : nat) : state :=
  if flagged s (st1 mod n_st c) then s
  else
    let (ww, tt) := sums h st1 in
    if Req_EM_T ww 0 then State (set_gain (gain s) st1 0 rc0) (set_flag (flagged s) (st1 mod n_st c))
    else if Req_EM_T (rabs tt) 0 then State (set_gain (gain s) st1 0 rc0) (set_flag (flagged s) (st1 mod n_st c))
    else State (set_gain (gain s) st1 0 (constrain (c_mode c) (rscale (/ ww) tt))) (flagged s).
(** base/GainCalAlgorithm.cc:345-396 (doStep_unpolarized): the unknowns are solved by several threads; [order] is the order in which the threads come to
    them.  Each unknown is taken to be solved in one go *)
Definition step_unpolarized (order : list nat) (s : state) : state :=
  let h ant := rconj (gain s ant 0%nat) in fold_left (solve_unknown h) order s.

(** * One estimate of each matrix of gains *)

(** base/GainCalAlgorithm.cc:230-266: _z, indexed by station, time and channel instead of by the number that is made of these *)
Definition z_of (h : gains) (st1 st2 time ch cr : nat) : rc :=
  let m pol2 pol1 := mvis (position c st2 pol2 time ch pol1 st1) in
  match cr with
  | 0%nat => radd (rmul (h st2 0%nat) (m 0%nat 0%nat)) (rmul (h st2 2%nat) (m 1%nat 0%nat))
  | 1%nat => radd (rmul (h st2 0%nat) (m 0%nat 1%nat)) (rmul (h st2 2%nat) (m 1%nat 1%nat))
  | 2%nat => radd (rmul (h st2 1%nat) (m 0%nat 0%nat)) (rmul (h st2 3%nat) (m 1%nat 0%nat))
  | _ => radd (rmul (h st2 1%nat) (m 0%nat 1%nat)) (rmul (h st2 3%nat) (m 1%nat 1%nat))
  end.
(** base/GainCalAlgorithm.cc:270-272, 287-290: a sum over the times, channels and stations *)
Definition total (f : nat -> nat -> nat -> rc) : rc :=
  fold_left (fun acc time => fold_left (fun acc ch => fold_left (fun acc st2 => radd acc (f time ch st2)) (seq 0 (n_st c)) acc)
    (seq 0 (n_chan c)) acc) (seq 0 (sol_int c)) rc0.
(** base/GainCalAlgorithm.cc:268-283: w *)
Definition w_of (h : gains) (st1 cr : nat) : rc :=
  let z time ch st2 k := z_of h st1 st2 time ch k in
  let pair a b c' d := total (fun time ch st2 => radd (rmul (rconj (z time ch st2 a)) (z time ch st2 b)) (rmul (rconj (z time ch st2 c')) (z time ch st2 d))) in
  match cr with
  | 0%nat => pair 0%nat 0%nat 2%nat 2%nat
  | 1%nat => pair 0%nat 1%nat 2%nat 3%nat
  | 2%nat => rconj (pair 0%nat 1%nat 2%nat 3%nat)
  | _ => pair 1%nat 1%nat 3%nat 3%nat
  end.
(** base/GainCalAlgorithm.cc:285-330: t; the two terms of each are added one after the other there *)
Definition t_of (h : gains) (st1 cr : nat) : rc :=
  let z time ch st2 k := z_of h st1 st2 time ch k in
  let pair a b pol1 := total (fun time ch st2 => radd (rmul (rconj (z time ch st2 a)) (vis (position c st2 0 time ch pol1 st1)))
                                                     (rmul (rconj (z time ch st2 b)) (vis (position c st2 1 time ch pol1 st1)))) in
  match cr with
  | 0%nat => pair 0%nat 2%nat 0%nat
  | 1%nat => pair 0%nat 2%nat 1%nat
  | 2%nat => pair 1%nat 3%nat 0%nat
  | _ => pair 1%nat 3%nat 1%nat
  end.
(** base/GainCalAlgorithm.cc:220-342: one station *)
Definition solve_station (h : gains) (s : state) (st1 : nat) : state :=
  if flagged s st1 then s
  else
    let w := w_of h st1 in let t := t_of h st1 in
    let det := rsub (rmul (w 0%nat) (w 3%nat)) (rmul (w 1%nat) (w 2%nat)) in
    if Req_EM_T (rabs det) 0 then State (set_gain (gain s) st1 0 rc0) (set_flag (flagged s) st1)
    else
      let invdet := rinv det in
      let g := set_gain (gain s) st1 0 (rmul invdet (rsub (rmul (w 3%nat) (t 0%nat)) (rmul (w 1%nat) (t 2%nat)))) in
      let g := set_gain g st1 1 (rmul invdet (rsub (rmul (w 3%nat) (t 1%nat)) (rmul (w 1%nat) (t 3%nat)))) in
      let g := set_gain g st1 2 (rmul invdet (rsub (rmul (w 0%nat) (t 2%nat)) (rmul (w 2%nat) (t 0%nat)))) in
      State (set_gain g st1 3 (rmul invdet (rsub (rmul (w 0%nat) (t 3%nat)) (rmul (w 2%nat) (t 1%nat))))) (flagged s).
(** base/GainCalAlgorithm.cc:210-343 (doStep_polarized) *)
Definition step_polarized (s : state) : state :=
  let h st cr := rconj (gain s st cr) in fold_left (solve_station h) (seq 0 (n_st c)) s.

(** base/GainCalAlgorithm.cc:199-207: one estimate, for all modes *)
Definition half_step (order : list nat) (s : state) : state :=
  match c_mode c with FullJones => step_polarized s | _ => step_unpolarized order s end.

(** * Relaxation *)

(** base/GainCalAlgorithm.h:90-118: everything that changes during a solution interval *)
Record alg := Alg { now : state; gold : gains; gx : gains; gxx : gains; dg : R; dgx : R; bad_iters : nat; very_bad_iters : nat }.
(** base/GainCalAlgorithm.cc:468-478: the root of the sum of the absolute values of the squares *)
Definition fronorm (g : gains) : R :=
  sqrt (fold_left (fun acc ant => fold_left (fun acc cr => acc + rabs (rmul (g ant cr) (g ant cr))) (seq 0 (n_cr c)) acc) (seq 0 (n_un c)) 0).
(** base/GainCalAlgorithm.cc:480: a division by zero is not a number there *)
Definition change (g old : gains) : R := fronorm (fun ant cr => rsub (g ant cr) (old ant cr)) / fronorm g.
(** base/GainCalAlgorithm.cc:435-463: the numbers of bad iterations *)
Definition count_bad (iter : nat) (a : alg) : nat * nat :=
  if (detect c && (3 <? iter)%nat)%bool then
    let improvement := dgx a - dg a in
    if Rlt_dec (Rabs improvement) (5 / 100 * dg a) then (S (bad_iters a), very_bad_iters a)
    else if Rlt_dec improvement 0 then (bad_iters a, S (very_bad_iters a))
    else (0%nat, very_bad_iters a)
  else (bad_iters a, very_bad_iters a).
(** base/GainCalAlgorithm.cc:499-502 *)
Definition three_step (iter : nat) (d dx dxx : R) : bool :=
  ((24 <=? iter + 1)%nat || ((if Rle_dec (Rmax d (Rmax dx dxx)) (1 / 1000) then true else false) &&
    (if Rlt_dec d dx then true else false) && (if Rlt_dec dx dxx then true else false)))%bool.
(** base/GainCalAlgorithm.cc:415-547 (relax): the local variable sstep is always zero where it is used *)
Definition relax (iter : nat) (a : alg) : status * alg :=
  if (n_st c =? 0)%nat then (Converged, a)
  else
    let (bad, very) := count_bad iter a in
    if (detect c && (3 <? iter)%nat && ((3 <=? bad)%nat || (3 <? very)%nat))%bool then
      (Stalled, Alg (now a) (gold a) (gx a) (gxx a) (dg a) (dgx a) bad very)
    else
      let dxx := dgx a in let dx := dg a in
      let g := gain (now a) in
      let d := change g (gold a) in
      if Rle_dec d (tolerance c) then (Converged, Alg (now a) (gold a) (gx a) (gxx a) d dx bad very)
      else
        let averaged ant cr := radd (rscale (1 - 1 / 2) (g ant cr)) (rscale (1 / 2) (gold a ant cr)) in
        let relaxed :=
          if three_step iter d dx dxx then
            if Rle_dec d (1 / 2 * dx) then fun ant cr => radd (rscale (1 - - (1 / 2)) (averaged ant cr)) (rscale (- (1 / 2)) (gx a ant cr))
            else if Rle_dec d dx then
              fun ant cr => radd (radd (rscale (1 - -1 - - (1 / 2)) (averaged ant cr)) (rscale (-1) (gx a ant cr))) (rscale (- (1 / 2)) (gxx a ant cr))
            else if Rle_dec d (12 / 10 * dx) then gx a
            else gxx a
          else averaged in
        (NotConverged, Alg (State relaxed (flagged (now a))) (gold a) (gx a) (gxx a) d dx bad very).

(** * Iterations *)

(** base/GainCalAlgorithm.cc:183-208 (doStep); the orders are those of the threads *)
Definition do_step (iter : nat) (order1 order2 : list nat) (a : alg) : status * alg :=
  let a := Alg (now a) (gold a) (gain (now a)) (gx a) (dg a) (dgx a) (bad_iters a) (very_bad_iters a) in
  if forallb (flagged (now a)) (seq 0 (n_st c)) then (Converged, a)
  else
    let first := half_step order1 (now a) in
    let second := half_step order2 first in
    relax (2 * iter) (Alg second (gain first) (gx a) (gxx a) (dg a) (dgx a) (bad_iters a) (very_bad_iters a)).

(** base/GainCalAlgorithm.cc:97-119: the initial amplitude *)
Definition initial_gain : R :=
  match c_mode c with
  | PhaseOnly => 1
  | _ =>
    let norm_of v := sqrt (fold_left (fun acc i => acc + rnorm (v i)) (seq 0 (size c)) 0) in
    if Rlt_dec (/ 10 ^ 15) (Rabs (norm_of mvis)) then sqrt (norm_of vis / norm_of mvis) else 1
  end.
(** base/GainCalAlgorithm.cc:121-130, 146-153: a gain without phase *)
Definition plain (x : R) (cr : nat) : rc := if (n_cr c =? 4)%nat then (if ((cr =? 0) || (cr =? 3))%nat%bool then RC x 0 else rc0) else RC x 0.
(** base/GainCalAlgorithm.cc:121-130 *)
Definition all_plain (x : R) : gains := fun _ cr => plain x cr.
(** base/GainCalAlgorithm.cc:400-413 (getSolution); a gain that is not a number is [None] *)
Definition get_solution (s : state) : nat -> option (nat -> rc) := fun ant => if flagged s (ant mod n_st c) then None else Some (gain s ant).
(** base/GainCalAlgorithm.cc:159-181 (getAverageUnflaggedSolution) *)
Definition average_unflagged (g : nat -> option (nat -> rc)) : R :=
  let '(tot, n) := fold_left (fun (acc : R * nat) ant =>
    match g ant with
    | None => acc
    | Some v => if (n_cr c =? 4)%nat then (fst acc + rabs (v 0%nat) + rabs (v 3%nat), S (S (snd acc))) else (fst acc + rabs (v 0%nat), S (snd acc))
    end) (seq 0 (n_un c)) (0, 0%nat) in
  if (n =? 0)%nat then 0 else tot / INR n.
(** base/GainCalAlgorithm.cc:131-156: the loop over the gains, with the amplitude once it is computed; [None] if all gains are to be initialised.  The
    average is that of the gains at that moment: those that were replaced before it is computed are zero and do count *)
Fixpoint replace (flags : nat -> bool) (computed : bool) (ginit : R) (g : nat -> option (nat -> rc)) (ants : list nat) : option (nat -> option (nat -> rc)) :=
  match ants with
  | [] => Some g
  | ant :: ants =>
    match g ant with
    | Some _ => replace flags computed ginit g ants
    | None =>
      if (computed || flags (ant mod n_st c))%bool then
        replace flags computed ginit (fun a => if (a =? ant)%nat then Some (plain ginit) else g a) ants
      else
        let ginit := average_unflagged g in
        if Req_EM_T ginit 0 then None
        else replace flags true ginit (fun a => if (a =? ant)%nat then Some (plain ginit) else g a) ants
    end
  end.
(** base/GainCalAlgorithm.cc:88-157 (init): the gains *)
Definition init_gains (init_solutions : bool) (flags : nat -> bool) (g : nat -> option (nat -> rc)) : nat -> option (nat -> rc) :=
  if init_solutions then fun ant => Some (all_plain initial_gain ant)
  else match replace flags false 0 g (seq 0 (n_un c)) with
       | None => fun ant => Some (all_plain initial_gain ant)
       | Some g => g
       end.
(** base/GainCalAlgorithm.cc:88-94 (init): the rest; 1e29 and 1e30 *)
Definition init_alg (s : state) (old_gold old_gx old_gxx : gains) : alg := Alg s old_gold old_gx old_gxx (10 ^ 29) (10 ^ 30) 0 0.
(** steps/GainCal.cc:640-653: iterations of one group of channels, until it has converged; [orders] has those of the threads.  Other groups can keep a
    group going that has stalled; so this is for as many iterations as there are orders *)
Fixpoint iterations (iter : nat) (orders : list (list nat * list nat)) (st : status) (a : alg) : status * alg :=
  match orders with
  | [] => (st, a)
  | (o1, o2) :: orders =>
    match st with
    | Converged => (st, a)
    | _ => let (st, a) := do_step iter o1 o2 a in iterations (S iter) orders st a
    end
  end.
End Data.
