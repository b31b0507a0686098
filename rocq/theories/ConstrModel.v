(** Model of the constraints that DDECal applies to its solutions (ddecal/constraints): averaging over antennas and over intervals, smoothing over frequency, the reference antenna.  Numbers are real numbers; a solution that is not finite is None. *)
From Coq Require Import Reals List Arith Bool.
From Verif Require Import RealCplx AverageModel.
Import ListNotations.
Open Scope R_scope.

(** ddecal/constraints/Constraint.h:49-57: solutions for a channel block, an antenna, a sub-solution and a polarization *)
Definition solutions := nat -> nat -> nat -> nat -> option rc.
(** Comparison of real numbers; used for e.g. ddecal/constraints/KernelSmoother.h:133 *)
Definition rltb (a b : R) : bool := if Rlt_dec a b then true else false.
(** ddecal/constraints/AntennaConstraint.h:55-69: the sum of the finite numbers and their count; without finite numbers 0/0 is not a number *)
Definition mean (l : list (option rc)) : option rc :=
  let sum := fold_left (fun acc x => radd acc (match x with Some z => z | None => rc0 end)) l rc0 in
  let count := fold_left (fun n x => match x with Some _ => n + 1 | None => n end)%nat l 0%nat in
  if (count =? 0)%nat then None else Some (rscale (/ INR count) sum).

(** * Averaging over antennas *)

(** ddecal/constraints/AntennaConstraint.h:44-74: one set of antennas, in one channel block *)
Definition average_set (s : solutions) (ch : nat) (set : list nat) : solutions :=
  fun c a d p => if ((c =? ch)%nat && existsb (Nat.eqb a) set)%bool then mean (map (fun b => s ch b d p) set) else s c a d p.
(** ddecal/constraints/AntennaConstraint.h:39-76 (Apply) *)
Definition antenna_constraint (n_ch : nat) (sets : list (list nat)) (s : solutions) : solutions :=
  fold_left (fun s ch => fold_left (fun s set => average_set s ch set) sets s) (seq 0 n_ch) s.

(** * Averaging over intervals *)

(** ddecal/constraints/AntennaIntervalConstraint.cc:12-44 (Initialize) *)
Definition check_factors (factors : list nat) (n_ant : nat) (subs : list nat) : outcome unit :=
  if negb (length factors =? n_ant)%nat then Throw
  else if (fold_right Nat.min (hd 0%nat factors) factors =? 0)%nat then Throw
  else if (fold_right Nat.max 0 subs <? fold_right Nat.max 0 factors)%nat then Throw else Ok tt.
(** ddecal/constraints/AntennaIntervalConstraint.cc:66-89: the sub-solutions [first, first + size) of an antenna get their mean *)
Definition average_interval (s : solutions) (ant first size : nat) : solutions :=
  fun c a d p => if ((a =? ant) && (first <=? d) && (d <? first + size))%nat%bool then mean (map (fun i => s c ant (first + i)%nat p) (seq 0 size)) else s c a d p.
(** ddecal/constraints/AntennaIntervalConstraint.cc:64-92: the loop over the intervals of a direction with n sub-solutions; fuel is a bound on the number of iterations *)
Fixpoint interval_loop (fuel : nat) (ant factor n start index : nat) (s : solutions) : solutions * nat :=
  match fuel with
  | O => (s, index)
  | S fuel =>
    if (start <? n)%nat then
      let size := (Nat.min (factor + start) n - start)%nat in
      interval_loop fuel ant factor n (start + size) (index + size) (average_interval s ant index size)
    else (s, index)
  end.
(** ddecal/constraints/AntennaIntervalConstraint.cc:47-95 (Apply) *)
Definition interval_constraint (factors : list nat) (subs : list nat) (s : solutions) : solutions :=
  fold_left (fun s ant => fst (fold_left (fun '(s, index) n => interval_loop n ant (nth ant factors 0%nat) n 0 index s) subs (s, 0%nat))) (seq 0 (length factors)) s.

(** * Reference antenna *)

(** ddecal/constraints/Constraint.cc:13-16: whether an antenna has enough solutions *)
Definition enough (n_ch : nat) (s : solutions) (ant pol : nat) : bool :=
  rltb (2 / 10 * INR n_ch) (INR (length (filter (fun ch => match s ch ant 0%nat pol with Some _ => true | None => false end) (seq 0 n_ch)))).
(** ddecal/constraints/Constraint.cc:10-22 *)
Definition reference (n_ch n_ant : nat) (s : solutions) (pol : nat) : nat :=
  match find (fun a => enough n_ch s a pol) (seq 0 n_ant) with Some a => a | None => 0%nat end.
(** A quotient of numbers that may not be finite, as in ddecal/constraints/Constraint.cc:30; dividing by zero does not give a finite number *)
Definition quotient (a b : option rc) : option rc :=
  match a, b with Some x, Some y => if Req_EM_T (rnorm y) 0 then None else Some (rmul x (rinv y)) | _, _ => None end.
(** ddecal/constraints/Constraint.cc:22-35: one polarization; all sub-solutions at once *)
Definition refer_pol (n_ch n_ant : nat) (s : solutions) (pol : nat) : solutions :=
  let ref := reference n_ch n_ant s pol in
  fun c a d p => if ((p =? pol) && (c <? n_ch) && (a <? n_ant))%nat%bool then (if (a =? ref)%nat then Some rc1 else quotient (s c a d p) (s c ref d p)) else s c a d p.
(** ddecal/constraints/Constraint.cc:7-37 (ApplyReferenceAntenna) *)
Definition apply_reference (n_ch n_ant n_pol : nat) (s : solutions) : solutions := fold_left (refer_pol n_ch n_ant) (seq 0 n_pol) s.

(** * Smoothing *)

Section Smooth.
(** Number of channel blocks and their frequencies; size of the kernel, its reference frequency and exponent, and whether it is truncated *)
Variables (n : nat) (freq : nat -> R) (bandwidth ref_freq exponent : R) (truncate : bool).
(** ddecal/constraints/KernelSmoother.h:75-94, the Gaussian kernel, which is the one that is used (SmoothnessConstraint.cc:15) *)
Definition kernel (distance : R) : R :=
  let x := distance / bandwidth in
  if (truncate && (rltb x (-1) || rltb 1 x))%bool then 0 else exp (- x * x * 9).
(** ddecal/constraints/KernelSmoother.h:133-137, and std::lower_bound: the first index from k that is the bound or has a frequency of at least x *)
Fixpoint advance (fuel bound : nat) (x : R) (k : nat) : nat :=
  match fuel with O => k | S fuel => if (negb (k =? bound)%nat && rltb (freq k) x)%bool then advance fuel bound x (S k) else k end.
(** ddecal/constraints/KernelSmoother.h:127-130 *)
Definition local_bandwidth (i : nat) : R := if Req_EM_T ref_freq 0 then bandwidth else bandwidth * freq i / ref_freq.
(** ddecal/constraints/KernelSmoother.h:131-144: the window of a channel block *)
Definition window (bands : nat * nat) : nat * nat :=
  if truncate then ((if (0 <? fst bands)%nat then fst bands - 1 else 0)%nat, (if (snd bands <? n)%nat then snd bands + 1 else n)%nat) else (0%nat, n).
(** ddecal/constraints/KernelSmoother.h:131-137: the boundaries are moved *)
Definition move (i : nat) (bands : nat * nat) : nat * nat :=
  if truncate then (advance n n (freq i - local_bandwidth i * / 2) (fst bands), advance n n (freq i + local_bandwidth i * / 2) (snd bands)) else bands.
(** ddecal/constraints/KernelSmoother.h:146-160: the value of a channel block *)
Definition smooth_value (data : nat -> rc) (weight : nat -> R) (factor : R) (i : nat) (bands : nat * nat) : option rc :=
  let '(first, last) := window bands in
  let correction := Rpower (local_bandwidth i / bandwidth) exponent * factor in
  let w j := kernel ((freq i - freq j) * correction) * weight j in
  let js := seq first (last - first) in
  let sum := fold_left (fun acc j => radd acc (rscale (w j) (data j))) js rc0 in
  let weight_sum := fold_left (fun acc j => acc + w j) js 0 in
  if Req_EM_T weight_sum 0 then None else Some (rscale (/ weight_sum) sum).
(** ddecal/constraints/KernelSmoother.h:124-162 (Smooth) *)
Fixpoint smooth_from (data : nat -> rc) (weight : nat -> R) (factor : R) (todo : nat) (i : nat) (bands : nat * nat) : list (option rc) :=
  match todo with
  | O => []
  | S todo => let bands := move i bands in smooth_value data weight factor i bands :: smooth_from data weight factor todo (S i) bands
  end.
(** ddecal/constraints/KernelSmoother.h:114-123 (Smooth): the boundaries at the start *)
Definition smooth (data : nat -> rc) (weight : nat -> R) (factor : R) : list (option rc) :=
  smooth_from data weight factor n 0 (0%nat, Nat.min (advance n n (freq 0%nat + bandwidth * / 2) 0 + 1) n).
(** ddecal/constraints/SmoothnessConstraint.cc:48-97 (Apply): weights for antenna and channel block, or for sub-solutions if those are given; factors of the antennas, and of the sub-solutions if those are given *)
Definition smoothness_constraint (n_ant n_sub n_pol : nat) (weights : list R) (sub_weights : list (list R)) (ant_factors dd_factors : list R) (s : solutions) : solutions :=
  fun c a d p =>
  if ((c <? n) && (a <? n_ant) && (d <? n_sub) && (p <? n_pol))%nat%bool then
    let w := match sub_weights with [] => weights | _ => nth d sub_weights [] end in
    let dd := match dd_factors with [] => 1 | _ => 1 / nth d dd_factors 0 end in
    nth c (smooth (fun ch => match s ch a d p with Some z => z | None => rc0 end) (fun ch => match s ch a d p with Some _ => nth (a * n + ch) w 0 | None => 0 end) (dd / nth a ant_factors 0)) None
  else s c a d p.
End Smooth.
