(** Model of the TEC constraint of DDECal: base/PhaseFitter.cc and .h, and the part of ddecal/constraints/TecConstraint.cc Apply for one solution of one antenna.
    Numbers are real numbers, so rounding is not modelled.  Costs are never as large as DBL_MAX, with which the searches start: here the first cost is always taken. *)
From Coq Require Import Reals List Arith Bool.
From Verif Require Import RotModel.
Import ListNotations.
Open Scope R_scope.

(** PhaseFitter.h:274: _frequencies, _phases and _weights of a channel *)
Record channel := Channel { freq : R; phase : R; weight : R }.

(** PhaseFitter.h:218-220: TEC2ModelFunc *)
Definition tec2_func (nu alpha beta : R) : R := alpha / nu + beta.
(** PhaseFitter.h:243-245: TEC2ModelFuncWrapped *)
Definition tec2_wrapped (nu alpha beta : R) : R := fmod (alpha / nu + beta) (2 * PI).
(** PhaseFitter.h:267-269: TEC1ModelFuncWrapped *)
Definition tec1_wrapped (nu alpha : R) : R := fmod (alpha / nu) (2 * PI).

(** PhaseFitter.cc:14-17 and 168-171: the difference of an estimated and a measured phase *)
Definition difference (estimate measured : R) : R :=
  let d := fmod (Rabs (estimate - measured)) (2 * PI) in if Rlt_dec PI d then 2 * PI - d else d.
(** PhaseFitter.cc:12-24 and 166-178: the loop of both costs *)
Definition cost_of (estimate : R -> R) (cs : list channel) : R :=
  let '(c, w) := fold_left (fun '(c, w) x => (c + difference (estimate (freq x)) (phase x) * weight x, w + weight x)) cs (0, 0) in
  if Req_EM_T w 0 then 0 else c / w.
(** PhaseFitter.cc:11-25: TEC2ModelCost *)
Definition cost2 (cs : list channel) (alpha beta : R) : R := cost_of (fun nu => tec2_wrapped nu alpha beta) cs.
(** PhaseFitter.cc:165-179: TEC1ModelCost *)
Definition cost1 (cs : list channel) (alpha : R) : R := cost_of (fun nu => tec1_wrapped nu alpha) cs.

(** PhaseFitter.cc:34-38: the phase difference between -PI and PI *)
Definition wrap (x : R) : R :=
  let d := fmod x (2 * PI) in
  if Rlt_dec d (- PI) then d + 2 * PI else if Rlt_dec PI d then d - 2 * PI else d.
(** PhaseFitter.cc:30-43: one iteration; the state is weightSum, which is not set to zero between iterations, and betaEstimate *)
Definition beta_step (cs : list channel) (alpha : R) (st : R * R) : R * R :=
  let '(w, beta) := st in
  let '(s, w) := fold_left (fun '(s, w) x => (s + wrap (phase x - tec2_func (freq x) alpha beta) * weight x, w + weight x)) cs (0, w) in
  (w, if Req_EM_T w 0 then beta else beta + s / w).
(** PhaseFitter.cc:27-45: fitTEC2ModelBeta *)
Definition fit_beta (cs : list channel) (alpha beta : R) : R :=
  fmod (snd (beta_step cs alpha (beta_step cs alpha (beta_step cs alpha (0, beta))))) (2 * PI).

(** PhaseFitter.cc:56, 147: alpha of number [i] of the grid *)
Definition grid (n : nat) (lower upper : R) (i : nat) : R := lower + INR i / INR n * (upper - lower).
(** PhaseFitter.cc:65-68, 157-160: the neighbours of number [i] *)
Definition bracket (n : nat) (lower upper : R) (i : nat) : R * R :=
  ((INR i - 1) / INR n * (upper - lower) + lower, (INR i + 1) / INR n * (upper - lower) + lower).
(** PhaseFitter.cc:138-161: bruteForceSearchTEC1Model, with [n] for the 256 of alphaOversampling: the smallest cost with its number *)
Definition brute1_index (n : nat) (cs : list channel) (lower upper : R) : nat :=
  snd (fold_left (fun '(m, k) i =>
    let alpha := grid n lower upper i in
    let c := cost2 cs alpha (fit_beta cs alpha 0) in
    match m with
    | None => (Some c, i)
    | Some m' => if Rlt_dec c m' then (Some c, i) else (m, k)
    end) (seq 0 n) (None, 0%nat)).
(** PhaseFitter.cc:157-160 *)
Definition brute1 (n : nat) (cs : list channel) (lower upper : R) : R * R := bracket n lower upper (brute1_index n cs lower upper).
(** PhaseFitter.cc:47-69: bruteForceSearchTEC2Model; the state is the smallest cost, beta and the number *)
Definition brute2_state (n : nat) (cs : list channel) (lower upper beta : R) : R * nat :=
  let '(_, beta, k) := fold_left (fun '(m, beta, k) i =>
    let alpha := grid n lower upper i in
    let b := fit_beta cs alpha beta in
    let c := cost2 cs alpha b in
    match m with
    | None => (Some c, b, i)
    | Some m' => if Rlt_dec c m' then (Some c, b, i) else (m, beta, k)
    end) (seq 0 n) (None, beta, 0%nat) in (beta, k).

(** PhaseFitter.cc:184-199: the loop of ternarySearchTEC1ModelAlpha; the last lAlpha and rAlpha.  [fuel] is one less than the iterations that are left. *)
Fixpoint ternary1_loop (fuel : nat) (acc : R) (cs : list channel) (lower upper : R) : R * R :=
  let l := lower + (upper - lower) * (1 / 3) in
  let r := lower + (upper - lower) * (2 / 3) in
  let cl := cost1 cs l in let cr := cost1 cs r in
  match fuel with
  | O => (l, r)
  | S fuel =>
      if Rlt_dec acc (Rabs (cl - cr)) then
        if Rlt_dec cl cr then ternary1_loop fuel acc cs lower r else ternary1_loop fuel acc cs l upper
      else (l, r)
  end.
(** PhaseFitter.cc:181-202: ternarySearchTEC1ModelAlpha, with at most 100 iterations *)
Definition ternary1 (acc : R) (cs : list channel) (lower upper : R) : R := let '(l, r) := ternary1_loop 99 acc cs lower upper in (l + r) * (1 / 2).
(** PhaseFitter.cc:76-95: the loop of ternarySearchTEC2ModelAlpha; the last lAlpha, rAlpha and beta *)
Fixpoint ternary2_loop (fuel : nat) (acc : R) (cs : list channel) (lower upper beta : R) : R * R * R :=
  let l := lower + (upper - lower) * (1 / 3) in
  let r := lower + (upper - lower) * (2 / 3) in
  let bl := fit_beta cs l beta in let br := fit_beta cs r beta in
  let cl := cost2 cs l bl in let cr := cost2 cs r br in
  let beta' := if Rlt_dec cl cr then bl else br in
  match fuel with
  | O => (l, r, beta')
  | S fuel =>
      if Rlt_dec acc (Rabs (cl - cr)) then
        if Rlt_dec cl cr then ternary2_loop fuel acc cs lower r beta' else ternary2_loop fuel acc cs l upper beta'
      else (l, r, beta')
  end.
(** PhaseFitter.cc:73-98: ternarySearchTEC2ModelAlpha *)
Definition ternary2 (acc : R) (cs : list channel) (lower upper beta : R) : R * R :=
  let '(l, r, beta) := ternary2_loop 99 acc cs lower upper beta in
  let alpha := (l + r) * (1 / 2) in (alpha, fit_beta cs alpha beta).

(** PhaseFitter.cc:111, 133: the range of the search *)
Definition max_alpha : R := 40000000000.
(** PhaseFitter.cc:132-136: FitTEC1ModelParameters *)
Definition parameters1 (n : nat) (acc : R) (cs : list channel) : R :=
  let '(lower, upper) := brute1 n cs (- max_alpha) max_alpha in ternary1 acc cs lower upper.
(** PhaseFitter.cc:110-116: FitTEC2ModelParameters *)
Definition parameters2 (n : nat) (acc : R) (cs : list channel) (beta : R) : R * R :=
  let '(beta, k) := brute2_state n cs (- max_alpha) max_alpha beta in
  let '(lower, upper) := bracket n (- max_alpha) max_alpha k in ternary2 acc cs lower upper beta.
(** PhaseFitter.cc:100-108: fillDataWithTEC2Model, fillDataWithTEC1Model *)
Definition fill (f : R -> R) (cs : list channel) : list R := map (fun c => f (freq c)) cs.

(** TecConstraint.h: Mode *)
Inductive tec_mode := TecOnly | TecAndPhase.
(** TecConstraint.cc:122-127: the values of an antenna: TEC, phase, error, and their weight; then the new phases of the solutions (TecConstraint.cc:129-132) *)
Record fitted := Fitted { r_tec : R; r_phase : R; r_error : R; r_weight : R; r_phases : list R }.
(** TecConstraint.cc:96-109: the channels; a solution that is not finite is None, or else it is its phase *)
Definition channels (l : list (R * option R * R)) : list channel :=
  map (fun '(nu, s, w) => match s with Some p => Channel nu p w | None => Channel nu 0 0 end) l.
(** TecConstraint.cc:96, 104: weight_sum *)
Definition weight_sum (l : list (R * option R * R)) : R := fold_left (fun t '(_, s, w) => match s with Some _ => t + w | None => t end) l 0.
(** PhaseFitter.h:271 and TecConstraint.cc:122 *)
Definition alpha_to_tec (alpha : R) : R := alpha / - 8447972450.
(** TecConstraint.cc:95-133 with PhaseFitter.cc:118-130 (FitDataToTEC2Model, FitDataToTEC1Model): frequency, solution and weight of every channel block *)
Definition apply_tec (mode : tec_mode) (n : nat) (acc : R) (l : list (R * option R * R)) : fitted :=
  let cs := channels l in
  match mode with
  | TecOnly => let alpha := parameters1 n acc cs in
               Fitted (alpha_to_tec alpha) 0 (cost1 cs alpha) (weight_sum l) (fill (fun nu => tec1_wrapped nu alpha) cs)
  | TecAndPhase => let '(alpha, beta) := parameters2 n acc cs 0 in
               Fitted (alpha_to_tec alpha) beta (cost2 cs alpha beta) (weight_sum l) (fill (fun nu => tec2_func nu alpha beta) cs)
  end.
