(** Model of the mixing factors, the deprojection, the equations and the subtraction of the Demixer (steps/Demixer.cc, base/EstimateMixed.cc, base/Apply.cc, base/SubtractMixed.cc).  Numbers are real numbers.  The model is for one baseline and, but for the equations, one correlation; the code does the same for all of them. *)
From Coq Require Import Reals List Arith Bool.
From Verif Require Import RealCplx.
Import ListNotations.
Open Scope R_scope.

(** A sum in the order of a loop, as in steps/Demixer.cc:782-786 *)
Definition lsum {A : Type} (f : A -> rc) (l : list A) : rc := fold_left (fun s x => radd s (f x)) l rc0.
(** A sum of real numbers in the order of a loop, as in steps/Averager.cc:284-292 *)
Definition wsum {A : Type} (f : A -> R) (l : list A) : R := fold_left (fun s x => s + f x) l 0.

(** * Mixing factors *)

(** A time slot: the phasors of a direction and a channel (steps/PhaseShift.cc:130-131), and the flags, weights and data of a channel *)
Record slot := Slot { phasor : nat -> nat -> rc; s_flag : nat -> bool; s_weight : nat -> R; s_data : nat -> rc }.
(** steps/Demixer.cc:707, 710, 748; 766-767, 797: the pairs of directions, in the order of the pair number *)
Definition pairs (n_dir : nat) : list (nat * nat) := flat_map (fun d0 => map (fun d1 => (d0, d1)) (seq (d0 + 1) (n_dir - (d0 + 1)))) (seq 0 (n_dir - 1)).
(** steps/Demixer.cc:738: the weight of a sample *)
Definition weight_of (s : slot) (ch : nat) : R := (if negb (s_flag s ch) then 1 else 0) * s_weight s ch.
(** steps/Demixer.cc:711-717, 733-734: the factor of a pair of directions *)
Definition factor (n_dir : nat) (s : slot) (d0 d1 ch : nat) : rc :=
  if (d1 =? n_dir - 1)%nat then rconj (phasor s d0 ch) else rmul (phasor s d1 ch) (rconj (phasor s d0 ch)).
(** steps/Demixer.cc:685-751 (addFactors): the sums by pair number and channel; both buffers get the same *)
Definition add_factors (n_dir : nat) (fb : nat -> nat -> rc) (s : slot) : nat -> nat -> rc := fun k ch =>
  match nth_error (pairs n_dir) k with
  | Some (d0, d1) => radd (fb k ch) (rscale (weight_of s ch) (factor n_dir s d0 d1 ch))
  | None => fb k ch
  end.
(** steps/Demixer.cc:773-786: the input channels of each output channel *)
Fixpoint channels (n_in n_avg ch_in ch_out n : nat) : list (list nat) :=
  match n with
  | O => []
  | S n => let count := Nat.min n_avg (n_in - ch_out * n_avg) in seq ch_in count :: channels n_in n_avg (ch_in + count) (S ch_out) n
  end.
(** Assignment to an element of a matrix, as in steps/Demixer.cc:790-791 *)
Definition set2 (m : nat -> nat -> rc) (i j : nat) (v : rc) : nat -> nat -> rc := fun x y => if ((x =? i) && (y =? j))%nat then v else m x y.
(** steps/Demixer.cc:753-801 (makeFactors): the factors of an output channel, as they are stored: the first index is dir0, the second dir1 *)
Definition make_factors (n_dir n_in n_avg n_out : nat) (fb : nat -> nat -> rc) (weight_sums : nat -> R) (ch_out : nat) : nat -> nat -> rc :=
  fold_left (fun m '(k, (d0, d1)) =>
    let f := rscale (/ weight_sums ch_out) (lsum (fun ch => fb k ch) (nth ch_out (channels n_in n_avg 0 0 n_out) [])) in
    set2 (set2 m d0 d1 f) d1 d0 (rconj f)) (combine (seq 0 (length (pairs n_dir))) (pairs n_dir)) (fun _ _ => rc1).
(** steps/Demixer.cc:519-545, steps/PhaseShift.cc:133: the data that go to the average of a direction; the last one is the target, without a shift *)
Definition shifted (n_dir : nat) (s : slot) (d ch : nat) : rc := if (d <? n_dir - 1)%nat then rmul (s_data s ch) (phasor s d ch) else s_data s ch.
(** steps/Averager.cc:270-275: the input channels of an output channel of the average *)
Definition averaged_channels (n_in n_avg ch_out : nat) : list nat := seq (ch_out * n_avg) (Nat.min n_avg (n_in - ch_out * n_avg)).
(** steps/Averager.cc:150-310 with itsMinNPoint = 1 and itsMinPerc = 0: data, weight and flag of an output channel *)
Definition average (n_dir n_in n_avg : nat) (slots : list slot) (d ch_out : nat) : rc * R * bool :=
  let chs := averaged_channels n_in n_avg ch_out in
  let all := wsum (fun ch => wsum (fun s => s_weight s ch) slots) chs in
  let sum := wsum (fun ch => wsum (fun s => weight_of s ch) slots) chs in
  if Req_EM_T sum 0 then
    (if Req_EM_T all 0 then rc0 else rscale (/ all) (lsum (fun ch => lsum (fun s => rscale (s_weight s ch) (shifted n_dir s d ch)) slots) chs), all, true)
  else (rscale (/ sum) (lsum (fun ch => lsum (fun s => rscale (weight_of s ch) (shifted n_dir s d ch)) slots) chs), sum, false).
(** steps/Demixer.cc:541-566: the factors of the time slots of an average, with the weights of the average of the first direction *)
Definition factors (n_dir n_in n_avg n_out : nat) (slots : list slot) (ch_out : nat) : nat -> nat -> rc :=
  make_factors n_dir n_in n_avg n_out (fold_left (add_factors n_dir) slots (fun _ _ => rc0))
    (fun ch => snd (fst (average n_dir n_in n_avg slots 0 ch))) ch_out.

(** * Deprojection *)

(** steps/Demixer.cc:849-851: the matrix that casacore makes of the stored factors, which is stored by column *)
Definition matrix (buf : nat -> nat -> rc) (row column : nat) : rc := buf column row.
(** steps/Demixer.cc:806-810: the number of directions to project away *)
Definition n_deproject (n_dir n_model : nat) (ignore_target : bool) : nat := if ignore_target then (n_dir - n_model - 1)%nat else (n_dir - n_model)%nat.
(** steps/Demixer.cc:856-870: the projection.  invert is casacore's; it gives an empty matrix, here None, if there is no inverse, and zeros are used for it *)
Definition projection (invert : nat -> (nat -> nat -> rc) -> option (nat -> nat -> rc)) (n_dir n_model n_dep : nat) (buf : nat -> nat -> rc) : nat -> nat -> rc :=
  let a := fun i j => matrix buf i (n_model + j)%nat in
  let at_ := fun i j => rconj (a j i) in
  let ata := match invert n_dep (fun i j => lsum (fun k => rmul (at_ i k) (a k j)) (seq 0 n_dir)) with Some x => x | None => fun _ _ => rc0 end in
  let aata := fun i j => lsum (fun k => rmul (a i k) (ata k j)) (seq 0 n_dep) in
  fun i j => radd (ropp (lsum (fun k => rmul (aata i k) (at_ k j)) (seq 0 n_dep))) (if (i =? j)%nat then rc1 else rc0).
(** steps/Demixer.cc:803-888 (deproject): the new factors, as they are stored, and the new averages by direction *)
Definition deproject (invert : nat -> (nat -> nat -> rc) -> option (nat -> nat -> rc)) (n_dir n_model : nat) (ignore_target : bool) (buf : nat -> nat -> rc) (data : nat -> rc) : (nat -> nat -> rc) * (nat -> rc) :=
  let n_dep := n_deproject n_dir n_model ignore_target in
  if ((n_dir <=? 1) || (n_dep =? 0))%nat then (buf, data) else
  let p := projection invert n_dir n_model n_dep buf in
  (fun c r => lsum (fun k => rmul (p r k) (matrix buf k c)) (seq 0 n_dir), fun k => lsum (fun j => rmul (data j) (p k j)) (seq 0 n_dir)).

(** * Equations *)

(** The four correlations, or the elements of a Jones matrix by row, as in base/EstimateMixed.cc:106-110 *)
Record mat2 := Mat2 { m00 : rc; m01 : rc; m10 : rc; m11 : rc }.
(** base/EstimateMixed.cc:91-95: the Jones matrix of a station *)
Definition jones_of (u : nat -> R) (base : nat) : mat2 :=
  Mat2 (RC (u base) (u (base + 1)%nat)) (RC (u (base + 2)%nat) (u (base + 3)%nat)) (RC (u (base + 4)%nat) (u (base + 5)%nat)) (RC (u (base + 6)%nat) (u (base + 7)%nat)).
(** base/EstimateMixed.cc:98-102: the conjugate of it *)
Definition jones_conj (u : nat -> R) (base : nat) : mat2 :=
  Mat2 (RC (u base) (- u (base + 1)%nat)) (RC (u (base + 2)%nat) (- u (base + 3)%nat)) (RC (u (base + 4)%nat) (- u (base + 5)%nat)) (RC (u (base + 6)%nat) (- u (base + 7)%nat)).
(** base/EstimateMixed.cc:112-149: for a direction and a correlation the model with the gains, M, and the four derivatives, dM; q is conjugated *)
Definition model_terms (p q v : mat2) (cr : nat) : rc * (rc * rc * rc * rc) :=
  let q00xx_01xy := radd (rmul (m00 q) (m00 v)) (rmul (m01 q) (m01 v)) in
  let q00yx_01yy := radd (rmul (m00 q) (m10 v)) (rmul (m01 q) (m11 v)) in
  let q10xx_11xy := radd (rmul (m10 q) (m00 v)) (rmul (m11 q) (m01 v)) in
  let q10yx_11yy := radd (rmul (m10 q) (m10 v)) (rmul (m11 q) (m11 v)) in
  let d2 := radd (rmul (m00 p) (m00 v)) (rmul (m01 p) (m10 v)) in
  let d3 := radd (rmul (m00 p) (m01 v)) (rmul (m01 p) (m11 v)) in
  let d10 := radd (rmul (m10 p) (m00 v)) (rmul (m11 p) (m10 v)) in
  let d11 := radd (rmul (m10 p) (m01 v)) (rmul (m11 p) (m11 v)) in
  match cr with
  | 0%nat => (radd (rmul (m00 p) q00xx_01xy) (rmul (m01 p) q00yx_01yy), (q00xx_01xy, q00yx_01yy, d2, d3))
  | 1%nat => (radd (rmul (m00 p) q10xx_11xy) (rmul (m01 p) q10yx_11yy), (q10xx_11xy, q10yx_11yy, d2, d3))
  | 2%nat => (radd (rmul (m10 p) q00xx_01xy) (rmul (m11 p) q00yx_01yy), (q00xx_01xy, q00yx_01yy, d10, d11))
  | _ => (radd (rmul (m10 p) q10xx_11xy) (rmul (m11 p) q10yx_11yy), (q10xx_11xy, q10yx_11yy, d10, d11))
  end.
(** base/EstimateMixed.cc:25-48 (makeIndex): the unknowns of a correlation; the part of a direction *)
Definition index_of (n_st p q cr dr : nat) : list nat :=
  let i0 := (p * 8 + cr / 2 * 4 + dr * (n_st * 8))%nat in
  let i1 := (q * 8 + cr mod 2 * 4 + dr * (n_st * 8))%nat in
  [i0; i0 + 1; i0 + 2; i0 + 3; i1; i1 + 1; i1 + 2; i1 + 3]%nat.
(** base/EstimateMixed.cc:162-202: the derivatives of the real and the imaginary part; the part of a direction *)
Definition partials (mix : rc) (d : rc * rc * rc * rc) : list R * list R :=
  let '(a, b, c, e) := d in
  let a := rmul mix a in let b := rmul mix b in let c := rmul mix c in let e := rmul mix e in
  ([re a; - im a; re b; - im b; re c; im c; re e; im e], [im a; re a; im b; re b; im c; - re c; im e; - re e]).
(** The two Jones matrices of a baseline for a direction: base/EstimateMixed.cc:91-102 *)
Definition terms_of (n_st p q : nat) (u : nat -> R) (model : nat -> mat2) (cr dr : nat) : rc * (rc * rc * rc * rc) :=
  model_terms (jones_of u (dr * n_st * 8 + p * 8)) (jones_conj u (dr * n_st * 8 + q * 8)) (model dr) cr.
(** base/EstimateMixed.cc:155-217: for a target direction and a correlation that is not flagged the two equations that are given to the solver: indices, derivatives of the real and the imaginary part, and the residual.  mix is the cursor: the first argument is its first dimension *)
Definition equation (n_dir n_st p q : nat) (u : nat -> R) (model : nat -> mat2) (data : nat -> rc) (mix : nat -> nat -> rc) (cr tg : nat) : list nat * list R * list R * rc :=
  let t dr := terms_of n_st p q u model cr dr in
  (flat_map (index_of n_st p q cr) (seq 0 n_dir),
   flat_map (fun dr => fst (partials (mix tg dr) (snd (t dr)))) (seq 0 n_dir),
   flat_map (fun dr => snd (partials (mix tg dr) (snd (t dr)))) (seq 0 n_dir),
   rsub (data tg) (lsum (fun dr => rmul (mix tg dr) (fst (t dr))) (seq 0 n_dir))).

(** * Subtraction *)

(** base/Apply.cc:13-73 (apply): a channel of a baseline; the coefficients are those of the direction *)
Definition apply_gains (p q : nat) (coeff : nat -> R) (v : mat2) : mat2 :=
  if (p =? q)%nat then v else
  let jp := jones_of coeff (p * 8) in
  let jq := jones_conj coeff (q * 8) in
  let q00xx_01xy := radd (rmul (m00 jq) (m00 v)) (rmul (m01 jq) (m01 v)) in
  let q00yx_01yy := radd (rmul (m00 jq) (m10 v)) (rmul (m01 jq) (m11 v)) in
  let q10xx_11xy := radd (rmul (m10 jq) (m00 v)) (rmul (m11 jq) (m01 v)) in
  let q10yx_11yy := radd (rmul (m10 jq) (m10 v)) (rmul (m11 jq) (m11 v)) in
  Mat2 (radd (rmul (m00 jp) q00xx_01xy) (rmul (m01 jp) q00yx_01yy)) (radd (rmul (m00 jp) q10xx_11xy) (rmul (m01 jp) q10yx_11yy))
       (radd (rmul (m10 jp) q00xx_01xy) (rmul (m11 jp) q00yx_01yy)) (radd (rmul (m10 jp) q10xx_11xy) (rmul (m11 jp) q10yx_11yy)).
(** base/SubtractMixed.cc:14-73 (subtract): a channel of a baseline; the weights are those of the correlations *)
Definition subtract_one (p q : nat) (data model weight : mat2) : mat2 :=
  if (p =? q)%nat then data else
  Mat2 (rsub (m00 data) (rmul (m00 weight) (m00 model))) (rsub (m01 data) (rmul (m01 weight) (m01 model)))
       (rsub (m10 data) (rmul (m10 weight) (m10 model))) (rsub (m11 data) (rmul (m11 weight) (m11 model))).
(** steps/Demixer.cc:1052-1056, 1089-1145: the subtraction of the sources of a time slot and a channel; factors are as stored, by correlation *)
Definition subtract_sources (n_dir n_sub n_st p q : nat) (u : nat -> R) (model : nat -> mat2) (f00 f01 f10 f11 : nat -> nat -> rc) (data : mat2) : mat2 :=
  fold_left (fun data dr =>
    let v := apply_gains p q (fun i => u (dr * n_st * 8 + i)%nat) (model dr) in
    let w := fun f : nat -> nat -> rc => f dr (n_dir - 1)%nat in
    subtract_one p q data v (Mat2 (w f00) (w f01) (w f10) (w f11))) (seq 0 n_sub) data.
