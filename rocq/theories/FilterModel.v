(** Model of steps/Filter.cc and base/BaselineSelection.cc. *)
From Coq Require Import QArith Qcanon List Bool Arith ZArith.
From Verif Require Import QcUtil AverageModel InfoModel.
Import ListNotations.
Open Scope nat_scope.

(** * Copying baselines and channels *)

Section Filter.
Variables D F W U R : Type.

(** base/DPBuffer.h: the arrays of a time slot, row-major: data, flags and weights
    have shape nbl x nchan x ncorr, uvw nbl x 3; row numbers may be absent. *)
Record fbuf := MkFbuf { f_data : list D; f_flags : list F; f_weights : list W; f_uvw : list U; f_rows : list R }.

(** Filter.h:154-160: itsStartChan, number of channels, itsSelBL, itsDoSelect. *)
Record fcfg := MkFcfg { c_start : nat; c_n : nat; c_sel : list nat; c_do : bool }.

(** Filter.cc:76-99 updateInfo: [mask] is the selection of each baseline, [None]
    without baseline selection (BaselineSelection.cc:102-105). [start] and [n] come
    from ParseChannelSelection. *)
Definition filter_update (nbl nchan start n : nat) (mask : option (list bool)) : fcfg :=
  let do0 := (0 <? start) || (n <? nchan) in
  match mask with
  | None => MkFcfg start n [] do0
  | Some m =>
    let sel := List.filter (fun i => nth i m false) (seq 0 nbl) in
    MkFcfg start n sel (do0 || (length sel <? nbl))
  end.

(** Filter.cc:101-103: the announced baselines. *)
Definition filter_announce {A} (cfg : fcfg) (d : ants A) : option (ants A) :=
  match c_sel cfg with [] => Some d | sel => select_baselines d sel end.

(** Filter.cc:177-197: copy [ndto] elements from [off] + baseline * [ndfr] for
    each selected baseline; the product is an unsigned int.  The counts ndfr and
    ndto are int: below 2^31 they are exact. *)
Definition copy_sel {X} (sel : list nat) (off ndfr ndto : nat) (src : list X) : list X :=
  flat_map (fun b => firstn ndto (skipn (off + Z.to_nat ((Z.of_nat b * Z.of_nat ndfr) mod 2 ^ 32)) src)) sel.

(** Filter.cc:150-162: xt::view(all, range(start, start + n), all). *)
Definition view_chan {X} (nbl nchan ncorr start n : nat) (src : list X) : list X :=
  flat_map (fun b => firstn (n * ncorr) (skipn ((b * nchan + start) * ncorr) src)) (seq 0 nbl).

(** Filter.cc:123-204 process. *)
Definition filter_process (nbl nchan ncorr : nat) (cfg : fcfg) (b : fbuf) : fbuf :=
  if negb (c_do cfg) then b
  else match c_sel cfg with
  | [] => MkFbuf (view_chan nbl nchan ncorr (c_start cfg) (c_n cfg) (f_data b))
                 (view_chan nbl nchan ncorr (c_start cfg) (c_n cfg) (f_flags b))
                 (view_chan nbl nchan ncorr (c_start cfg) (c_n cfg) (f_weights b))
                 (f_uvw b) (f_rows b)
  | sel =>
    let off := ncorr * c_start cfg in
    let ndfr := ncorr * nchan in
    let ndto := ncorr * c_n cfg in
    MkFbuf (copy_sel sel off ndfr ndto (f_data b)) (copy_sel sel off ndfr ndto (f_flags b))
           (copy_sel sel off ndfr ndto (f_weights b)) (copy_sel sel 0 3 3 (f_uvw b))
           (match f_rows b with
            | [] => []
            | rows => flat_map (fun i => match nth_error rows i with Some r => [r] | None => [] end) sel
            end)
  end.
End Filter.
Arguments MkFbuf {D F W U R}. Arguments f_data {D F W U R}. Arguments f_flags {D F W U R}.
Arguments f_weights {D F W U R}. Arguments f_uvw {D F W U R}. Arguments f_rows {D F W U R}.
Arguments filter_process {D F W U R}.

(** * Removing stations *)

(** Filter.cc:262-264, 267-270: idMap[j] -= k for lo <= j < hi. *)
Definition sub_range (l : list Z) (lo hi : nat) (k : Z) : list Z :=
  fold_left (fun l j => set_nth l j (nth j l 0%Z - k)%Z) (seq lo (hi - lo)) l.

(** Filter.cc:258-266: the loop over the removed ids. *)
Fixpoint id_loop (l : list Z) (removed : list nat) (nrrem : Z) : list Z * Z :=
  match removed with
  | [] => (l, nrrem)
  | r :: rest =>
    let l1 := set_nth l r (-1)%Z in
    let k := (nrrem + 1)%Z in
    match rest with
    | [] => (l1, k)
    | r' :: _ => id_loop (sub_range l1 (S r) r' k) rest k
    end
  end.

(** Filter.cc:250-271 createIdMap; [None]: index out of range. *)
Definition create_id_map (n : nat) (removed : list nat) : option (list Z) :=
  match removed with
  | [] => None
  | _ =>
    if forallb (fun r => r <? n) removed then
      let '(l, k) := id_loop (map Z.of_nat (seq 0 n)) removed 0 in
      Some (sub_range l (S (last removed 0)) n k)
    else None
  end.

(** Filter.cc:273-298 renumberSubTable: the column of a subtable with ids;
    [None]: index out of range or failed assertion. *)
Definition renumber (removed : list nat) (id_map : list Z) (ids : list nat) : option (list nat) :=
  sequence (map (fun a => match nth_error id_map a with
                          | None => None
                          | Some z => if (0 <=? z)%Z then Some (Z.to_nat z) else None
                          end)
                (List.filter (fun a => negb (existsb (Nat.eqb a) removed)) ids)).

(** * Baseline selection *)

Section BaselineSelection.
Variables (N Pat : Type) (matches : Pat -> N -> bool) (names : list N).

(** An element of the baseline vector: one or two station name patterns. *)
(** BaselineSelection.cc:263, 282: the two kinds of elements *)
Inductive bl_entry := One (p : Pat) | Two (p1 p2 : Pat).

(** BaselineSelection.cc:249: casacore::Matrix<bool> of station pairs *)
Definition smatrix := nat -> nat -> bool.
(** BaselineSelection.cc:273-274, 298-299: sel(i, j) = true *)
Definition set_true (m : smatrix) (a b : nat) : smatrix := fun x y => if (x =? a) && (y =? b) then true else m x y.
(** BaselineSelection.cc:325, 347-348: selectBL(i, j) = false *)
Definition set_false (m : smatrix) (a b : nat) : smatrix := fun x y => if (x =? a) && (y =? b) then false else m x y.
(** BaselineSelection.cc:269, 293, 296: a name against a pattern (regular expressions are abstract) *)
Definition name_matches (p : Pat) (i : nat) : bool := match nth_error names i with Some s => matches p s | None => false end.

(** BaselineSelection.cc:262-308: one element of the vector. *)
Definition handle_entry (m : smatrix) (e : bl_entry) : smatrix :=
  let n := length names in
  match e with
  | One p =>
    fold_left (fun m i2 => if name_matches p i2
       then fold_left (fun m j => set_true (set_true m i2 j) j i2) (seq 0 n) m else m) (seq 0 n) m
  | Two p1 p2 =>
    fold_left (fun m i2 => if name_matches p2 i2
       then fold_left (fun m i1 => if name_matches p1 i1 then set_true (set_true m i1 i2) i2 i1 else m) (seq 0 n) m
       else m) (seq 0 n) m
  end.

(** BaselineSelection.cc:246-311 handleBLVector. *)
Definition handle_bl_vector (es : list bl_entry) : smatrix := fold_left handle_entry es (fun _ _ => false).

(** BaselineSelection.cc:313-327 handleCorrType, for valid values. *)
Inductive corr_type := CtAny | CtAuto | CtCross.
(** BaselineSelection.cc:313-327 handleCorrType *)
Definition handle_corr_type (ct : corr_type) (m : smatrix) : smatrix :=
  match ct with
  | CtAny => m
  | CtAuto => fun x y => if x =? y then m x y else false
  | CtCross => fun x y => if x =? y then false else m x y
  end.

(** BaselineSelection.cc:329-351 handleLength; [lens] are the baseline lengths. *)
Definition handle_length (ranges : list (Qc * Qc)) (bls : list (nat * nat)) (lens : list Qc) (m : smatrix) : smatrix :=
  fold_left (fun m bl => let '((a1, a2), len) := bl in
     if existsb (fun r => qleb (fst r) len && qleb len (snd r)) ranges then m
     else set_false (set_false m a1 a2) a2 a1) (combine bls lens) m.

(** BaselineSelection.cc:115-130 apply, with a vector of station names (the
    MSSelection syntax of casacore is not modelled); [None] is an empty value. *)
Definition bl_apply (es : option (list bl_entry)) (ct : corr_type) (ranges : list (Qc * Qc))
    (bls : list (nat * nat)) (lens : list Qc) : smatrix :=
  let m0 : smatrix := fun _ _ => true in
  let m1 := match es with None => m0 | Some es => fun x y => m0 x y && handle_bl_vector es x y end in
  let m2 := handle_corr_type ct m1 in
  match ranges with [] => m2 | _ => handle_length ranges bls lens m2 end.
End BaselineSelection.
Arguments One {Pat}. Arguments Two {Pat}. Arguments bl_apply {N Pat}. Arguments handle_bl_vector {N Pat}.
Arguments handle_entry {N Pat}. Arguments name_matches {N Pat}.
