(** Model of steps/PreFlagger.cc: modes, time ranges, channels and set trees.
    Set expressions are in FlagExprModel.v.  Times are exact rationals; parsing of
    times, frequencies and values from strings is not modelled. *)
From Coq Require Import QArith Qcanon Qround List Bool Arith ZArith Ascii.
From Verif Require Import QcUtil FlagExprModel.
Import ListNotations.
Open Scope nat_scope.

(** * Modes (PreFlagger.cc:128-203) *)

(** The flags of a buffer (baseline, channel, correlation) and the counters of
    base::FlagCounter (base/FlagCounter.h: incrBaseline, incrChannel). *)
Record fstate := MkFstate { fs_flags : nat -> nat -> nat -> bool; fs_bl : nat -> nat; fs_ch : nat -> nat }.

(** base/FlagCounter.h:49-52: incrBaseline, incrChannel *)
Definition incr (f : nat -> nat) (i : nat) : nat -> nat := fun j => if j =? i then S (f j) else f j.

(** xt::view(out, b, c, all).fill(v), and the two counters. *)
(** PreFlagger.cc:166-170, 195-199 *)
Definition fill_sample (s : fstate) (b c : nat) (v : bool) : fstate :=
  MkFstate (fun b' c' p => if (b' =? b) && (c' =? c) then v else fs_flags s b' c' p)
           (incr (fs_bl s) b) (incr (fs_ch s) c).

(** PreFlagger.cc:158-174 *)
Definition set_sample (inp : nat -> nat -> bool) (mode : bool) (s : fstate) (bc : nat * nat) : fstate :=
  let '(b, c) := bc in
  if Bool.eqb (inp b c) mode && negb (fs_flags s b c 0) then fill_sample s b c true else s.

(** PreFlagger.cc:176-203.  [bad b c p]: the data of this correlation is not
    finite or its weight is zero. *)
Definition clear_sample (ncorr : nat) (inp : nat -> nat -> bool) (mode : bool) (bad : nat -> nat -> nat -> bool)
    (s : fstate) (bc : nat * nat) : fstate :=
  let '(b, c) := bc in
  if Bool.eqb (inp b c) mode then
    let flag := existsb (bad b c) (seq 0 ncorr) in
    if negb (Bool.eqb (fs_flags s b c 0) flag) then fill_sample s b c flag else s
  else s.

(** PreFlagger.cc:164-165, 186-187: the loops over baselines and channels *)
Definition samples (nbl nchan : nat) : list (nat * nat) := list_prod (seq 0 nbl) (seq 0 nchan).

(** PreFlagger.cc:135-150: Mode *)
Inductive pmode := SetFlag | ClearFlag | SetComp | ClearComp.

(** PreFlagger.cc:128-156 (process), for the result [inp] of the set tree. *)
Definition apply_mode (nbl nchan ncorr : nat) (m : pmode) (inp : nat -> nat -> bool) (bad : nat -> nat -> nat -> bool)
    (s : fstate) : fstate :=
  match m with
  | SetFlag => fold_left (set_sample inp true) (samples nbl nchan) s
  | ClearFlag => fold_left (clear_sample ncorr inp true bad) (samples nbl nchan) s
  | SetComp => fold_left (set_sample inp false) (samples nbl nchan) s
  | ClearComp => fold_left (clear_sample ncorr inp false bad) (samples nbl nchan) s
  end.

(** * Time ranges *)
(** PreFlagger.cc:574, 994-997: 86400 *)
Definition day : Qc := Q2Qc 86400.

(** A range as read: two values, and whether it was written with "+-". *)
(** PreFlagger.cc:964-984 *)
Record trange := MkTrange { r_pm : bool; r_v1 : Qc; r_v2 : Qc }.

(** PreFlagger.cc:957-1011 (fillTimes), for one range; [None]: an exception.
    The checks of getSeconds (1013-1035) on the half width are included. *)
Definition fill_time (can_end_before_start : bool) (r : trange) : option (list Qc) :=
  if r_pm r && qleb (r_v2 r) 0 then None
  else if qltb (r_v1 r) 0 || qltb (r_v2 r) 0 then None
  else
    let '(v1, v2) := if r_pm r then (r_v1 r - r_v2 r, r_v1 r + r_v2 r)%Qc else (r_v1 r, r_v2 r) in
    if can_end_before_start then
      let v1 := if qltb v1 0 then (v1 + day)%Qc else v1 in
      let v2 := if qltb day v2 then (v2 - day)%Qc else v2 in
      if qltb v1 v2 then Some [v1; v2] else Some [Qcopp 1; v2; v1; (day + 1)%Qc]
    else if qleb v2 v1 then None
    else Some [v1; v2].

(** PreFlagger.cc:957-1011 (fillTimes) *)
Fixpoint fill_times (can_end_before_start : bool) (rs : list trange) : option (list Qc) :=
  match rs with
  | [] => Some []
  | r :: rest =>
    match fill_time can_end_before_start r, fill_times can_end_before_start rest with
    | Some a, Some b => Some (a ++ b)
    | _, _ => None
    end
  end.

(** PreFlagger.cc:602-610 *)
Fixpoint match_range (v : Qc) (ranges : list Qc) : bool :=
  match ranges with
  | a :: b :: rest => if qltb a v && qltb v b then true else match_range v rest
  | _ => false
  end.

(** PreFlagger.cc:573-575: the time of day, for times after the start of the epoch. *)
Definition time_of_day (time : Qc) : Qc := (time - Q2Qc (inject_Z (Qfloor (time / day)%Qc)) * day)%Qc.

(** * Channels (PreFlagger.cc:331-392, handleFreqRanges 1072-1122) *)

(** [ranges]: the evaluated start and end of each element of "chan"; [None]: not given.
    [freqs]: the ranges of "freqrange" in Hz with "+-" already expanded. *)
(** PreFlagger.cc:336-375 *)
Definition chan_selected (ranges : list (nat * nat)) (c : nat) : bool :=
  existsb (fun r => (fst r <=? c) && (c <=? snd r)) ranges.
(** PreFlagger.cc:1072-1122 *)
Definition freq_selected (freqs : list (Qc * Qc)) (f : Qc) : bool :=
  existsb (fun r => qltb (fst r) f && qltb f (snd r)) freqs.

(** [None]: an exception (start after end). *)
(** PreFlagger.cc:331-392 *)
Definition fill_channels (chan_freqs : list Qc) (ranges : list (nat * nat)) (freqs : list (Qc * Qc)) : option (list bool) :=
  if existsb (fun r => snd r <? fst r) ranges then None
  else Some (map (fun c =>
    (match ranges with [] => true | _ => chan_selected ranges c end) &&
    (match freqs with [] => true | _ => freq_selected freqs (nth c chan_freqs 0%Qc) end))
    (seq 0 (length chan_freqs))).

(** * Set trees *)
(** PreFlagger.cc:515-527 *)
Inductive quantity := Ampl | Real | Imag | Phase.

(** What a buffer provides.  [d_lst] and [d_azel] stand for the conversions by
    casacore (local sidereal time and azimuth/elevation per antenna, both in seconds
    and not negative); [d_val] is a value per baseline, channel and correlation, [None] for NaN. *)
Record pbuffer := MkPbuffer {
  d_time : Qc; d_slot : nat; d_lst : Qc; d_uv2 : nat -> Qc; d_azel : nat -> Qc * Qc;
  d_val : quantity -> nat -> nat -> nat -> option Qc }.

(** The criteria of one set after updateInfo (PreFlagger.cc:280-329). *)
Record crit := MkCrit {
  k_times : list Qc; k_lst : list Qc; k_atimes : list Qc; k_rtimes : list Qc; k_slots : list nat;
  k_azim : list Qc; k_elev : list Qc;
  k_uv : option (Qc * Qc);             (* squared minimum and maximum *)
  k_bl : option (nat -> nat -> bool);  (* matrix of station pairs *)
  k_chan : option (list bool);         (* the mask, if "chan" or "freqrange" is given *)
  k_ampl : option (list Qc * list Qc); k_real : option (list Qc * list Qc);
  k_imag : option (list Qc * list Qc); k_phase : option (list Qc * list Qc) }.

(** PreFlagger.h:98-275 (PSet) *)
Inductive pset := PSet (k : crit) (rpn : list ritem) (children : list pset).

(** The metadata of the observation. *)
(** base/DPInfo.h, as used in PreFlagger.cc:280-329 *)
Record pobs := MkPobs { o_nbl : nat; o_nchan : nat; o_ncorr : nat; o_ant1 : nat -> nat; o_ant2 : nat -> nat; o_start : Qc }.

(** PreFlagger.cc:289-313: !empty() *)
Definition nonempty {A} (l : list A) : bool := match l with [] => false | _ => true end.
(** PreFlagger.cc:289-313: is the key present? *)
Definition given {A} (o : option A) : bool := match o with None => false | _ => true end.

(** PreFlagger.cc:289-290 *)
Definition on_time (k : crit) : bool :=
  nonempty (k_slots k) || nonempty (k_times k) || nonempty (k_lst k) || nonempty (k_atimes k) || nonempty (k_rtimes k).
(** PreFlagger.cc:294 *)
Definition on_azel (k : crit) : bool := nonempty (k_azim k) || nonempty (k_elev k).
(** itsChannels is not empty. *)
(** PreFlagger.cc:322, 512 *)
Definition has_channels (k : crit) : bool := match k_chan k with None => false | Some m => existsb (fun x => x) m end.
(** PreFlagger.cc:309-324: itsFlagOnTimeOnly *)
Definition time_only (k : crit) (children : list pset) : bool :=
  negb (given (k_uv k) || given (k_bl k) || on_azel k || given (k_ampl k) || given (k_phase k) || given (k_real k) || given (k_imag k))
  && negb (nonempty children) && negb (has_channels k).

(** PreFlagger.cc:565-600 *)
Definition match_time (o : pobs) (k : crit) (d : pbuffer) : bool :=
  (if nonempty (k_atimes k) then match_range (d_time d) (k_atimes k) else true) &&
  (if nonempty (k_rtimes k) then match_range (d_time d - o_start o)%Qc (k_rtimes k) else true) &&
  (if nonempty (k_times k) then match_range (time_of_day (d_time d)) (k_times k) else true) &&
  (if nonempty (k_slots k) then existsb (Nat.eqb (d_slot d)) (k_slots k) else true) &&
  (if nonempty (k_lst k) then match_range (d_lst d) (k_lst k) else true).

(** flagBL and flagUV (PreFlagger.cc:612-645): one loop over the baselines that
    clears the ones that do not satisfy [ok]; true if one is left. *)
Fixpoint keep_loop (ok : nat -> bool) (i : nat) (m : list bool) : list bool * bool :=
  match m with
  | [] => ([], false)
  | x :: r =>
    let '(r', found) := keep_loop ok (S i) r in
    if x then (if ok i then (true :: r', true) else (false :: r', found)) else (x :: r', found)
  end.
(** PreFlagger.cc:631-645 *)
Definition bl_ok (o : pobs) (mat : nat -> nat -> bool) (i : nat) : bool := mat (o_ant1 o i) (o_ant2 o i).
(** PreFlagger.cc:612-629 *)
Definition uv_ok (d : pbuffer) (lim : Qc * Qc) (i : nat) : bool :=
  negb (qleb (fst lim) (d_uv2 d i) && qleb (d_uv2 d i) (snd lim)).

(** uvmmin and uvmmax (PreFlagger.cc:233-235, 295-307): [None]: an exception,
    [Some None]: no selection on uv distance. *)
Definition uv_limits (mn mx : Qc) : option (option (Qc * Qc)) :=
  let lo := (if qleb 0 mn then mn * mn else mn)%Qc in
  let hi := (if qltb 0 mx then mx * mx else Q2Qc (10 ^ 30))%Qc in
  if qleb hi lo then None
  else Some (if qleb 0 mn || qltb 0 mx then Some (lo, hi) else None).

(** testAzEl (PreFlagger.cc:685-709): the test of an antenna ... *)
Definition azel_ok (k : crit) (d : pbuffer) (a : nat) : bool :=
  (negb (nonempty (k_azim k)) || match_range (fst (d_azel d a)) (k_azim k)) &&
  (negb (nonempty (k_elev k)) || match_range (snd (d_azel d a)) (k_elev k)).
(** ... and clearing all baselines with the antenna from [blnr] on. *)
(** PreFlagger.cc:698-706 *)
Definition clear_ant (o : pobs) (ant blnr : nat) (m : list bool) : list bool :=
  map (fun '(i, x) => if (blnr <=? i) && ((o_ant1 o i =? ant) || (o_ant2 o i =? ant)) then false else x)
      (combine (seq 0 (length m)) m).
(** PreFlagger.cc:685-709 *)
Definition test_azel (o : pobs) (k : crit) (d : pbuffer) (blnr ant : nat) (m : list bool) : list bool :=
  if azel_ok k d ant then m else clear_ant o ant blnr m.

(** One round of flagAzEl (PreFlagger.cc:660-681): itsMatchBL, done, match. *)
Definition azel_step (o : pobs) (k : crit) (d : pbuffer) (s : list bool * (nat -> bool) * bool) (i : nat)
    : list bool * (nat -> bool) * bool :=
  let '(m, done, found) := s in
  if nth i m false then
    let a1 := o_ant1 o i in let a2 := o_ant2 o i in
    let '(m, done) := if done a1 then (m, done) else (test_azel o k d i a1 m, fun a => if a =? a1 then true else done a) in
    let '(m, done) := if nth i m false && negb (done a2)
                      then (test_azel o k d i a2 m, fun a => if a =? a2 then true else done a) else (m, done) in
    (m, done, if nth i m false then true else found)
  else s.
(** PreFlagger.cc:647-683 *)
Definition flag_azel (o : pobs) (k : crit) (d : pbuffer) (m : list bool) : list bool * bool :=
  let '(m, _, found) := fold_left (azel_step o k d) (seq 0 (length m)) (m, fun _ => false, false) in (m, found).

(** The flags of a set: a row of channels per baseline. *)
(** PreFlagger.h:272: itsFlags *)
Definition pflags := list (list bool).
(** PreFlagger.cc:464, 469, 473: fill *)
Definition const_flags (o : pobs) (v : bool) : pflags := repeat (repeat v (o_nchan o)) (o_nbl o).

(** PreFlagger.cc:540-560: element-wise operations *)
Fixpoint zip_with {A B C} (f : A -> B -> C) (l : list A) (m : list B) : list C :=
  match l, m with a :: l', b :: m' => f a b :: zip_with f l' m' | _, _ => [] end.
(** PreFlagger.cc:548, 560: &= *)
Definition flags_and : pflags -> pflags -> pflags := zip_with (zip_with andb).
(** PreFlagger.cc:546: |= *)
Definition flags_or : pflags -> pflags -> pflags := zip_with (zip_with orb).
(** PreFlagger.cc:540: ! *)
Definition flags_not : pflags -> pflags := map (map negb).

(** PreFlagger.cc:803-814 *)
Definition flag_channels (mask : list bool) (f : pflags) : pflags := map (fun row => zip_with andb mask row) f.

(** PreFlagger.cc:711-801: outside the limits for some correlation; comparisons with
    NaN are false. *)
Definition outside (o : pobs) (v : nat -> option Qc) (lim : list Qc * list Qc) : bool :=
  existsb (fun j => match v j with
                    | None => false
                    | Some x => qltb x (nth j (fst lim) 0%Qc) || qltb (nth j (snd lim) 0%Qc) x
                    end) (seq 0 (o_ncorr o)).
(** PreFlagger.cc:711-801: the loops over baselines and channels *)
Definition flag_value (o : pobs) (val : nat -> nat -> nat -> option Qc) (lim : list Qc * list Qc) (f : pflags) : pflags :=
  map (fun '(b, row) => map (fun '(c, x) => if outside o (val b c) lim then x else false) (combine (seq 0 (length row)) row))
      (combine (seq 0 (length f)) f).
(** PreFlagger.cc:515-527: only if limits are given *)
Definition flag_value_opt (o : pobs) (val : nat -> nat -> nat -> option Qc) (lim : option (list Qc * list Qc)) (f : pflags) : pflags :=
  match lim with None => f | Some l => flag_value o val l f end.

(** PreFlagger.cc:503-527: rows from the baselines, then channels and values. *)
Definition own_flags (o : pobs) (k : crit) (d : pbuffer) (m : list bool) : pflags :=
  let f := map (fun x : bool => repeat x (o_nchan o)) m in
  let f := match k_chan k with Some mask => if existsb (fun x => x) mask then flag_channels mask f else f | None => f end in
  let f := flag_value_opt o (d_val d Ampl) (k_ampl k) f in
  let f := flag_value_opt o (d_val d Real) (k_real k) f in
  let f := flag_value_opt o (d_val d Imag) (k_imag k) f in
  flag_value_opt o (d_val d Phase) (k_phase k) f.

(** PreFlagger.cc:537: the results of the sets in the expression *)
Fixpoint all_some {A} (l : list (option A)) : option (list A) :=
  match l with
  | [] => Some []
  | Some x :: r => match all_some r with Some r' => Some (x :: r') | None => None end
  | None :: _ => None
  end.

(** PSet::process (PreFlagger.cc:458-563); [m] is the list of baselines of the parent,
    empty for the outermost set.  [None]: an exception or an empty stack.  Children are
    processed before the evaluation instead of during it (they only write their own array). *)
Fixpoint process (o : pobs) (d : pbuffer) (p : pset) (m : list bool) {struct p} : option pflags :=
  match p with
  | PSet k rpn children =>
    if on_time k && negb (match_time o k d) then Some (const_flags o false)
    else if time_only k children then Some (const_flags o (on_time k))
    else
      let m := match m with [] => repeat true (o_nbl o) | _ => m end in
      let '(m, go) := match k_bl k with Some mat => keep_loop (bl_ok o mat) 0 m | None => (m, true) end in
      if negb go then Some (const_flags o false) else
      let '(m, go) := match k_uv k with Some lim => keep_loop (uv_ok d lim) 0 m | None => (m, true) end in
      if negb go then Some (const_flags o false) else
      let '(m, go) := if on_azel k then flag_azel o k d m else (m, true) in
      if negb go then Some (const_flags o false) else
      let f := own_flags o k d m in
      match children with
      | [] => Some f
      | _ =>
        match all_some (map (fun ch => process o d ch m) children) with
        | None => None
        | Some res =>
          match eval_expr flags_not flags_and flags_or (fun i => nth i res []) rpn with
          | None => None
          | Some g => Some (flags_and f g)
          end
        end
      end
  end.

(** The set a configuration describes (constructor, PreFlagger.cc:210-278): the keys of
    a set named by the path [p] give its criteria and the text of its expression, and
    each name in the expression is a set with a longer path. *)
Definition config := list (list ascii) -> crit * list ascii.

(** PreFlagger.cc:210-278 (constructor) *)
Inductive builds (cf : config) : list (list ascii) -> pset -> Prop :=
| builds_leaf p k : cf p = (k, []) -> builds cf p (PSet k [] [])
| builds_node p k s rpn names children : cf p = (k, s) -> s <> [] -> expr_to_rpn s = Some (rpn, names) ->
    Forall2 (fun n ch => builds cf (p ++ [n]) ch) names children -> builds cf p (PSet k rpn children).
