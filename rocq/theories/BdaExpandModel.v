(** Model of steps/BdaExpander.cc.

    Times and weights are exact rationals; visibilities and uvw coordinates are
    only copied, so their types are abstract. *)
From Coq Require Import QArith Qround Qcanon List Bool Arith ZArith.
From Verif Require Import QcUtil.
Import ListNotations.
Open Scope Qc_scope.

(** BdaExpander.cc:43-47 (single channel width) and 70-71: number of regular
    channels an averaged channel of width [w] stands for.  std::round rounds
    halves away from zero; widths are positive here. *)
Definition n_averaged_channels (bw w : Qc) : nat :=
  Z.to_nat (Qfloor (this (w / bw + Q2Qc (1 # 2)))).

(** BdaExpander.cc:62-86: for one baseline, the averaged channel of each regular
    channel. *)
Fixpoint mapping_from (bw : Qc) (next : nat) (widths : list Qc) : list nat :=
  match widths with
  | [] => []
  | w :: ws => repeat next (n_averaged_channels bw w) ++ mapping_from bw (S next) ws
  end.

(** BdaExpander.cc:62-86 *)
Definition channel_mapping (bw : Qc) (widths : list Qc) : list nat := mapping_from bw 0 widths.

(** BdaExpander.cc:44-47: the width of a single channel, from the channel widths
    of baseline 0. *)
Definition single_bw (widths0 : list Qc) (nchan : nat) : Qc := qsum widths0 / qn nchan.

(** casacore::near(a, b) with its default tolerance 1e-13. *)
Definition near (a b : Qc) : bool :=
  let abs x := if qltb x 0 then - x else x in
  let m := if qltb (abs a) (abs b) then abs b else abs a in
  qleb (abs (a - b)) (Q2Qc (1 # 10000000000000) * m).

Section Expander.
Context {V U : Type}.

(** base/BdaBuffer.h Row with its samples, indexed by averaged channel and
    correlation.  Data, weights and flags are taken to be all present
    (BdaExpander.cc:214-239 skips absent ones). *)
Record row := MkRow {
  r_time : Qc; r_interval : Qc; r_exposure : Qc; r_bl : nat; r_uvw : U;
  r_vis : nat -> nat -> V; r_weight : nat -> nat -> Qc; r_flag : nat -> nat -> bool }.

(** The part of a regular buffer that belongs to one baseline. *)
(** BdaExpander.h:72-79: the regular buffer of an element *)
Record cells := MkCells {
  c_uvw : U; c_vis : nat -> nat -> V; c_weight : nat -> nat -> Qc; c_flag : nat -> nat -> bool }.

(** BdaExpander.h:72-79 RegularBufferElement.  The flag [baseline[b]] and the
    contents of baseline [b] are always written together, so both are in
    [e_bl b]. *)
Record elem := MkElem { e_time : Qc; e_exposure : Qc; e_bl : nat -> option cells }.

Variables (nbl : nat) (dt t0 : Qc) (mapping : nat -> list nat).

(** BdaExpander.cc:195-244 CopyData with time averaging factor [f].  Defined
    when the mapping has an entry for each channel. *)
Definition copy_data (r : row) (f : Z) : cells :=
  let m := mapping (r_bl r) in
  MkCells (r_uvw r)
    (fun ch corr => r_vis r (nth ch m 0%nat) corr)
    (fun ch corr => r_weight r (nth ch m 0%nat) corr
                    / Q2Qc (inject_Z (f * Z.of_nat (count_occ Nat.eq_dec m (nth ch m 0%nat)))))
    (fun ch corr => r_flag r (nth ch m 0%nat) corr).

(** BdaExpander.cc:105-108 n_out_intervals: conversion to int truncates. *)
Definition n_out (d : Qc) : Z :=
  let q := this ((d + dt / (1 + 1)) / dt) in
  Z.quot (Qnum q) (Zpos (Qden q)).

(** The map is keyed by unsigned int, BdaExpander.h:81. *)
Definition key (z : Z) : Z := (z mod 2 ^ 32)%Z.

(** One insertion into the map: key, time, exposure, baseline, contents. *)
(** BdaExpander.cc:121-137, 149-161: the arguments of an insertion *)
Record put := MkPut { p_key : Z; p_time : Qc; p_exposure : Qc; p_bl : nat; p_cells : cells }.

(** BdaExpander.cc:110-163: the insertions made for one row. *)
Definition row_puts (r : row) : list put :=
  let start := r_time r - r_interval r / (1 + 1) in
  if near (r_interval r) dt then
    [MkPut (key (n_out (start - t0))) (r_time r) (r_exposure r) (r_bl r) (copy_data r 1)]
  else
    let f := n_out (r_interval r) in
    map (fun i => let ts := start + qn i * dt in
                  MkPut (key (n_out (ts - t0))) (ts + dt / (1 + 1)) dt (r_bl r) (copy_data r f))
        (seq 0 (Z.to_nat f)).

(** std::map<unsigned, RegularBufferElement> as an association list. *)
Definition emap := list (Z * elem).

(** BdaExpander.cc:121, 149, 168: find in the map *)
Fixpoint lookup (m : emap) (k : Z) : option elem :=
  match m with
  | [] => None
  | (k', e) :: m' => if (k' =? k)%Z then Some e else lookup m' k
  end.

(** BdaExpander.cc:180: erase from the map *)
Definition erase (m : emap) (k : Z) : emap := filter (fun x => negb (fst x =? k)%Z) m.

(** BdaExpander.cc:136, 160: baseline[b] = true, and the contents from CopyData *)
Definition set_bl (e : elem) (b : nat) (c : cells) : elem :=
  MkElem (e_time e) (e_exposure e) (fun b' => if (b' =? b)%nat then Some c else e_bl e b').

(** BdaExpander.cc:121-137 and 149-161: find or create the element and fill the
    baseline. *)
Definition do_put (m : emap) (p : put) : emap :=
  let e := match lookup m (p_key p) with
           | Some e => e
           | None => MkElem (p_time p) (p_exposure p) (fun _ => None)
           end in
  (p_key p, set_bl e (p_bl p) (p_cells p)) :: erase m (p_key p).

(** BdaExpander.h:81-94: the state, and the slots sent to the next step. *)
Record state := MkState { st_map : emap; st_next : Z; st_out : list elem }.

(** BdaExpander.cc:169-171: are all baselines present? *)
Definition complete (e : elem) : bool :=
  forallb (fun b => match e_bl e b with Some _ => true | None => false end) (seq 0 nbl).

(** BdaExpander.cc:168-182. *)
Fixpoint emit (fuel : nat) (s : state) : state :=
  match fuel with
  | O => s
  | S fuel' =>
    match lookup (st_map s) (st_next s) with
    | Some e =>
      if complete e
      then emit fuel' (MkState (erase (st_map s) (st_next s)) (key (st_next s + 1)) (st_out s ++ [e]))
      else s
    | None => s
    end
  end.

(** BdaExpander.cc:99-186 process.  Each round of the loop in [emit] erases an
    element, so the fuel suffices (proved). *)
Definition process (s : state) (rows : list row) : state :=
  let m := fold_left do_put (flat_map row_puts rows) (st_map s) in
  emit (S (length m)) (MkState m (st_next s) (st_out s)).

(** BdaExpander.cc:60: initial state. *)
Definition init : state := MkState [] 0 [].

(** A whole run; finish (BdaExpander.cc:188-193) drops what is left. *)
Definition run (batches : list (list row)) : list elem := st_out (fold_left process batches init).

End Expander.
Arguments row : clear implicits.
Arguments cells : clear implicits.
Arguments elem : clear implicits.
Arguments state : clear implicits.
