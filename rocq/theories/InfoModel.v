(** Model of the channel, antenna and time bookkeeping of base/DPInfo.cc. *)
From Coq Require Import QArith Qround Qcanon List Bool Arith ZArith.
From Verif Require Import QcUtil AverageModel.
Import ListNotations.
Open Scope Qc_scope.

(** DPInfo.cc:62-81 setTimes; the conversion of the quotient to unsigned
    truncates (defined below 2^32). *)
Definition set_times (inf : info) (first last interval : Qc) : outcome info :=
  if qltb last first then Throw
  else if qleb interval 0 then Throw
  else
    let n := Qfloor (this ((last - first) / interval + Q2Qc (3 # 2))) in
    if (2 ^ 32 <=? n)%Z then Undefined
    else Ok (MkInfo (i_freqs inf) (i_widths inf) (i_resol inf) (i_effbw inf) (i_nchan inf) (i_totbw inf)
               (i_reffreq inf) (i_startchan inf) (Z.to_nat n) first last interval (i_chanavg inf) (i_timeavg inf)).

(** DPInfo.cc:93-136 setChannels for one list of channels; an empty list of
    resolutions or bandwidths stands for the widths.  [ref] zero asks for the
    middle frequency, which for an empty list reads outside the vector. *)
Definition set_channels (inf : info) (freqs widths resol effbw : list Qc) (ref : Qc) : outcome info :=
  let resol' := match resol with [] => widths | _ => resol end in
  let effbw' := match effbw with [] => widths | _ => effbw end in
  if negb (length freqs =? length widths)%nat then Throw
  else if negb (length resol' =? length freqs)%nat then Throw
  else if negb (length effbw' =? length freqs)%nat then Throw
  else
    let n := length freqs in
    if is_zero ref && (n =? 0)%nat then Undefined
    else
      let ref' := if is_zero ref then half * (nth ((n - 1) / 2) freqs 0 + nth (n / 2) freqs 0) else ref in
      Ok (MkInfo freqs widths resol' effbw' n (fold_left Qcplus effbw' 0) ref'
            (i_startchan inf) (i_ntime inf) (i_first inf) (i_last inf) (i_interval inf) (i_chanavg inf) (i_timeavg inf)).

(** std::vector(begin + start, begin + start + n). *)
Definition range {A} (start n : nat) (l : list A) : list A := firstn n (skipn start l).

(** DPInfo.cc:364-404 SelectChannels; [start] and [n] are unsigned int.  Iterators
    beyond the end are undefined behaviour. *)
Definition select_channels (inf : info) (start n : Z) : outcome info :=
  if (start =? 0)%Z && (n =? Z.of_nat (i_nchan inf))%Z then Ok inf
  else if (Z.of_nat (length (i_freqs inf)) <? (start + n) mod 2 ^ 32)%Z then Throw
  else if (Z.of_nat (length (i_freqs inf)) <? start + n)%Z then Undefined
  else
    let s := Z.to_nat start in let k := Z.to_nat n in
    Ok (MkInfo (range s k (i_freqs inf)) (range s k (i_widths inf)) (range s k (i_resol inf)) (range s k (i_effbw inf))
          k (i_totbw inf) (i_reffreq inf) (i_startchan inf + s)
          (i_ntime inf) (i_first inf) (i_last inf) (i_interval inf) (i_chanavg inf) (i_timeavg inf)).

(** * Antennas *)

Section Antennas.
Variable A : Type.   (* name, diameter and position of an antenna *)

(** base/DPInfo.h: antenna_names_, antenna_diameters_ and antenna_positions_
    (three parallel vectors, as one list), antenna1_, antenna2_, antennas_used_
    and antenna_map_ ([None] is -1).  Antenna numbers are natural: a negative one
    would be undefined behaviour in setAntUsed. *)
Record ants := MkAnts {
  d_ants : list A; d_ant1 : list nat; d_ant2 : list nat;
  d_used : list nat; d_map : list (option nat) }.

(** DPInfo.cc:280, 494: assignment to an element of a vector *)
Fixpoint set_nth {B} (l : list B) (i : nat) (x : B) : list B :=
  match l, i with
  | [], _ => []
  | _ :: r, O => x :: r
  | y :: r, S j => y :: set_nth r j x
  end.

(** DPInfo.cc:277-283: mark the antennas of the baselines; [None]: exception. *)
Fixpoint mark (l : list bool) (bl : list (nat * nat)) : option (list bool) :=
  match bl with
  | [] => Some l
  | (a, b) :: r =>
    if (length l <=? a)%nat || (length l <=? b)%nat then None
    else mark (set_nth (set_nth l a true) b true) r
  end.

(** DPInfo.cc:285-290: number the marked antennas; [i] is the loop variable,
    [next] the size of antennas_used_. *)
Fixpoint number (i next : nat) (l : list bool) : list nat * list (option nat) :=
  match l with
  | [] => ([], [])
  | true :: r => let '(u, m) := number (S i) (S next) r in (i :: u, Some next :: m)
  | false :: r => let '(u, m) := number (S i) next r in (u, None :: m)
  end.

(** DPInfo.cc:273-291 setAntUsed. *)
Definition set_ant_used (ants_ : list A) (ant1 ant2 : list nat) : option ants :=
  match mark (repeat false (length ants_)) (combine ant1 ant2) with
  | None => None
  | Some l => let '(u, m) := number 0 0 l in Some (MkAnts ants_ ant1 ant2 u m)
  end.

(** DPInfo.cc:253-271 setAntennas, vectors of equal sizes. *)
Definition set_antennas (ants_ : list A) (ant1 ant2 : list nat) : option ants :=
  if (length ant1 =? length ant2)%nat then set_ant_used ants_ ant1 ant2 else None.

(** DPInfo.cc:406-420 SelectBaselines.  A baseline number out of range is
    undefined behaviour ([None] as well). *)
Definition select_baselines (d : ants) (bl : list nat) : option ants :=
  if forallb (fun b => (b <? length (d_ant1 d))%nat && (b <? length (d_ant2 d))%nat) bl
  then set_ant_used (d_ants d) (map (fun b => nth b (d_ant1 d) 0%nat) bl) (map (fun b => nth b (d_ant2 d) 0%nat) bl)
  else None.

(** DPInfo.cc:437-443: antenna_map_[i] *)
Definition map_ant (m : list (option nat)) (a : nat) : option nat := nth a m None.

(** DPInfo.cc:435-447: all new numbers, or undefined behaviour if one fails *)
Fixpoint sequence {B} (l : list (option B)) : option (list B) :=
  match l with
  | [] => Some []
  | None :: _ => None
  | Some x :: r => match sequence r with None => None | Some y => Some (x :: y) end
  end.

(** DPInfo.cc:422-452 RemoveUnusedAntennas.  [None] if an antenna would become
    -1 or be out of range. *)
Definition remove_unused (d : ants) : option ants :=
  if (length (d_used d) <? length (d_map d))%nat then
    match sequence (map (nth_error (d_ants d)) (d_used d)),
          sequence (map (map_ant (d_map d)) (d_ant1 d)),
          sequence (map (map_ant (d_map d)) (d_ant2 d)) with
    | Some ants', Some a1, Some a2 => set_ant_used ants' a1 a2
    | _, _, _ => None
    end
  else Some d.
End Antennas.
Arguments MkAnts {A}. Arguments d_ants {A}. Arguments d_ant1 {A}. Arguments d_ant2 {A}.
Arguments d_used {A}. Arguments d_map {A}. Arguments set_antennas {A}. Arguments set_ant_used {A}.
Arguments remove_unused {A}. Arguments select_baselines {A}.

(** DPInfo.cc:487-503 getAutoCorrIndex; [None]: undefined behaviour (maximum of
    an empty vector is dereferenced). *)
Definition auto_corr_index (ant1 ant2 : list nat) : option (list (option nat)) :=
  match ant1, ant2 with
  | [], _ | _, [] => None
  | _, _ =>
    let nant := S (Nat.max (list_max ant1) (list_max ant2)) in
    Some (fold_left (fun l i => let a := nth i ant1 0%nat in
                                if (a =? nth i ant2 0%nat)%nat then set_nth l a (Some i) else l)
                    (seq 0 (length ant1)) (repeat None nant))
  end.
