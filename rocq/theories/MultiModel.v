(** Model of steps/MultiMsReader.cc: reading several measurement sets that are combined in frequency.  Times, frequencies and widths are exact numbers.  Which time slots a measurement set delivers is that of
    steps/MsReader.cc (TimesModel).  Not modelled: extra data columns (copied like the data column), the coordinates (UVW; read from the first measurement set) and what MsReader puts in a time slot. *)
From Coq Require Import Ascii String.
From Coq Require Import List Bool Arith QArith Qcanon.
From Verif Require Import QcUtil AverageModel GainModel.
From Verif Require TimesModel.
Import ListNotations.
Open Scope nat_scope.

Section Multi.
(** All correlations of a channel of a baseline: visibilities, flags and weights *)
Variables V F W : Type.
(** steps/MultiMsReader.cc:330-341, 459-461: zero visibilities, set flags and zero weights *)
Variables (no_data : V) (flagged : F) (no_weight : W).
(** casacore::near with the default tolerance, and with 1e-5 *)
Variables near near5 : Qc -> Qc -> bool.

(** base/DPBuffer.h: a time slot of a measurement set; per baseline a list of channels *)
Record slot := Slot { slot_time : Qc; exposure : Qc; rows : list nat; data : list (list V); flags : list (list F); weights : list (list W) }.
(** base/DPInfo.h: what is known of a measurement set *)
Record info := Info { times : TimesModel.times; n_corr : nat; n_baselines : nat; antenna_set : string; ant1 : list nat; ant2 : list nat; freqs : list Qc; widths : list Qc }.
(** steps/MultiMsReader.h:106-110: a reader and where it is; [bda]: the measurement set has BDA data *)
Record reader := Reader { r_info : info; bda : bool; state : TimesModel.state slot }.
(** base/DPInfo.h: nchan() *)
Definition n_chan (r : reader) : nat := length (freqs (r_info r)).

(** steps/MultiMsReader.cc:59-83: the place of the first measurement set that exists *)
Fixpoint first_of (l : list (option reader)) : option nat :=
  match l with
  | [] => None
  | Some _ :: _ => Some 0
  | None :: r => option_map S (first_of r)
  end.
(** steps/MultiMsReader.cc:36-90 (constructor): the readers, [None] for a measurement set that does not exist, and the first one; [missing_data]: missingdata, which is passed to the readers *)
Definition make (startchan nchan : string) (missing_data : bool) (l : list (option reader)) : outcome (list (option reader) * nat) :=
  match l with [] => Throw | _ =>
    if negb (startchan =? "0")%string then Throw else
    if negb (nchan =? "0")%string then Throw else
    if existsb (fun r => match r with Some r => bda r | None => false end) l then Throw else
    match first_of l with None => Throw | Some f => Ok (l, f) end
  end.

(** operator!= of std::vector, of steps/MultiMsReader.cc:137-142 *)
Fixpoint same_list (a b : list nat) : bool := match a, b with [], [] => true | x :: a, y :: b => (x =? y) && same_list a b | _, _ => false end.
(** steps/MultiMsReader.cc:111-145 (ValidateBands) *)
Definition validate (i : info) (l : list (option reader)) : bool :=
  forallb (fun r => match r with
    | None => true
    | Some r => let j := r_info r in
        near (TimesModel.first (times i)) (TimesModel.first (times j)) && near (TimesModel.last (times i)) (TimesModel.last (times j)) &&
        near (TimesModel.interval (times i)) (TimesModel.interval (times j)) && (n_corr i =? n_corr j) && (n_baselines i =? n_baselines j) && (antenna_set i =? antenna_set j)%string &&
        same_list (ant1 i) (ant1 j) && same_list (ant2 i) (ant2 j)
    end) l.

(** steps/MultiMsReader.cc:188: the frequency of the first channel *)
Definition first_freq (r : option reader) : Qc := match r with Some r => nth 0 (freqs (r_info r)) 0%Qc | None => 0%Qc end.
(** steps/MultiMsReader.cc:190-201: sorting on frequency, by insertion; casacore keeps the order of equal ones *)
Fixpoint insert (r : option reader) (l : list (option reader)) : list (option reader) :=
  match l with [] => [r] | x :: l' => if qleb (first_freq r) (first_freq x) then r :: l else x :: insert r l' end.
(** steps/MultiMsReader.cc:190-201 *)
Fixpoint sort (l : list (option reader)) : list (option reader) := match l with [] => [] | r :: l => insert r (sort l) end.

(** steps/MultiMsReader.cc:147-177 (HandleBands): the frequencies and widths of the channels *)
Definition handle_bands (l : list (option reader)) : list Qc * list Qc :=
  let get f := flat_map (fun r => match r with Some r => f (r_info r) | None => [] end) l in (get freqs, get widths).
(** steps/MultiMsReader.cc:226-254: the loop of FillBands; [n]: n_fill_channels_, [w]: the width of a channel, [freq]: the next frequency that is expected *)
Fixpoint fill_loop (n : nat) (w freq : Qc) (l : list (option reader)) : outcome (list Qc * list Qc) :=
  match l with
  | [] => Ok ([], [])
  | Some r :: l =>
      if negb (n_chan r =? n) then Throw else
      let f := freqs (r_info r) in let g := widths (r_info r) in
      if qltb (nth 0 f 0%Qc) freq && negb (near5 (nth 0 f 0%Qc) freq) then Throw else
      let! (fs, ws) := fill_loop n w (nth (n - 1) f 0 + nth (n - 1) g 0)%Qc l in Ok ((f ++ fs)%list, (firstn n g ++ ws)%list)
  | None :: l =>
      let! (fs, ws) := fill_loop n w (freq + qn n * w)%Qc l in Ok ((map (fun j => freq + qn j * w)%Qc (seq 0 n) ++ fs)%list, (repeat w n ++ ws)%list)
  end.
(** steps/MultiMsReader.cc:204-257 (FillBands) *)
Definition fill_bands (r : reader) (first n : nat) (l : list (option reader)) : outcome (list Qc * list Qc) :=
  let w := nth 0 (widths (r_info r)) 0%Qc in
  fill_loop n w (nth 0 (freqs (r_info r)) 0 - qn (first * n) * w)%Qc l.
(** steps/MultiMsReader.cc:366-391 (updateInfo), when the readers have set their own information: the readers, n_fill_channels_, and the frequencies and widths of the channels *)
Definition update_info (order : bool) (l : list (option reader)) (first : nat) : outcome (list (option reader) * nat * (list Qc * list Qc)) :=
  match nth_error l first with
  | Some (Some r) =>
      let n := n_chan r in
      if negb (validate (r_info r) l) then Throw else
      let missing := existsb (fun r => match r with None => true | _ => false end) l in
      if order && missing then Throw else
      let l := if order then sort l else l in
      match nth_error l first with
      | Some (Some r) => if missing then let! b := fill_bands r first n l in Ok (l, n, b) else Ok (l, n, handle_bands l)
      | _ => Undefined
      end
  | _ => Undefined
  end.

(** Assignment to a view of a range of [n] channels, of all baselines, of steps/MultiMsReader.cc:310-341, 453-461 *)
Definition blit {A} (first n : nat) (src row : list A) : list A := (firstn first row ++ firstn n src ++ skipn (first + n) row)%list.
(** steps/MultiMsReader.cc:291-344, 448-464: the loop over the readers; per reader the number of channels and the values, if the measurement set exists *)
Fixpoint fill {A} (empty : A) (first : nat) (l : list (nat * option (list (list A)))) (buf : list (list A)) : list (list A) :=
  match l with
  | [] => buf
  | (n, Some src) :: l => fill empty (first + n) l (map (fun p => blit first n (fst p) (snd p)) (combine src buf))
  | (n, None) :: l => fill empty (first + n) l (map (blit first n (repeat empty n)) buf)
  end.

(** steps/MsReader.cc:169-369 (process): a time slot of a reader, and the reader after it; [None] at the end; the time slot is [None] if it was inserted, then it has no row numbers *)
Definition read (r : reader) : option (reader * (Qc * option slot)) :=
  match TimesModel.process slot_time near (times (r_info r)) (state r) with
  | None => None
  | Some (st, x) => Some (Reader (r_info r) (bda r) st, x)
  end.
(** steps/MultiMsReader.cc:294-308: the time slots of all readers; the one of the first, [x0], was read before.  At the end of a measurement set its result step has no buffer: undefined behaviour. *)
Fixpoint read_each (first i : nat) (x0 : reader * (Qc * option slot)) (l : list (option reader)) : outcome (list (option reader) * list (option slot)) :=
  match l with
  | [] => Ok ([], [])
  | None :: l => let! (rs, ss) := read_each first (S i) x0 l in Ok (None :: rs, None :: ss)
  | Some r :: l =>
      match (if i =? first then Some x0 else read r) with
      | None => Undefined
      | Some (r', (_, None)) => Throw
      | Some (r', (_, Some s)) => let! (rs, ss) := read_each first (S i) x0 l in Ok (Some r' :: rs, Some s :: ss)
      end
  end.
(** steps/MultiMsReader.cc:259-355 (process): the readers and the buffer for the next step, or [None] at the end.  [want_*]: the fields to read; [buf]: the buffer that is given, with the shape that it
    gets in 278-289 and anything in it; [n]: n_fill_channels_.  The time is that of the first measurement set. *)
Definition process (want_data want_flags want_weights : bool) (n first : nat) (l : list (option reader)) (buf : slot) : outcome (option (list (option reader) * slot)) :=
  match nth_error l first with
  | Some (Some r) =>
      match read r with
      | None => Ok None
      | Some x0 =>
          let! (rs, ss) := read_each first 0 x0 l in
          let parts {A} (get : slot -> list (list A)) := map (fun p => (match fst p with Some r => n_chan r | None => n end, option_map get (snd p))) (combine l ss) in
          match nth_error ss first with
          | Some (Some s) => Ok (Some (rs, Slot (fst (snd x0)) (exposure s) (rows s)
                (if want_data then fill no_data 0 (parts data) (data buf) else data buf)
                (if want_flags then fill flagged 0 (parts flags) (flags buf) else flags buf)
                (if want_weights then fill no_weight 0 (parts weights) (weights buf) else weights buf)))
          | _ => Undefined
          end
      end
  | _ => Undefined
  end.
(** base/DP3.cc:387-395: reading until the end; every buffer is new, [bufs]: what they hold *)
Fixpoint read_all (fields : bool * bool * bool) (n first : nat) (bufs : list slot) (l : list (option reader)) : outcome (list slot) :=
  match bufs with
  | [] => Undefined
  | b :: bufs =>
      match process (fst (fst fields)) (snd (fst fields)) (snd fields) n first l b with
      | Ok (Some (l', s)) => let! r := read_all fields n first bufs l' in Ok (s :: r)
      | Ok None => Ok []
      | Throw => Throw
      | Undefined => Undefined
      end
  end.
End Multi.
