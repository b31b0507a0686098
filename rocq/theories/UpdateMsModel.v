(** Model of steps/MSUpdater.cc: which fields are written to which columns of an existing measurement set, and what is put in its
    rows. *)
From Coq Require Import String QArith Qcanon List Bool Arith.
From Verif Require Import AverageModel InfoModel FieldsModel CellsModel.
Import ListNotations.
Open Scope nat_scope.

(** * Columns and fields *)

(** steps/MSUpdater.cc:57-59: the columns the user gives; empty if not given *)
Record columns := MkColumns { col_data : string; col_flags : string; col_weights : string }.
(** steps/MSUpdater.cc:248-255 (SetFieldsToWrite) *)
Definition fields_to_write (c : columns) (base : fields) : fields :=
  let given n := negb (String.eqb n EmptyString) in
  MkFields (f_data base || given (col_data c)) (f_flags base || given (col_flags c)) (f_weights base || given (col_weights c)) (f_uvw base).
(** steps/MSUpdater.cc:240-246 (getRequiredFields) *)
Definition required_fields (w : fields) : fields := MkFields (f_data w) (f_flags w) (f_weights w) false.
(** steps/MSUpdater.cc:257-325 (updateInfo): [meta] and the names are those of the info of the previous step, [bda] is what
    InputStep::HasBda says of the measurement set.  The fields are set again with the columns as they are at that moment.  Not
    modelled: adding the columns, which throws if there is one of that name of another type, and writing the beam keywords. *)
Definition update_info (given : columns) (w : fields) (meta bda : bool) (info : columns) : outcome (columns * fields) :=
  if meta then Throw
  else if bda then Throw
  else
    let d := if String.eqb (col_data given) EmptyString then col_data info else col_data given in
    let '(wc, w) :=
      if String.eqb (col_weights given) EmptyString then
        if String.eqb (col_weights info) "WEIGHT"%string then
          ("WEIGHT_SPECTRUM"%string,
           fields_to_write (MkColumns d (col_flags given) "WEIGHT_SPECTRUM"%string) (f_or w (MkFields false false true false)))
        else (col_weights info, w)
      else (col_weights given, w) in
    if String.eqb wc "WEIGHT"%string then Throw
    else Ok (MkColumns d (if String.eqb (col_flags given) EmptyString then col_flags info else col_flags given) wc, w).

(** * Rows *)
Section Update.
Variables (D : Type) (nan : D).

(** A row of a measurement set: the columns of visibilities, flags and weights, FLAG_ROW and WEIGHT.  A column that is not there yet
    has the values that it gets when it is added. *)
(** steps/MSUpdater.cc:363-430 *)
Record ms_row := MkMsRow { t_data : string -> list (list D); t_flag : string -> list (list bool); t_flag_row : bool; t_weight : list Qc;
                           t_spectrum : string -> list (list Qc) }.
(** What the step knows: the numbers of channels in the measurement set and selected, the first one, the number of correlations and
    baselines, the fields to write, the columns, and whether the storage manager is dysco *)
(** steps/MSUpdater.h *)
Record updater := MkUpdater { u_orig : nat; u_start : nat; u_chan : nat; u_corr : nat; u_bl : nat; u_fields : fields; u_cols : columns;
                              u_dysco : bool }.
(** The buffer: row numbers (empty if the time slot is inserted) and cubes in memory order (baseline, channel, correlation), empty if
    not read *)
(** base/DPBuffer.h *)
Record buffer := MkBuffer { b_rows : list nat; b_data : list D; b_flags : list bool; b_weights : list Qc }.

(** steps/MSUpdater.cc:177-178, 182-183, 204-205: a casacore cube made from the memory of the buffer, which has to be there *)
Definition cube {A} (u : updater) (l : list A) : outcome (list A) := if length l =? u_bl u * u_chan u * u_corr u then Ok l else Undefined.
(** steps/MSUpdater.cc:373, 396, 412: the array of a baseline, as channels and correlations *)
Definition plane {A} (u : updater) (l : list A) (b : nat) : list (list A) :=
  map (fun c => firstn (u_corr u) (skipn ((b * u_chan u + c) * u_corr u) l)) (seq 0 (u_chan u)).
(** casacore putSlice with the slicers at steps/MSUpdater.cc:366-367, 390-391, 421-423: the selected channels of a cell; channels that
    are not in the cell throw *)
Definition put_slice {A} (u : updater) (cell new : list (list A)) : outcome (list (list A)) :=
  if u_start u + u_chan u <=? length cell then Ok (firstn (u_start u) cell ++ new ++ skipn (u_start u + u_chan u) cell) else Throw.
(** A column with the cell of one name changed *)
(** steps/MSUpdater.cc:368, 392, 408 *)
Definition put_column {A} (name : string) (new : A) (f : string -> A) : string -> A := fun n => if String.eqb n name then new else f n.

(** steps/MSUpdater.cc:375-381: the flags of a row.  FLAG_ROW is cleared if a new flag is clear. *)
Definition put_flags_row (u : updater) (new : list (list bool)) (r : ms_row) : outcome ms_row :=
  let name := col_flags (u_cols u) in
  match put_slice u (t_flag r name) new with
  | Ok cell => Ok (MkMsRow (t_data r) (put_column name cell (t_flag r)) (if existsb (existsb negb) new then false else t_flag_row r)
                           (t_weight r) (t_spectrum r))
  | Throw => Throw | Undefined => Undefined
  end.
(** steps/MSUpdater.cc:398 *)
Definition put_weights_row (u : updater) (new : list (list Qc)) (r : ms_row) : outcome ms_row :=
  let name := col_weights (u_cols u) in
  match put_slice u (t_spectrum r name) new with
  | Ok cell => Ok (MkMsRow (t_data r) (t_flag r) (t_flag_row r) (t_weight r) (put_column name cell (t_spectrum r)))
  | Throw => Throw | Undefined => Undefined
  end.
(** steps/MSUpdater.cc:413-428: the whole cell if all channels are selected *)
Definition put_data_row (u : updater) (new : list (list D)) (r : ms_row) : outcome ms_row :=
  let name := col_data (u_cols u) in
  match (if u_orig u =? u_chan u then Ok new else put_slice u (t_data r name) new) with
  | Ok cell => Ok (MkMsRow (put_column name cell (t_data r)) (t_flag r) (t_flag_row r) (t_weight r) (t_spectrum r))
  | Throw => Throw | Undefined => Undefined
  end.
(** steps/MSUpdater.cc:372-383, 395-400, 411-419: loop over the rows, each with the array of the next baseline; a row that is not in the
    measurement set throws.  [b] is the baseline of the first row. *)
Fixpoint put_rows {A} (u : updater) (put : list (list A) -> ms_row -> outcome ms_row) (l : list A) (b : nat) (rows : list nat)
    (ms : list ms_row) : outcome (list ms_row) :=
  match rows with
  | [] => Ok ms
  | r :: rows =>
    match nth_error ms r with
    | None => Throw
    | Some row =>
      match put (plane u l b) row with
      | Ok row => put_rows u put l (b + 1) rows (set_nth ms r row)
      | Throw => Throw | Undefined => Undefined
      end
    end
  end.
(** steps/MSUpdater.cc:188-197, 210-217: replace what is flagged, in a loop over the flags of the buffer *)
Fixpoint mask {A} (bad : A) (flags : list bool) (l : list A) : list A :=
  match flags, l with
  | f :: flags, x :: l => (if f then bad else x) :: mask bad flags l
  | _, _ => l
  end.
(** steps/MSUpdater.cc:176-222: one of the three fields *)
Definition put_field {A} (u : updater) (wanted : bool) (l : list A) (change : list A -> list A) (put : list (list A) -> ms_row -> outcome ms_row)
    (rows : list nat) (ms : list ms_row) : outcome (list ms_row) :=
  if wanted then
    match cube u l with
    | Ok l => put_rows u put (change l) 0 rows ms
    | Throw => Throw | Undefined => Undefined
    end
  else Ok ms.
(** steps/MSUpdater.cc:170-230 (process).  Not modelled: flushing, and passing the buffer on. *)
Definition update (u : updater) (buf : buffer) (ms : list ms_row) : outcome (list ms_row) :=
  let w := u_fields u in
  let masked {A} (bad : A) (l : list A) := if u_dysco u then mask bad (b_flags buf) l else l in
  match put_field u (f_flags w) (b_flags buf) (fun l => l) (put_flags_row u) (b_rows buf) ms with
  | Ok ms =>
    match put_field u (f_data w) (b_data buf) (masked nan) (put_data_row u) (b_rows buf) ms with
    | Ok ms => put_field u (f_weights w) (b_weights buf) (masked 0%Qc) (put_weights_row u) (b_rows buf) ms
    | Throw => Throw | Undefined => Undefined
    end
  | Throw => Throw | Undefined => Undefined
  end.
(** base/DP3.cc:355-367: all buffers of a run *)
Fixpoint update_all (u : updater) (bufs : list buffer) (ms : list ms_row) : outcome (list ms_row) :=
  match bufs with
  | [] => Ok ms
  | buf :: bufs => match update u buf ms with Ok ms => update_all u bufs ms | Throw => Throw | Undefined => Undefined end
  end.
(** steps/MsReader.cc:266-312, 934-945: a row as the reader sees it with these columns *)
Definition view (c : columns) (r : ms_row) : row D :=
  MkRow (t_data r (col_data c)) (t_flag r (col_flags c)) (t_flag_row r) (t_weight r) (t_spectrum r (col_weights c)).
(** steps/MsReader.cc:243-299: the rows of a time slot *)
Definition slot (c : columns) (rows : list nat) (ms : list ms_row) : list (row D) :=
  flat_map (fun r => match nth_error ms r with Some x => [view c x] | None => [] end) rows.
End Update.
Arguments MkMsRow {D}. Arguments t_data {D}. Arguments t_flag {D}. Arguments t_flag_row {D}. Arguments t_weight {D}. Arguments t_spectrum {D}.
Arguments MkBuffer {D}. Arguments b_rows {D}. Arguments b_data {D}. Arguments b_flags {D}. Arguments b_weights {D}.
Arguments put_flags_row {D}. Arguments put_weights_row {D}. Arguments put_data_row {D}. Arguments put_rows {D A}. Arguments put_field {D A}.
Arguments update {D}. Arguments update_all {D}. Arguments view {D}. Arguments slot {D}.
