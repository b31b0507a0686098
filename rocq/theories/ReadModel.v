(** Model of common/ParameterSetImpl.cc:179-190 (adoptArguments) and 227-315 (readStream,
    addMerge): how a parameter file and command-line arguments give keys and values.

    A file is the list of its lines (std::getline).  The result of reading is the list of
    bindings merged into the map, in order; [None]: an exception is thrown (then the bindings
    merged before are in the map already, which is not modelled). *)
From Coq Require Import List Bool Arith ZArith Ascii String.
From Verif Require Import StrModel SplitModel ParsetModel.
Import ListNotations.
Open Scope nat_scope.

(** common/ParameterSetImpl.cc:305: a key and a value *)
Definition binding := (key * list ascii)%type.

(** common/ParameterSetImpl.cc:262-264: line.substr(stval, nonbl - stval + 1).  The count is a 32-bit
    unsigned number; if nonbl + 1 < stval it wraps to at least 2^31, thus gives the rest of the line. *)
Definition key_text (line : list ascii) (stval nonbl : nat) : list ascii :=
  if nonbl + 1 <? stval then skipn stval line else substr line stval (nonbl + 1 - stval).

(** State of the scan of one line. *)
(** common/ParameterSetImpl.cc:243-248: the variables *)
Record scan_state := { s_st : nat; s_end : nat; s_nonbl : nat; s_stval : nat; s_key : key; s_value : list ascii; s_out : list binding }.

(** common/ParameterSetImpl.cc:249-275: one turn of the inner loop *)
Definition scan_step (prefix line : list ascii) (s : scan_state) : option scan_state :=
  let c := at_ line (s_st s) in
  if is_quote c then
    match skip_quoted line (s_st s) with
    | None => None
    | Some p => Some {| s_st := p; s_end := s_end s; s_nonbl := p - 1; s_stval := s_stval s; s_key := s_key s; s_value := s_value s; s_out := s_out s |}
    end
  else if Ascii.eqb c "#" then
    Some {| s_st := s_st s; s_end := rskipws line (s_stval s) (s_st s); s_nonbl := s_nonbl s; s_stval := s_stval s; s_key := s_key s; s_value := s_value s; s_out := s_out s |}
  else if Ascii.eqb c "=" then
    let '(out, value) := match s_key s with [] => (s_out s, s_value s) | _ => (s_out s ++ [(s_key s, trim (s_value s))], []) end in
    match get_string (key_text line (s_stval s) (s_nonbl s)) with
    | None => None
    | Some [] => None
    | Some k => Some {| s_st := s_st s + 1; s_end := s_end s; s_nonbl := s_nonbl s; s_stval := s_st s + 1; s_key := prefix ++ k; s_value := value; s_out := out |}
    end
  else
    Some {| s_st := s_st s + 1; s_end := s_end s; s_nonbl := if negb (Ascii.eqb c " ") && negb (Ascii.eqb c "009") then s_st s else s_nonbl s;
            s_stval := s_stval s; s_key := s_key s; s_value := s_value s; s_out := s_out s |}.

(** common/ParameterSetImpl.cc:249; each turn advances or ends the loop, so the length of the line + 1 is enough fuel *)
Fixpoint scan_loop (fuel : nat) (prefix line : list ascii) (s : scan_state) : option scan_state :=
  match fuel with
  | 0 => None
  | S f => if s_st s <? s_end s then
             match scan_step prefix line s with None => None | Some s' => scan_loop f prefix line s' end
           else Some s
  end.

(** common/ParameterSetImpl.cc:276-293: append what is left of the line to the value *)
Definition append_rest (line : list ascii) (s : scan_state) : list ascii :=
  let en := if Ascii.eqb (at_ line (s_end s - 1)) "\" then rskipws line (s_stval s) (s_end s - 1) else s_end s in
  let stval := lskipws line (s_stval s) en in
  if stval <? en then
    match s_value s with
    | [] => substr line stval (en - stval)
    | _ => s_value s ++ (if is_quote (at_ line stval) then [] else [" "%char]) ++ substr line stval (en - stval)
    end
  else s_value s.

(** The key and value being read, and the bindings so far. *)
(** common/ParameterSetImpl.cc:235-237: the variables kept between lines *)
Record read_state := { r_key : key; r_value : list ascii; r_out : list binding }.

(** common/ParameterSetImpl.cc:242-295: one line *)
Definition read_line (prefix : list ascii) (s : read_state) (line : list ascii) : option read_state :=
  let st := lskipws line 0 (List.length line) in
  if Ascii.eqb (at_ line st) "#" then Some s
  else
    let en := rskipws line st (List.length line) in
    if st <? en then
      match scan_loop (S (S (List.length line))) prefix line
              {| s_st := st; s_end := en; s_nonbl := st; s_stval := st; s_key := r_key s; s_value := r_value s; s_out := r_out s |} with
      | None => None
      | Some t => Some {| r_key := s_key t; r_value := append_rest line t; r_out := s_out t |}
      end
    else Some s.

(** common/ParameterSetImpl.cc:241-298: the loop over lines *)
Fixpoint read_lines (prefix : list ascii) (s : read_state) (lines : list (list ascii)) : option read_state :=
  match lines with
  | [] => Some s
  | l :: r => match read_line prefix s l with None => None | Some s' => read_lines prefix s' r end
  end.

(** common/ParameterSetImpl.cc:231-303 *)
Definition read_stream (prefix : list ascii) (lines : list (list ascii)) : option (list binding) :=
  match read_lines prefix {| r_key := []; r_value := []; r_out := [] |} lines with
  | None => None
  | Some s => Some (match r_key s with [] => r_out s | _ => r_out s ++ [(r_key s, trim (r_value s))] end)
  end.

(** Reading a file into a parameter set (addMerge for each binding) *)
(** common/ParameterSetImpl.cc:231-312 *)
Definition adopt_lines (md : mode) (prefix : list ascii) (lines : list (list ascii)) (s : pset (list ascii)) : option (pset (list ascii)) :=
  option_map (fun bs => fold_left (fun s b => add_merge _ md (fst b) (snd b) s) bs s) (read_stream prefix lines).

(** common/ParameterSetImpl.cc:179-190 *)
Definition adopt_argument (md : mode) (s : pset (list ascii)) (arg : list ascii) : pset (list ascii) :=
  match find_from "=" arg 0 with
  | None => s
  | Some eqs => replace _ md (firstn eqs arg) (trim (skipn (eqs + 1) arg)) s
  end.
(** common/ParameterSetImpl.cc:179-190 *)
Definition adopt_arguments (md : mode) (args : list (list ascii)) (s : pset (list ascii)) : pset (list ascii) :=
  fold_left (adopt_argument md) args s.

(** common/ParameterSetImpl.cc:477-487 (writeStream): the lines written.  (A value containing a newline
    is one element here but several lines in the file.) *)
Definition write_lines (m : kvmap (list ascii)) : list (list ascii) := map (fun b => fst b ++ ["="%char] ++ snd b) m.
