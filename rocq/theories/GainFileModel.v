(** Model of how gain calibration writes its solutions (steps/GainCal.cc) and how ApplyCal reads them back from a ParmDB (steps/OneApplyCal.cc).  Numbers are real numbers. *)
From Coq Require Import Ascii String Reals List Arith Bool.
From Verif Require Import RealCplx AverageModel.
Import ListNotations.
Open Scope R_scope.

(** base/CalType.h: the types of gain calibration; GainCal::updateInfo throws for all others (GainCal.cc:260-280) *)
Inductive caltype := Diagonal | DiagonalPhase | DiagonalAmplitude | ScalarPhase | ScalarAmplitude | FullMatrix | Tec | TecAndPhase.
(** steps/GainCal.cc:613-617 *)
Definition scalar_mode (ct : caltype) : bool := match ct with TecAndPhase | Tec | ScalarPhase | ScalarAmplitude => true | _ => false end.
(** steps/GainCal.cc:619-622 *)
Definition diagonal_mode (ct : caltype) : bool := match ct with Diagonal | DiagonalPhase | DiagonalAmplitude => true | _ => false end.
(** steps/GainCal.cc:1026, 1270: the phase of one TEC unit at one Hz *)
Definition tec_constant : R := 8447972450.

Section Files.
(** A cell of the grid of solutions *)
Variable cell : Type.
(** std::arg *)
Variable arg : rc -> R.
(** Names of the stations; a station has solutions for each correlation (itsSols), and one or two numbers for a fit of the phases (itsTECSols) *)
Variables (ants : nat -> string) (sols : nat -> nat -> cell -> rc) (tec_sols : nat -> nat -> cell -> R).

(** * ParmDB *)

(** parmdb/ParmDBCasa.cc: the table of names, that of values and that of defaults, with one value for each cell *)
Record db := Db { names : list string; vals : list (string * (cell -> R)); defs : list (string * R) }.
(** parmdb/ParmDBCasa.cc:686-698: whether there are names for a pattern that is a prefix followed by * *)
Definition has_name (d : db) (p : string) : bool := existsb (prefix p) (names d).
(** parmdb/ParmFacadeLocal.cc:76-91: the same for defaults *)
Definition has_def (d : db) (p : string) : bool := existsb (fun x => prefix p (fst x)) (defs d).
(** parmdb/ParmDBCasa.cc: putValues; the values are for the whole domain, so they replace those that are there *)
Definition put_value (d : db) (x : string * (cell -> R)) : db :=
  Db (if existsb (String.eqb (fst x)) (names d) then names d else names d ++ [fst x]) (x :: filter (fun y => negb (String.eqb (fst y) (fst x))) (vals d)) (defs d).
(** parmdb/ParmDBCasa.cc: putDefValue *)
Definition put_def (d : db) (n : string) (v : R) : db := Db (names d) (vals d) ((n, v) :: defs d).
(** parmdb/ParmDBCasa.cc:647-662 (deleteValues): the names stay *)
Definition delete_values (d : db) (p : string) : db := Db (names d) (filter (fun y => negb (prefix p (fst y))) (vals d)) (defs d).
(** parmdb/ParmDBCasa.cc, steps/OneApplyCal.cc:661 (std::map::find): the value for a key *)
Fixpoint assoc {A : Type} (l : list (string * A)) (n : string) : option A :=
  match l with [] => None | (k, v) :: l => if String.eqb k n then Some v else assoc l n end.

(** steps/GainCal.cc:895-908 (parmName) *)
Definition parm_name (ct : caltype) : string :=
  match ct with ScalarPhase => "CommonScalarPhase:" | ScalarAmplitude => "CommonScalarAmplitude:" | Tec | TecAndPhase => "TEC:" | _ => "Gain:" end.
(** steps/GainCal.cc:1201-1219: the correlations and the parts for which there are values *)
Definition loops (ct : caltype) : list (nat * nat) :=
  flat_map (fun pol =>
    if ((scalar_mode ct && (0 <? pol)) || (diagonal_mode ct && ((pol =? 1) || (pol =? 2))))%nat%bool then []
    else map (fun realim => (pol, realim)) (seq 0 (match ct with DiagonalPhase | ScalarPhase | DiagonalAmplitude | ScalarAmplitude | Tec => 1 | _ => 2 end)))
  (seq 0 4).
(** steps/GainCal.cc:1220-1241: the name of a value *)
Definition value_name (ct : caltype) (pol realim ant : nat) : string :=
  (match ct with
  | Tec | TecAndPhase => if (realim =? 0)%nat then "TEC:" else "CommonScalarPhase:"
  | ScalarPhase | ScalarAmplitude => parm_name ct
  | _ => parm_name ct ++ nth pol ["0:0:"; "0:1:"; "1:0:"; "1:1:"] "" ++ match ct with DiagonalPhase => "Phase:" | DiagonalAmplitude => "Ampl:" | _ => nth realim ["Real:"; "Imag:"] "" end
  end ++ ants ant)%string.
(** steps/GainCal.cc:1243-1277: the value *)
Definition value_of (ct : caltype) (pol realim ant : nat) (x : cell) : R :=
  match ct with
  | FullMatrix => if (realim =? 0)%nat then re (sols ant pol x) else im (sols ant pol x)
  | Diagonal => if (realim =? 0)%nat then re (sols ant (pol / 3) x) else im (sols ant (pol / 3) x)
  | ScalarPhase | DiagonalPhase => arg (sols ant (pol / 3) x)
  | ScalarAmplitude | DiagonalAmplitude => rabs (sols ant (pol / 3) x)
  | Tec | TecAndPhase => if (realim =? 0)%nat then tec_sols ant realim x / tec_constant else - tec_sols ant realim x
  end.
(** steps/GainCal.cc:1193-1297: all values of the stations that are used *)
Definition entries (ct : caltype) (n : nat) (used : nat -> bool) : list (string * (cell -> R)) :=
  flat_map (fun ant => if used ant then map (fun '(pol, realim) => (value_name ct pol realim ant, value_of ct pol realim ant)) (loops ct) else []) (seq 0 n).
(** steps/GainCal.cc:842-893 (initParmDB); the values are deleted for the domain of the data, which all cells are in *)
Definition init_db (ct : caltype) (d : db) : db :=
  let d := if has_name d (parm_name ct) then delete_values d (parm_name ct) else d in
  match ct with
  | DiagonalPhase | ScalarPhase => match assoc (defs d) "Gain:0:0:Ampl" with Some _ => d | None => put_def (put_def d "Gain:0:0:Ampl" 1) "Gain:1:1:Ampl" 1 end
  | DiagonalAmplitude | ScalarAmplitude => match assoc (defs d) "Gain:0:0:Phase" with Some _ => d | None => put_def (put_def d "Gain:0:0:Phase" 0) "Gain:1:1:Phase" 0 end
  | Diagonal | FullMatrix => match assoc (defs d) "Gain:0:0:Real" with Some _ => d | None => put_def (put_def d "Gain:0:0:Real" 1) "Gain:1:1:Real" 1 end
  | _ => d
  end.
(** steps/GainCal.cc:1132-1305 (writeSolutionsParmDB) *)
Definition write_db (ct : caltype) (n : nat) (used : nat -> bool) (d : db) : db := fold_left put_value (entries ct n used) (init_db ct d).

(** ** Reading *)

(** steps/OneApplyCal.cc:649-651: std::string::find, as far as it is used to test for a part *)
Fixpoint contains (p s : string) : bool := (prefix p s || match s with EmptyString => false | String _ s => contains p s end)%bool.
(** steps/OneApplyCal.cc:645-646: what is before the first colon *)
Fixpoint before_colon (s : string) : string :=
  match s with EmptyString => EmptyString | String c s => if Ascii.eqb c ":" then EmptyString else String c (before_colon s) end.
(** steps/OneApplyCal.cc:645-651: the first key of a std::map *)
Fixpoint least (l : list (string * (cell -> R))) (n : string) : string :=
  match l with [] => n | (k, _) :: l => least l (if String.ltb k n then k else n) end.
(** steps/OneApplyCal.cc:631-697: the value of a parameter for an antenna.  [common]: the expression starts with {Common,} *)
Definition read_parm (d : db) (common : bool) (expr : string) (ant : string) (x : cell) : outcome R :=
  let m := filter (fun y => prefix expr (fst y) || common && prefix ("Common" ++ expr)%string (fst y))%bool (vals d) in
  let first := match m with [] => None | (k, _) :: l => Some (least l k) end in
  let e := if common then match first with Some k => before_colon k | None => ("{Common,}" ++ expr)%string end else expr in
  let postfix := match first with Some k => if contains ":phase_center" k then ":phase_center"%string else ""%string | None => ""%string end in
  match assoc m (e ++ ":" ++ ant ++ postfix)%string with
  | Some v => Ok (v x)
  | None =>
    match assoc (defs d) (e ++ ":" ++ ant ++ postfix)%string with
    | Some v => Ok v
    | None => match assoc (defs d) e with Some v => Ok v | None => if prefix "Gain:" e then Ok 0 else Throw end
    end
  end.
(** steps/OneApplyCal.cc:700-742, in schaapcommon: std::polar *)
Definition polar (a p : R) : rc := RC (a * cos p) (a * sin p).
(** steps/OneApplyCal.cc:288-307 with the names of an element, and schaapcommon's JonesParameters for it: amplitude and phase, or real and imaginary part *)
Definition read_element (d : db) (ap : bool) (pol ant : string) (x : cell) : outcome rc :=
  match read_parm d false ("Gain:" ++ pol ++ (if ap then "Ampl" else "Real"))%string ant x, read_parm d false ("Gain:" ++ pol ++ (if ap then "Phase" else "Imag"))%string ant x with
  | Ok a, Ok b => Ok (if ap then polar a b else RC a b)
  | _, _ => Throw
  end.
(** steps/OneApplyCal.cc:239-275: itsUseAP *)
Definition use_ap (d : db) : outcome bool :=
  if has_name d "Gain:0:0:Real" then Ok false
  else if (has_name d "Gain:0:0:Ampl" || has_name d "Phase:0:0:Ampl")%bool then Ok true
  else if has_def d "Gain:0:0:Real" then Ok false
  else if (has_def d "Gain:0:0:Ampl" || has_def d "Gain:0:0:Phase")%bool then Ok true
  else Throw.
(** steps/OneApplyCal.cc:238-307: correction=gain; the four elements of the matrix of a station *)
Definition read_gain (d : db) (ant : string) (x : cell) : outcome (list rc) :=
  match use_ap d with
  | Ok ap =>
    let full := (has_name d "Gain:0:1:" || has_def d "Gain:0:1:")%bool in
    match read_element d ap "0:0:" ant x, (if full then read_element d ap "0:1:" ant x else Ok rc0), (if full then read_element d ap "1:0:" ant x else Ok rc0), read_element d ap "1:1:" ant x with
    | Ok a, Ok b, Ok c, Ok e => Ok [a; b; c; e]
    | _, _, _, _ => Throw
    end
  | _ => Throw
  end.
(** steps/OneApplyCal.cc:324-325, 328-329, and schaapcommon's JonesParameters: correction=scalarphase and correction=scalaramplitude *)
Definition read_scalar (d : db) (phase : bool) (ant : string) (x : cell) : outcome rc :=
  match read_parm d true (if phase then "ScalarPhase" else "ScalarAmplitude")%string ant x with
  | Ok v => Ok (if phase then polar 1 v else RC v 0)
  | _ => Throw
  end.
(** steps/OneApplyCal.cc:761-772, schaapcommon's JonesParameters, which is external: the phase of one TEC unit at one Hz *)
Definition tec_constant_read : R := -8447972450.
(** steps/OneApplyCal.cc:308-314, 761-772, and schaapcommon's JonesParameters: correction=tec, for both feeds; a TEC per feed, which gain calibration does not write, is not modelled *)
Definition read_tec (d : db) (freq : R) (ant : string) (x : cell) : outcome rc :=
  if (has_name d "TEC:0:" || has_def d "TEC:0:")%bool then Undefined
  else match read_parm d false "TEC" ant x with Ok v => Ok (polar 1 (v * tec_constant_read / freq)) | _ => Throw end.
End Files.
(** docs/schemas/GainCal.yml:14-17: calibrations of the same stations, one after the other, with the same file; each has its type, which of its stations are used, its solutions and its fit *)
Definition calibrations {cell : Type} (arg : rc -> R) (ants : nat -> string) (n : nat) (runs : list (caltype * (nat -> bool) * (nat -> nat -> cell -> rc) * (nat -> nat -> cell -> R))) : db cell :=
  fold_left (fun d '(ct, used, sols, tec) => write_db cell arg ants sols tec ct n used d) runs (Db cell [] [] []).

(** * Which times the solutions in a ParmDB are for *)

(** steps/GainCal.h: itsStepInSolInt with the time slots of the interval, itsSols with the time slots of each solution, itsStepInParmUpdate, itsChunkStartTime; and what is in the ParmDB: solutions with the start and the end of their cell *)
Record tstate := TState { pending : list nat; solved : list (list nat); in_update : nat; chunk_start : R; written : list (list nat * R * R) }.
Section Times.
(** Start of the first time slot, length of a time slot; settings solint and timeslotsperparmupdate; number of time slots *)
Variables (start dt : R) (solint update ntime : nat).
(** steps/GainCal.cc:1142, 1159-1174 (writeSolutionsParmDB): the time axis of a chunk *)
Definition write_chunk (s : tstate) : tstate :=
  let n := length (solved s) in
  let last := Rmin (chunk_start s + INR n * dt * INR solint) (start + INR ntime * dt) in
  TState (pending s) (solved s) (in_update s) (chunk_start s)
    (written s ++ map (fun t => (nth t (solved s) [], chunk_start s + dt * INR solint * INR t, Rmin (chunk_start s + dt * INR solint * INR (t + 1)) last)) (seq 0 n)).
(** steps/GainCal.cc:440-490 (process): one time slot *)
Definition process_time (s : tstate) (k : nat) : tstate :=
  let p := pending s ++ [k] in
  let s := if (length p =? solint)%nat then TState [] (solved s ++ [p]) (in_update s + 1) (chunk_start s) (written s) else TState p (solved s) (in_update s) (chunk_start s) (written s) in
  if (in_update s =? update)%nat then let s := write_chunk s in TState (pending s) [] 0 (chunk_start s + INR solint * INR update * dt) (written s) else s.
(** steps/GainCal.cc:1307-1332 (finish) *)
Definition finish_times (s : tstate) : tstate :=
  let s := match pending s with [] => s | p => TState [] (solved s ++ [p]) (in_update s) (chunk_start s) (written s) end in
  match solved s with [] => s | _ => write_chunk s end.
(** steps/GainCal.cc:289: all time slots, one after the other *)
Definition run_times : tstate := finish_times (fold_left process_time (seq 0 ntime) (TState [] [] 0 start [])).

(** * H5Parm *)

(** steps/GainCal.cc:956-964: the time of a solution in an H5Parm *)
Definition h5_times : list R := map (fun t => start + (INR t + / 2) * dt * INR solint) (seq 0 ((ntime + solint - 1) / solint)).
End Times.
(** steps/GainCal.cc:940-953 *)
Definition n_pol (ct : caltype) : nat := if scalar_mode ct then 1 else if diagonal_mode ct then 2 else 4.
(** steps/GainCal.cc:966-972 *)
Definition n_freq (ct : caltype) (cells : nat) : nat := match ct with Tec | TecAndPhase => 1 | _ => cells end.
(** steps/GainCal.cc:1080-1130 (makeSolTab): the types of the tables *)
Definition tables (ct : caltype) : list string :=
  map (fun solnum => match ct with
    | ScalarPhase | DiagonalPhase => "phase"
    | Diagonal | FullMatrix => if (solnum =? 0)%nat then "phase" else "amplitude"
    | ScalarAmplitude | DiagonalAmplitude => "amplitude"
    | Tec | TecAndPhase => if (solnum =? 0)%nat then "tec" else "phase"
    end%string) (seq 0 (match ct with Diagonal | TecAndPhase | FullMatrix => 2 | _ => 1 end)).
(** steps/GainCal.cc:1023-1027, 1051-1056: the order of the values in a table *)
Definition in_order {A : Type} (nt nf na np : nat) (f : nat -> nat -> nat -> nat -> A) : list A :=
  flat_map (fun t => flat_map (fun c => flat_map (fun a => map (f t c a) (seq 0 np)) (seq 0 na)) (seq 0 nf)) (seq 0 nt).
(** steps/GainCal.cc:1067-1075: schaapcommon's SolTab::SetComplexValues, which is external: the amplitudes or the phases of numbers *)
Definition complex_values (arg : rc -> R) (amplitude : bool) (l : list (option rc)) : list (option R) := map (option_map (if amplitude then rabs else arg)) l.
(** steps/GainCal.cc:1016, 1030-1032, 1048, 1058-1060: the weight of a value *)
Definition weight_of {A : Type} (x : option A) : R := match x with None => 0 | Some _ => 1 end.
(** steps/GainCal.cc:1010-1075 (writeSolutionsH5Parm): the type, the values and the weights of each table.  A number that is not finite is None; the solutions are for a time, a frequency cell, a station and a polarization, the fits for a time, a station and a parameter *)
Definition write_h5 (arg : rc -> R) (ct : caltype) (nt cells na : nat) (sols : nat -> nat -> nat -> nat -> option rc) (tec : nat -> nat -> nat -> option R) : list (string * list (option R) * list R) :=
  let nf := n_freq ct cells in
  match ct with
  | Tec | TecAndPhase =>
    let tecs := in_order nt nf na (n_pol ct) (fun t _ a _ => option_map (fun x => x / tec_constant) (tec t a 0%nat)) in
    let phases := in_order nt nf na (n_pol ct) (fun t _ a _ => option_map Ropp (tec t a 0%nat)) in
    map (fun '(k, v) => (k, v, map weight_of tecs)) (combine (tables ct) [tecs; phases])
  | _ =>
    let all := in_order nt nf na (n_pol ct) sols in
    let first := complex_values arg (match ct with DiagonalAmplitude => true | _ => false end) all in
    map (fun '(k, v) => (k, v, map weight_of all)) (combine (tables ct) [first; complex_values arg true all])
  end.
