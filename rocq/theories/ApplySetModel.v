(** Model of the settings of ApplyCal and its substeps: steps/ApplyCal.cc:45-78 and steps/OneApplyCal.cc:43-199.  The solution tables themselves are not modelled: the files can be opened and have the tables
    that are asked for, and tables have one direction or the direction that is asked for. *)
From Coq Require Import Ascii String List Bool Arith ZArith.
From Verif Require Import AverageModel GainModel.
Import ListNotations.
Open Scope string_scope.

(** steps/OneApplyCal.h:38-140: the settings of a substep; the last four only have a meaning for an H5Parm, but for the correction *)
Record settings := Settings {
  parmdb : string; solset : string; per_update : Z; update_weights : bool; use_model : bool; direction : string; inverts : bool;
  correction : string; linear : bool; missing : string; soltab : list string }.

(** steps/OneApplyCal.cc:52: std::string::find (".h5"): the file is an H5Parm *)
Fixpoint has_h5 (s : string) : bool := match s with "" => false | String _ t => prefix ".h5" s || has_h5 t end.
(** steps/OneApplyCal.cc:185: a letter of boost::to_lower_copy *)
Definition lower (c : ascii) : ascii := let n := nat_of_ascii c in if ((65 <=? n) && (n <=? 90))%nat then ascii_of_nat (n + 32) else c.
(** steps/OneApplyCal.cc:185: boost::to_lower_copy *)
Fixpoint to_lower (s : string) : string := match s with "" => "" | String c t => String (lower c) (to_lower t) end.

Section Parset.
(** The value of a key, if it is defined *)
Variable lookup : string -> option string.
(** common/ParameterValue.h: conversions, which throw for values that have the wrong form *)
Variable as_int : string -> outcome Z.
Variable as_bool : string -> outcome bool.
Variable as_list : string -> outcome (list string).
(** schaapcommon's StringToMissingAntennaBehavior and H5ParmTypeStringToGainType: whether they know the name *)
Variables known_missing known_correction : string -> bool.

(** common/ParameterSet.h:590-597: getString, with or without default *)
Definition get_string (key : string) (default : option string) : outcome string :=
  match lookup key, default with Some v, _ => Ok v | None, Some d => Ok d | None, None => Throw end.
(** common/ParameterSet.h:500-700: the same with a conversion: getInt, getBool, getStringVector *)
Definition get_as {T} (conv : string -> outcome T) (key : string) (default : T) : outcome T := match lookup key with Some v => conv v | None => Ok default end.
(** steps/OneApplyCal.cc:48-63: the form parset.isDefined(prefix + name) ? get(prefix + name) : get(defaultPrefix + name, default) *)
Definition fallback {T} (f : string -> outcome T) (own default name : string) : outcome T :=
  match lookup (own ++ name) with Some _ => f (own ++ name) | None => f (default ++ name) end.

(** steps/OneApplyCal.cc:103-116, 117-123: interpolation and what happens with missing antennas, for an H5Parm *)
Definition h5_options (own default : string) : outcome (bool * string) :=
  let! i := fallback (fun k => get_string k (Some "nearest")) own own "interpolation" in
  let! lin := if i =? "nearest" then Ok false else if i =? "linear" then Ok true else Throw in
  let! m := fallback (fun k => get_string k (Some "error")) own default "missingantennabehavior" in
  if known_missing m then Ok (lin, m) else Throw.
(** steps/OneApplyCal.cc:125-161: the correction and the tables of an H5Parm *)
Definition h5_tables (own default : string) : outcome (string * list string) :=
  let! c := fallback (fun k => get_string k None) own default "correction" in
  let full := c =? "fulljones" in
  let! t := get_as as_list (own ++ "soltab") (if full then ["amplitude000"; "phase000"] else ["amplitude000"]) in
  if negb (Nat.eqb (List.length t) (if full then 2 else 1)) then Throw else Ok (c, t).
(** steps/OneApplyCal.cc:43-199: the constructor.  [sub]: part of another step, such as Predict; [dir]: the direction that step wants.  The number of time slots is stored in 32 bits without sign. *)
Definition one_apply_cal (own default : string) (sub : bool) (dir : string) : outcome settings :=
  let! db := fallback (fun k => get_string k (Some "")) own default "parmdb" in
  let! ss := fallback (fun k => get_string k (Some "")) own default "solset" in
  let! n := fallback (fun k => get_as as_int k 200%Z) own default "timeslotsperparmupdate" in
  let n := (n mod 2 ^ 32)%Z in
  let! uw := fallback (fun k => get_as as_bool k false) own default "updateweights" in
  let! um := get_as as_bool (own ++ "usemodeldata") false in
  if (n =? 0)%Z then Throw else
  let! d := fallback (fun k => get_string k (Some dir)) own default "direction" in
  if um && ((db =? "") || negb (d =? "")) then Throw else
  let! inv := if sub then Ok false else fallback (fun k => get_as as_bool k true) own default "invert" in
  let! (c, l, m, t) :=
    if has_h5 db then let! (l, m) := h5_options own default in let! (c, t) := h5_tables own default in Ok (c, l, m, t)
    else
      let! c := fallback (fun k => get_string k (Some "gain")) own default "correction" in
      if known_correction (to_lower c) then Ok (to_lower c, false, "error", []) else Throw in
  if (c =? "fulljones") && uw && negb inv then Throw else Ok (Settings db ss n uw um d inv c l m t).

(** steps/ApplyCal.cc:49-56: the names of the substeps *)
Definition names (prefix : string) : outcome (list string) :=
  let! v := get_string (prefix ++ "steps") (Some "") in
  match v with String "["%char _ => as_list v | _ => Ok [v] end.
(** steps/ApplyCal.cc:58-72: the substeps *)
Fixpoint make (prefix : string) (sub : bool) (dir : string) (l : list string) : outcome (list settings) :=
  match l with
  | [] => Ok []
  | n :: l =>
      let! s := one_apply_cal (if n =? "" then prefix else prefix ++ n ++ ".") prefix sub dir in
      let! r := make prefix sub dir l in
      Ok (s :: r)
  end.
(** steps/ApplyCal.cc:45-78: the constructor; the first of no substeps is undefined *)
Definition apply_cal (prefix : string) (sub : bool) (dir : string) : outcome (list settings) :=
  let! l := names prefix in
  let! r := make prefix sub dir l in
  match r with [] => Undefined | _ => Ok r end.
End Parset.
