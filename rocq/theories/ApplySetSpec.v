(** Where the settings of a substep come from *)
From Coq Require Import String List Bool ZArith.
From Verif Require Import AverageModel ApplySetModel.
Import ListNotations.
Open Scope string_scope.

Section Parset.
Variable lookup : string -> option string.
Variable as_int : string -> outcome Z.
Variable as_bool : string -> outcome bool.
(** What the user gave for a parameter of substep [name] (empty: there are no substeps) of the step: the value for the substep, else that of the step *)
Definition given (step name parameter : string) : option string :=
  match name with
  | "" => lookup (step ++ parameter)
  | _ => match lookup (step ++ name ++ "." ++ parameter) with Some v => Some v | None => lookup (step ++ parameter) end
  end.
(** The value a parameter must have, as text and after a conversion *)
Definition text (v : option string) (default : string) : string := match v with Some v => v | None => default end.
Definition is {T} (conv : string -> outcome T) (v : option string) (default x : T) : Prop := match v with Some v => conv v = Ok x | None => x = default end.
(** The settings are the values that were given *)
Definition inherits (step : string) (sub : bool) (dir name : string) (s : settings) : Prop :=
  let v := given step name in
  parmdb s = text (v "parmdb") "" /\ solset s = text (v "solset") "" /\
  (exists n, is as_int (v "timeslotsperparmupdate") 200%Z n /\ per_update s = (n mod 2 ^ 32)%Z) /\ (0 < per_update s)%Z /\
  is as_bool (v "updateweights") false (update_weights s) /\ direction s = text (v "direction") dir /\
  (if sub then inverts s = false else is as_bool (v "invert") true (inverts s)) /\
  (if has_h5 (parmdb s) then v "correction" = Some (correction s) /\ missing s = text (v "missingantennabehavior") "error" else correction s = to_lower (text (v "correction") "gain")).
(** The other three parameters *)
Definition inherits_others (as_list : string -> outcome (list string)) (step name : string) (s : settings) : Prop :=
  let v := given step name in
  is as_bool (v "usemodeldata") false (use_model s) /\
  (has_h5 (parmdb s) = true -> linear s = String.eqb (text (v "interpolation") "nearest") "linear" /\
    is as_list (v "soltab") (if String.eqb (correction s) "fulljones" then ["amplitude000"; "phase000"] else ["amplitude000"]) (soltab s)).
(** Values that are fine: conversions succeed, some number of time slots, known names, and no update of weights when corrupting with full Jones matrices.  The three parameters of the partial claim are not given. *)
Definition fine (known_missing known_correction : string -> bool) (step : string) (sub : bool) (dir name : string) : Prop :=
  let v := given step name in let db := text (v "parmdb") "" in
  (forall x, In x ["usemodeldata"; "interpolation"; "soltab"] -> v x = None) /\
  exists n uw inv c, is as_int (v "timeslotsperparmupdate") 200%Z n /\ (n mod 2 ^ 32 <> 0)%Z /\ is as_bool (v "updateweights") false uw /\ (if sub then inv = false else is as_bool (v "invert") true inv) /\
    (if has_h5 db then v "correction" = Some c /\ known_missing (text (v "missingantennabehavior") "error") = true else c = to_lower (text (v "correction") "gain") /\ known_correction c = true) /\
    ~ (c = "fulljones" /\ uw = true /\ inv = false).
End Parset.
