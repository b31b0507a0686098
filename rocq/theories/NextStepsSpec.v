(** Specification for the steps of the model data, independent of the model; only the type of sources is used. *)
From Coq Require Import String List.
From Verif Require Import NextStepsModel.
Import ListNotations.
Open Scope string_scope.

(** The name that the documentation (docs/schemas/DDECal.yml:313-316) gives to a direction *)
Definition name_of (s : source) : string := match s with Column n => n | Facet n => n | Patches n _ => n end.
(** The steps that the user asks for: those for the direction, otherwise those for all directions, otherwise none *)
Definition asked (lookup : string -> option (list string)) (prefix : string) (s : source) : list string :=
  match lookup (prefix ++ "modelnextsteps." ++ name_of s) with
  | Some l => l
  | None => match lookup (prefix ++ "modelnextsteps") with Some l => l | None => [] end
  end.
