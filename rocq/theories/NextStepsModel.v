(** Model of the chains of steps that make the model data in DDECal and BdaDdeCal: steps/DDECal.cc:60-265, steps/BdaDdeCal.cc:35-166 and steps/Step.cc:43-55.
    A step is its name; the steps that are made from a list of names are these in order (that is C62).  The number of facets is at most what can be written. *)
From Coq Require Import Ascii String List Bool Arith.
Import ListNotations.
Open Scope string_scope.

(** steps/DDECal.cc:89-97, 117-145, 147-169: the sources of model data: a column, a facet with its label, the patches of a direction of a sky model; the first patch is given separately, since
    front of an empty list is undefined *)
Inductive source := Column (name : string) | Facet (label : string) | Patches (first : string) (others : list string).
(** steps/Step.h:130-133: a step, and the steps after it *)
Definition chain : Type := (source * list string)%type.

Section Steps.
(** The value of a parameter, if it is defined, as list of names *)
Variable lookup : string -> option (list string).
(** The name of the step with a dot *)
Variable prefix : string.

(** steps/Step.cc:43-55 (setNextStep): a chain that was there is dropped.  Predict sets the step after the last of its own steps instead
    (steps/Predict.cc:140-142); a step is taken here with its own steps as a unit. *)
Definition set_next (c : chain) (next : list string) : chain := (fst c, next).
(** steps/DDECal.cc:172-188 (setModelNextSteps), steps/BdaDdeCal.cc:35-50 (InitializeModelStepChain) *)
Definition set_model_next (c : chain) (direction : string) : chain :=
  let key := prefix ++ "modelnextsteps." ++ direction in
  let key := match lookup key with Some _ => key | None => prefix ++ "modelnextsteps" end in
  match lookup key with
  | Some (s :: l) => set_next c (s :: l)
  | _ => c
  end.
(** steps/DDECal.cc:89-98, 116-146, 148-170: the step for a source of model data, and the steps after it *)
Definition regular_chain (s : source) : chain :=
  match s with
  | Column name => set_model_next (s, []) name
  | Facet label => set_model_next (s, []) label
  | Patches first _ => set_model_next (s, []) first
  end.
(** steps/DDECal.cc:260-265: the step that keeps the results is put at the end *)
Definition add_result (c : chain) : chain := (fst c, (snd c ++ ["result"])%list).
(** steps/DDECal.cc:83-86, 251-266: the chains of all directions *)
Definition regular_chains (columns facets : list string) (directions : list (string * list string)) : list chain :=
  map (fun s => add_result (regular_chain s)) (map Column columns ++ map Facet facets ++ map (fun d => Patches (fst d) (snd d)) directions).
(** steps/BdaDdeCal.cc:99-111 (a column), 121-131 (patches): the step that keeps the results is set as next step.  There are no facets. *)
Definition bda_chain (s : source) : chain :=
  match s with
  | Column name => set_next (set_model_next (s, []) name) ["result"]
  | _ => set_next (s, []) ["result"]
  end.
(** steps/BdaDdeCal.cc:82-83: the chains of all directions *)
Definition bda_chains (columns : list string) (directions : list (string * list string)) : list chain :=
  map bda_chain (map Column columns ++ map (fun d => Patches (fst d) (snd d)) directions).
End Steps.
