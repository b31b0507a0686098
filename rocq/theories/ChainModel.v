(** Building the chain of steps from a parameter set (base/DP3.cc, accepts and outputs in steps/*.h).
    Simplified: a step is its class and the kind of data it was constructed for; exceptions of the
    constructors, the steps inside Split, DDECal, Predict and others, and the contents of the data are not modelled. *)
From Coq Require Import Ascii String List Bool Arith.
From Verif Require Import AverageModel StrModel ParsetModel.
Import ListNotations.

(** steps/Step.h:57 (Step::MsType) *)
Inductive kind := Regular | Bda.
(** Not in the code: == of the enumeration (steps/Step.h:57) *)
Definition same_kind (a b : kind) : bool := match a, b with Regular, Regular | Bda, Bda => true | _, _ => false end.

(** The classes of steps that are made in base/DP3.cc:107-270 *)
Inductive class :=
  AOFlaggerStep | Averager | BdaAverager | BdaExpander | MadFlagger | PreFlagger | AntennaFlagger | UVWFlagger | ImageStep | Clipper
| Combine | MsColumnReader | Counter | PhaseShift | Demixer | ApplyBeam | StationAdder | ScaleData | SetBeam | Filter | ApplyCal | NullStokes
| Predict | WGridderPredict | IDGPredict | IDGImager | Upsample | Interpolate | BdaGroupPredict | SagecalPredict | H5ParmPredict | GainCal
| PyStep | Split | DDECal | BdaDdeCal | DynSpec | NullStep | WSCleanWriter | FlagTransfer | Transfer | MSWriter | MSUpdater | MSBDAWriter.
(** A step: its class and the input type it was made for (base/DP3.cc:167-170) *)
Definition step : Type := class * kind.

(** accepts: the default (steps/Step.h:139), MsColumnReader.h:51, BdaGroupPredict.h:67, BDAAverager.h:60, NullStep.h:40-42,
    Combine.h:53-55, BdaExpander.h:59, UVWFlagger.h:86, BdaDdeCal.h:98, ScaleData.h:79, Predict.h:77 *)
Definition accepts (s : step) (k : kind) : bool :=
  match fst s with
  | MsColumnReader | Combine | UVWFlagger | ScaleData | Predict => same_kind k (snd s)
  | BdaGroupPredict | BdaExpander | BdaDdeCal => same_kind k Bda
  | NullStep => true
  | _ => same_kind k Regular
  end.
(** outputs: the default (steps/Step.h:136), BdaGroupPredict.h:69, BDAAverager.h:62, Combine.h:57, UVWFlagger.h:88,
    BdaDdeCal.h:100, ScaleData.h:81, Predict.h:79 *)
Definition outputs (s : step) : kind :=
  match fst s with
  | Combine | UVWFlagger | ScaleData | Predict => snd s
  | BdaGroupPredict | BdaAverager | BdaDdeCal => Bda
  | _ => Regular
  end.
(** The process functions of the steps: what a step does with a buffer of a kind. None is an exception (steps/Step.h:76-85,
    steps/ImageStep.cc:112-116); Some None that no buffer is given to the next step (steps/NullStep.h:26-29, Split.cc:129-134, MSBDAWriter.cc:88-155);
    Some (Some k) that buffers of kind k are given to the next step. For Predict see steps/Predict.cc:87-126.
    Simplified: a step that collects buffers gives them at once. *)
Definition process (s : step) (k : kind) : option (option kind) :=
  match fst s, k with
  | (MsColumnReader | Combine | UVWFlagger | ScaleData), k => Some (Some k)
  | Predict, k => if same_kind k (snd s) then Some (Some k) else None
  | NullStep, _ => Some None
  | (BdaGroupPredict | BdaDdeCal), Bda => Some (Some Bda)
  | (BdaGroupPredict | BdaDdeCal), Regular => None
  | BdaExpander, Bda => Some (Some Regular)
  | BdaExpander, Regular => None
  | BdaAverager, Regular => Some (Some Bda)
  | BdaAverager, Bda => None
  | MSBDAWriter, Bda => Some None
  | MSBDAWriter, Regular => None
  | Split, Regular => Some None
  | _, Regular => Some (Some Regular)
  | _, Bda => None
  end.

(** How DP3 was built: base/DP3.cc:189-195, 237-243 *)
Record build := { have_wsclean : bool; have_libdirac : bool }.

(** base/DP3.cc:167-270 (MakeSingleStep); Ok None is a null pointer *)
Definition make_single_step (b : build) (type : string) (k : kind) : outcome (option step) :=
  let is t := String.eqb type t in
  let make c := Ok (Some (c, k)) in
  if is "aoflagger"%string || is "aoflag"%string then make AOFlaggerStep
  else if is "averager"%string || is "average"%string || is "squash"%string then make Averager
  else if is "bdaaverage"%string || is "bdaaverager"%string then make BdaAverager
  else if is "bdaexpander"%string then make BdaExpander
  else if is "madflagger"%string || is "madflag"%string then make MadFlagger
  else if is "preflagger"%string || is "preflag"%string then make PreFlagger
  else if is "antennaflagger"%string || is "antflag"%string then make AntennaFlagger
  else if is "uvwflagger"%string || is "uvwflag"%string then make UVWFlagger
  else if is "image"%string then if have_wsclean b then make ImageStep else Throw
  else if is "clipper"%string then make Clipper
  else if is "combine"%string then make Combine
  else if is "columnreader"%string then make MsColumnReader
  else if is "counter"%string || is "count"%string then make Counter
  else if is "phaseshifter"%string || is "phaseshift"%string then make PhaseShift
  else if is "demixer"%string || is "demix"%string then make Demixer
  else if is "applybeam"%string then make ApplyBeam
  else if is "stationadder"%string || is "stationadd"%string then make StationAdder
  else if is "scaledata"%string then make ScaleData
  else if is "setbeam"%string then make SetBeam
  else if is "filter"%string then make Filter
  else if is "applycal"%string || is "correct"%string then make ApplyCal
  else if is "nullstokes"%string then make NullStokes
  else if is "predict"%string then make Predict
  else if is "wgridderpredict"%string then make WGridderPredict
  else if is "idgpredict"%string then make IDGPredict
  else if is "idgimager"%string then make IDGImager
  else if is "upsample"%string then make Upsample
  else if is "interpolate"%string then make Interpolate
  else if is "grouppredict"%string then make BdaGroupPredict
  else if is "sagecalpredict"%string then if have_libdirac b then make SagecalPredict else Throw
  else if is "h5parmpredict"%string then make H5ParmPredict
  else if is "gaincal"%string || is "calibrate"%string then make GainCal
  else if is "python"%string || is "pythondppp"%string then make PyStep
  else if is "split"%string || is "explode"%string then make Split
  else if is "ddecal"%string then match k with Regular => make DDECal | Bda => make BdaDdeCal end
  else if is "dynspec"%string then make DynSpec
  else if is "null"%string then make NullStep
  else if is "wscleanwriter"%string then make WSCleanWriter
  else if is "flagtransfer"%string then make FlagTransfer
  else if is "transfer"%string then make Transfer
  else Ok None.

(** The parameters that are used (base/DP3.cc:113-123, 566-584): the names of the steps, name.type and name.name of a step, msout.name and msout *)
Record parset := { step_names : list string; type_of : string -> option string; name_of : string -> option string;
                   msout_name : option string; msout : option string }.

Section Paths.
(** casacore::Path::absoluteName; an oracle *)
Variable absolute : string -> string.

(** base/DP3.cc:124-150: the name of the output and whether it is an update. *)
Definition output_name (name current : string) : outcome (string * bool) :=
  if String.eqb name "" || String.eqb name "." then
    if String.eqb current "" then Throw else Ok (current, true)
  else if String.eqb current (absolute name) then Ok (current, true) else Ok (name, false).
(** base/DP3.cc:107-165 (MakeOutputStep) after the name was read from the parameter set; also gives the new current name *)
Definition make_output_step (name current : string) (k : kind) : outcome (step * string) :=
  match output_name name current with
  | Ok (out, update) =>
      match k, update with
      | Bda, true => Throw
      | Bda, false => Ok ((MSBDAWriter, k), absolute out)
      | Regular, true => Ok ((MSUpdater, k), absolute out)
      | Regular, false => Ok ((MSWriter, k), absolute out)
      end
  | Throw => Throw
  | Undefined => Undefined
  end.

(** base/DP3.cc:577-583: the name without the digits at its end *)
Fixpoint strip (rev_name : list ascii) : list ascii :=
  match rev_name with c :: r => if isdigit c then strip r else rev_name | [] => [] end.
(** base/DP3.cc:579-582: the default type *)
Definition default_type (name : string) : string := string_of_list_ascii (rev (strip (rev (list_ascii_of_string name)))).
(** base/DP3.cc:583-584: the type *)
Definition step_type (p : parset) (name : string) : string :=
  let t := match type_of p name with Some t => t | None => default_type name end in
  string_of_list_ascii (map tolower (list_ascii_of_string t)).

(** base/DP3.cc:586-597: a step of the list; also gives the current name of the output *)
Definition make_step (b : build) (p : parset) (name current : string) (k : kind) : outcome (step * string) :=
  let type := step_type p name in
  match make_single_step b type k with
  | Ok (Some s) => Ok (s, current)
  | Ok None =>
      if String.eqb type "out" || String.eqb type "output" || String.eqb type "msout" then
        match name_of p name with Some n => make_output_step n current k | None => Throw end
      else Throw
  | Throw => Throw
  | Undefined => Undefined
  end.
(** steps/Split.cc:143-145; other steps can have a next step *)
Definition may_have_next (s : step) : bool := match fst s with Split => false | _ => true end.

(** base/DP3.cc:572-608: the loop over the names; the steps after the last one made *)
Fixpoint make_steps (b : build) (p : parset) (initial : kind) (last : option step) (current : string) (names : list string) : outcome (list step) :=
  match names with
  | [] => Ok []
  | name :: rest =>
      let k := match last with Some l => outputs l | None => initial end in
      match make_step b p name current k with
      | Ok (s, current') =>
          let connected := match last with Some l => accepts s (outputs l) && may_have_next l | None => true end in
          if connected then
            match make_steps b p initial (Some s) current' rest with Ok r => Ok (s :: r) | Throw => Throw | Undefined => Undefined end
          else Throw
      | Throw => Throw
      | Undefined => Undefined
      end
  end.
(** base/DP3.cc:610-616: the end of a chain inside another step *)
Definition terminate (chain : list step) : outcome (list step) :=
  match chain with
  | [] => Ok []
  | s :: r => if may_have_next (last r s) then Ok (chain ++ [(NullStep, Regular)]) else Throw
  end.
(** base/DP3.cc:562-617 (MakeStepsFromParset) *)
Definition make_steps_from_parset (b : build) (p : parset) (input_name : string) (terminated : bool) (initial : kind) : outcome (list step) :=
  match make_steps b p initial None input_name (step_names p) with
  | Ok chain => if terminated then terminate chain else Ok chain
  | o => o
  end.

(** steps/OutputStep.h and the classes derived from it *)
Definition is_output (s : step) : bool :=
  match fst s with MSWriter | MSUpdater | MSBDAWriter | NullStep | Split | WSCleanWriter => true | _ => false end.
(** base/DP3.cc:112-118: the name of the last output step *)
Definition main_output_name (p : parset) : string :=
  let m := match msout p with Some n => n | None => EmptyString end in
  match msout_name p with Some n => if String.eqb n "" then m else n | None => m end.
(** base/DP3.cc:498-560 (MakeMainSteps) from a reader of a dataset; [changed]: the steps after the last output step provide fields
    (C02 is about these). Simplified: the reader is given by its kind and name. *)
Definition make_main_steps (b : build) (p : parset) (input_name : string) (initial : kind) (changed : list step -> bool) : outcome (list step) :=
  match make_steps_from_parset b p (absolute input_name) false initial with
  | Ok chain =>
      let ends := match chain with [] => false | s :: r => is_output (last r s) end in
      let before_null :=
        if ends then Ok chain
        else
          match (match msout_name p with Some n => Some n | None => msout p end) with
          | None => Throw
          | Some n =>
              if negb (String.eqb n "") || changed chain then
                match make_output_step (main_output_name p) (absolute input_name) (match chain with [] => initial | s :: r => outputs (last r s) end) with
                | Ok (o, _) => Ok (chain ++ [o])
                | Throw => Throw
                | Undefined => Undefined
                end
              else Ok chain
          end in
      match before_null with
      | Ok [] => Ok [(NullStep, Regular)]
      | Ok (s :: r) => if may_have_next (last r s) then Ok ((s :: r) ++ [(NullStep, Regular)]) else Ok (s :: r)
      | o => o
      end
  | o => o
  end.
End Paths.
