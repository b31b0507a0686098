(** Model of the sky model that a source catalogue is read into: sky_model/SkyModel.cc and .h.
    Names are numbers in the order of the strings; of a source only its name, patch and direction are modelled.  The pattern of FindPatches is a predicate (casacore::Regex).
    std::map is an association list in ascending order.  An operation gives the new sky model and whether it succeeded; if not, it has thrown. *)
From Coq Require Import Qcanon List Arith Bool ZArith.
From Verif Require Import QcUtil AverageModel GainModel.
Import ListNotations.
Open Scope nat_scope.

(** sky_model/PatchInfo.h:59-65 *)
Record patch := Patch { p_name : nat; p_ra : Qc; p_dec : Qc; p_category : Z; p_flux : Qc }.
(** sky_model/SkyModel.cc:44-51: MakeSource *)
Record source := Source { s_name : nat; s_patch : nat; s_ra : Qc; s_dec : Qc }.
(** sky_model/SkyModel.h:45-53: patches_, patches_lut_ and sources_ *)
Record sky := Sky { patches : list patch; lut : list (nat * nat); sources : list source }.
(** A new sky model, sky_model/SkyModel.h:45-53 *)
Definition empty_sky : sky := Sky [] [] [].

(** std::map::find, sky_model/SkyModel.cc:33, 38 *)
Fixpoint lookup (m : list (nat * nat)) (k : nat) : option nat :=
  match m with [] => None | (a, v) :: m => if k =? a then Some v else lookup m k end.
(** operator[] of std::map with an assignment, sky_model/SkyModel.cc:75 *)
Fixpoint assign (m : list (nat * nat)) (k v : nat) : list (nat * nat) :=
  match m with
  | [] => [(k, v)]
  | (a, w) :: m' => if k =? a then (k, v) :: m' else if k <? a then (k, v) :: m else (a, w) :: assign m' k v
  end.

(** sky_model/SkyModel.cc:10-16: ValidateUniqueName; false if it throws *)
Definition unique_source (m : sky) (name : nat) : bool := negb (existsb (fun s => s_name s =? name) (sources m)).
(** sky_model/SkyModel.cc:32-35: ValidatePatchName; false if it throws *)
Definition new_patch (m : sky) (name : nat) : bool := match lookup (lut m) name with Some _ => false | None => true end.
(** sky_model/SkyModel.cc:68-78: addPatch; the number of the patch is the number of patches before *)
Definition add_patch (m : sky) (p : patch) (check : bool) : sky * bool :=
  if check && negb (new_patch m (p_name p)) then (m, false)
  else (Sky (patches m ++ [p]) (assign (lut m) (p_name p) (length (patches m))) (sources m), true).
(** sky_model/SkyModel.cc:53-62: addSource for a patch *)
Definition add_source (m : sky) (s : source) (check : bool) : sky * bool :=
  if check && negb (unique_source m (s_name s)) then (m, false) else (Sky (patches m) (lut m) (sources m ++ [s]), true).
(** sky_model/SkyModel.cc:18-30: addSource with a patch of its own *)
Definition add_source_patch (m : sky) (s : source) (category : Z) (flux : Qc) (check : bool) : sky * bool :=
  if check && negb (unique_source m (s_name s)) then (m, false)
  else if check && negb (new_patch m (s_patch s)) then (m, false)
  else let '(m, _) := add_patch m (Patch (s_patch s) (s_ra s) (s_dec s) category flux) false in add_source m s false.
(** sky_model/SkyModel.cc:83-87: the patch after updatePatch *)
Definition updated (p : patch) (flux ra dec : Qc) : patch := Patch (p_name p) ra dec (p_category p) flux.
(** The list with another element at an index, patches_[patch_id] in sky_model/SkyModel.cc:83 *)
Fixpoint change (l : list patch) (i : nat) (f : patch -> patch) : list patch :=
  match l, i with [], _ => [] | p :: l, 0 => f p :: l | p :: l, S i => p :: change l i f end.
(** sky_model/SkyModel.cc:80-88: updatePatch; without the patch (an assert) it is not successful *)
Definition update_patch (m : sky) (id : nat) (flux ra dec : Qc) : sky * bool :=
  if id <? length (patches m) then (Sky (change (patches m) id (fun p => updated p flux ra dec)) (lut m) (sources m), true) else (m, false).

(** The calls that change a sky model, sky_model/SkyModel.h:17-36 *)
Inductive operation :=
| AddPatch (p : patch) (check : bool)
| AddSource (s : source) (check : bool)
| AddSourcePatch (s : source) (category : Z) (flux : Qc) (check : bool)
| UpdatePatch (id : nat) (flux ra dec : Qc).
(** One call, sky_model/SkyModel.cc:18-88 *)
Definition step (m : sky) (o : operation) : sky * bool :=
  match o with
  | AddPatch p c => add_patch m p c
  | AddSource s c => add_source m s c
  | AddSourcePatch s k f c => add_source_patch m s k f c
  | UpdatePatch i f r d => update_patch m i f r d
  end.
(** Calls one after the other, starting with a new sky model; exceptions are caught by the caller.  sky_model/ReadSkyModel.cc:822-835, 935 *)
Definition after (l : list operation) : sky := fold_left (fun m o => fst (step m o)) l empty_sky.

(** sky_model/SkyModel.cc:37-42, 64-66: GetPatch *)
Definition get_patch (m : sky) (name : nat) : outcome patch := match lookup (lut m) name with None => Throw | Some i => get (patches m) i end.
(** sky_model/SkyModel.cc:90-101: GetPatchNames *)
Definition patch_names (m : sky) : list nat := map fst (lut m).
(** sky_model/SkyModel.cc:103-120: FindPatches *)
Definition find_patches (m : sky) (pattern : nat -> bool) : list nat := filter pattern (patch_names m).
