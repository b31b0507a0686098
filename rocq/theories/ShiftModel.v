(** Model of steps/PhaseShift.cc and of rotateUVW in base/Simulate.cc: the change of the phase centre.  Numbers are real numbers. *)
From Coq Require Import Reals List Arith.
From Verif Require Import EulerModel SimulateModel.
Import ListNotations.
Open Scope R_scope.

(** steps/PhaseShift.cc:68-71, base/Simulate.cc:237-241 *)
Definition rotation (old new : direction) : list R := product (transpose (euler new)) (euler old).
(** steps/PhaseShift.cc:72-77: the phase per metre of each coordinate *)
Definition phase_vector (old new : direction) : vec :=
  let difference k := at_ (euler old) k 2 - at_ (euler new) k 2 in
  let tt j := difference 0%nat * at_ (euler old) 0 j + difference 1%nat * at_ (euler old) 1 j + difference 2%nat * at_ (euler old) 2 j in
  (tt 0%nat, tt 1%nat, tt 2%nat).
(** steps/PhaseShift.cc:119-121, base/Simulate.cc:246-248: the numbers of the matrix column by column *)
Definition rotate (mat : list R) (uvw : vec) : vec :=
  let '(u, v, w) := uvw in
  (u * nth 0 mat 0 + v * nth 3 mat 0 + w * nth 6 mat 0, u * nth 1 mat 0 + v * nth 4 mat 0 + w * nth 7 mat 0, u * nth 2 mat 0 + v * nth 5 mat 0 + w * nth 8 mat 0).
(** base/Simulate.cc:233-256 (rotateUVW) *)
Definition rotate_uvw (from to : direction) (uvw : list vec) : list vec := map (rotate (rotation from to)) uvw.
(** steps/PhaseShift.cc:81-85 *)
Definition freq_c (freqs : list R) : list R := map (fun f => 2 * PI * f / light) freqs.
(** steps/PhaseShift.cc:122-123 *)
Definition metres (old new : direction) (uvw : vec) : R :=
  let '(x, y, z) := phase_vector old new in let '(u, v, w) := uvw in x * u + y * v + z * w.
(** steps/PhaseShift.cc:133: the product of complex numbers *)
Definition cmul (a b : cx) : cx := MkC (cr a * cr b - ci a * ci b) (cr a * ci b + ci a * cr b).
(** steps/PhaseShift.cc:122-136: a baseline; [freqs] are those of the channels *)
Definition shift_baseline (old new : direction) (freqs : list R) (uvw : vec) (data : list (list cx)) : list (list cx) :=
  map (fun x => let '(fc, cell) := x in let p := metres old new uvw * fc in map (fun d => cmul d (MkC (cos p) (sin p))) cell) (combine (freq_c freqs) data).
(** steps/PhaseShift.cc:102-146 (process): the data and the UVW coordinates *)
Definition shift_buffer (old new : direction) (freqs : list R) (buffer : list (list (list cx)) * list vec) : list (list (list cx)) * list vec :=
  let '(data, uvw) := buffer in
  (map (fun x => shift_baseline old new freqs (fst x) (snd x)) (combine uvw data), map (rotate (rotation old new)) uvw).
(** steps/PhaseShift.cc:57-65, 79: what is known of the phase centre: the original one and the current one; a step has a new centre or none *)
Definition new_centre (original : direction) (given : option direction) : direction := match given with None => original | Some d => d end.
(** steps/PhaseShift.cc:54-89, 102-146: steps one after the other; each starts at the centre that the one before leaves *)
Fixpoint shift_all (original current : direction) (freqs : list R) (steps : list (option direction)) (buffer : list (list (list cx)) * list vec)
    : direction * (list (list (list cx)) * list vec) :=
  match steps with
  | [] => (current, buffer)
  | given :: steps => let new := new_centre original given in shift_all original new freqs steps (shift_buffer current new freqs buffer)
  end.
