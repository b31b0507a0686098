(** What the step scaledata is to do: every visibility times the square root of the product of the factors of its two stations *)
From Coq Require Import Reals String List Bool Arith.
From Verif Require Import ScaleModel.
Import ListNotations.
Open Scope nat_scope.

Section Spec.
Variable matches : string -> string -> bool.
(** The polynomial with the given coefficients *)
Definition polynomial (c : list R) (x : R) : R := fold_right Rplus 0%R (map (fun k => (nth k c 0 * x ^ k)%R) (seq 0 (length c))).
(** The coefficients given by the user for a station, if any pattern matches: those of the first *)
Definition given (c : config) (name : string) : option (list R) := option_map snd (find (fun x => matches (fst x) name) (combine (c_stations c) (c_coeffs c))).
(** Whether the antenna set is one of LBA *)
Definition is_lba (set : string) : bool := String.prefix "LBA" set.
Definition default_coeffs (set : string) : list R := if is_lba set then default_lba else default_hba.
Definition nominal (set : string) : R := if is_lba set then 48%R else 24%R.
(** The number of tiles or dipoles in use, where both elements of each count for a half *)
Definition in_use (fields : list (nat * nat)) (a : nat) : nat := fold_right plus 0 (map snd (filter (fun f => fst f =? a) fields)).
Definition size (set : string) (fields : list (nat * nat)) (a : nat) : option R := if in_use fields a =? 0 then None else Some (nominal set / (INR (in_use fields a) / 2))%R.
(** The size counts if the user asks for it, or says nothing and gives no coefficients for the station *)
Definition with_size (c : config) (name : string) : bool := match c_scalesize c with Some b => b | None => match given c name with Some _ => false | None => true end end.
(** The factor of a station with number [a], for a frequency in Hz *)
Definition station (c : config) (i : info) (fields : list (nat * nat)) (a : nat) (freq : R) : option R :=
  let name := nth a (i_names i) ""%string in
  let p := polynomial (match given c name with Some l => l | None => default_coeffs (i_set i) end) (freq / 1000000) in
  if with_size c name then match size (i_set i) fields a with Some s => Some (p * s)%R | None => None end else Some p.
(** What the two stations of a baseline make of this; [None] if this is not a number *)
Definition is_root (f : option R) (s1 s2 : option R) : Prop :=
  match s1, s2 with
  | Some x, Some y => if Rle_dec 0 (x * y) then exists r, f = Some r /\ (0 <= r)%R /\ (r * r = x * y)%R else f = None
  | _, _ => f = None
  end.
(** Numbers of antennas are those of antennas that are there *)
Definition valid (i : info) : Prop := Forall (fun ab => fst ab < length (i_names i) /\ snd ab < length (i_names i)) (i_baselines i) /\
  match i_table i with Some t => Forall (fun f => fst f < length (t_names t)) (t_fields t) | None => True end.
(** What is refused *)
Definition refused (c : config) (i : info) : Prop := length (c_stations c) <> length (c_coeffs c) \/ In [] (c_coeffs c) \/
  (c_scalesize c <> Some false /\ match i_table i with Some t => length (t_names t) <> length (i_names i) | None => True end).
End Spec.
