(** What should be in the files of gain calibration. *)
From Coq Require Import Ascii String Reals List Arith Bool.
From Verif Require Import RealCplx GainFileModel.
Import ListNotations.
Open Scope R_scope.

(** A name of a station that can be told apart from the rest of the name of a parameter *)
Definition plain (s : string) : Prop := (forall a b, s <> (a ++ String ":" b)%string) /\ (forall a, s <> ("phase_center" ++ a)%string).
(** All stations have their own name *)
Definition distinct_names (ants : nat -> string) : Prop := (forall i, plain (ants i)) /\ (forall i j, ants i = ants j -> i = j).
Section Files.
Context {cell : Type}.
(** Solutions of one run: for the stations, the correlations and the cells; the parameters of the fit of the phases; which stations are used *)
Record run := Run { r_sols : nat -> nat -> cell -> rc; r_tec : nat -> nat -> cell -> R; r_used : nat -> bool }.
(** Several runs of the same type *)
Definition runs_of (ct : caltype) (l : list run) : list (caltype * (nat -> bool) * (nat -> nat -> cell -> rc) * (nat -> nat -> cell -> R)) := map (fun r => (ct, r_used r, r_sols r, r_tec r)) l.
(** The solutions are such as the type of calibration gives *)
Definition suitable (ct : caltype) (sols : nat -> nat -> cell -> rc) : Prop :=
  match ct with
  | DiagonalPhase | ScalarPhase => forall ant p x, rabs (sols ant p x) = 1
  | DiagonalAmplitude | ScalarAmplitude => forall ant p x, im (sols ant p x) = 0 /\ 0 <= re (sols ant p x)
  | _ => True
  end.
(** The Jones matrix of a station, by rows *)
Definition jones (ct : caltype) (sols : nat -> nat -> cell -> rc) (ant : nat) (x : cell) : list rc :=
  match ct with
  | FullMatrix => map (fun p => sols ant p x) [0; 1; 2; 3]%nat
  | Diagonal | DiagonalPhase | DiagonalAmplitude => [sols ant 0%nat x; rc0; rc0; sols ant 1%nat x]
  | _ => [sols ant 0%nat x; rc0; rc0; sols ant 0%nat x]
  end.
(** The types that correction=gain is for *)
Definition gain_type (ct : caltype) : Prop := match ct with Diagonal | DiagonalPhase | DiagonalAmplitude | FullMatrix => True | _ => False end.
(** An argument function *)
Definition is_arg (arg : rc -> R) : Prop := forall z, z = RC (rabs z * cos (arg z)) (rabs z * sin (arg z)).
End Files.
Arguments run : clear implicits.
(** The solution intervals of a number of time slots: the time slots, the start and the end *)
Definition interval (start dt : R) (solint ntime k : nat) : list nat * R * R :=
  (seq (k * solint) (Nat.min solint (ntime - k * solint)), start + INR (k * solint) * dt, start + INR (Nat.min ((k + 1) * solint) ntime) * dt).
(** The middle of a solution interval *)
Definition middle (start dt : R) (solint ntime k : nat) : R := let '(_, a, b) := interval start dt solint ntime k in (a + b) / 2.
(** How many there are *)
Definition intervals (solint ntime : nat) : nat := (ntime / solint + if (ntime mod solint =? 0)%nat then 0 else 1)%nat.
(** What should be in a table of an H5Parm: the phase, the amplitude or the TEC of a solution *)
Definition wanted (arg : rc -> R) (ct : caltype) (kind : string) (s : option rc) (alpha beta : option R) : option R :=
  match ct with
  | Tec | TecAndPhase => if String.eqb kind "tec" then option_map (fun x => x / 8447972450) alpha else option_map Ropp beta
  | _ => if String.eqb kind "phase" then option_map arg s else option_map rabs s
  end.
(** Whether the tables of a type of calibration can be used: a table for each number that is solved for, and no other *)
Definition kinds (ct : caltype) : list string :=
  match ct with
  | Diagonal | FullMatrix => ["phase"; "amplitude"]
  | DiagonalPhase | ScalarPhase => ["phase"]
  | DiagonalAmplitude | ScalarAmplitude => ["amplitude"]
  | Tec => ["tec"]
  | TecAndPhase => ["tec"; "phase"]
  end%string.
(** The numbers of polarizations and of frequency cells of a table *)
Definition polarizations (ct : caltype) : nat := match ct with FullMatrix => 4 | Diagonal | DiagonalPhase | DiagonalAmplitude => 2 | _ => 1 end.
Definition frequencies (ct : caltype) (cells : nat) : nat := match ct with Tec | TecAndPhase => 1 | _ => cells end.
