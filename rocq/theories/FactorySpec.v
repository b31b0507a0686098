(** What the settings of DDECal promise about its solver and its constraints (docs/schemas/DDECal.yml), without reference to how they are made. *)
From Coq Require Import Ascii String Reals List Arith ZArith.
From Verif Require Import FactoryModel.
Import ListNotations.
Open Scope nat_scope.

(** The modes of the documentation, and the number of gains per antenna of each: one for both polarizations, one per polarization, or a full matrix *)
Definition documented_modes : list (string * nat) :=
  [("scalar", 1); ("scalarphase", 1); ("scalaramplitude", 1); ("diagonal", 2); ("diagonalphase", 2); ("diagonalamplitude", 2); ("fulljones", 4);
   ("tec", 1); ("tec+delay", 1); ("tec+phase", 1); ("tec+phase+delay", 1); ("rotation", 4); ("rotation+diagonal", 4); ("faradayrotation", 4); ("leakage", 4); ("leakageamplitude", 4)]%string.
(** Two characters are the same letter, one of them or both in upper case, or the same character *)
Inductive same_char : ascii -> ascii -> Prop :=
| same_equal : forall c, same_char c c
| same_upper : forall k, k < 26 -> same_char (ascii_of_nat (65 + k)) (ascii_of_nat (97 + k))
| same_lower : forall k, k < 26 -> same_char (ascii_of_nat (97 + k)) (ascii_of_nat (65 + k)).
(** Two texts are the same without regard to case *)
Inductive same_text : string -> string -> Prop :=
| same_nil : same_text EmptyString EmptyString
| same_cons : forall c d s t, same_char c d -> same_text s t -> same_text (String c s) (String d t).
(** Modes that solve for phases only *)
Definition phase_mode (m : mode) : Prop := In m [ScalarPhase; DiagonalPhase; Tec; TecAndDelay; TecAndPhase; TecPhaseAndDelay].
(** Modes that solve for amplitudes only *)
Definition amplitude_mode (m : mode) : Prop := In m [ScalarAmplitude; DiagonalAmplitude; LeakageAmplitude].
(** Modes with one gain per polarization *)
Definition diagonal_mode (m : mode) : Prop := In m [Diagonal; DiagonalAmplitude; DiagonalPhase].

(** The settings that are refused, whatever the factors per antenna: the screens; algorithms that are only for diagonal gains; LBFGS without its library; a GPU for diagonal gains, except for the iterative algorithm with all data; and diagonal gains from single visibilities *)
Definition refused (s : settings) : Prop :=
  s_mode s = TecScreen \/
  (In (s_algorithm s) [AntennaSolve; LowRank] /\ ~ diagonal_mode (s_mode s)) \/
  (s_algorithm s = Lbfgs /\ has_libdirac s = false) \/
  (diagonal_mode (s_mode s) /\ s_use_gpu s = true /\ ~ (has_cuda s = true /\ s_algorithm s = DirectionIterative /\ s_data_use s = Full)) \/
  (diagonal_mode (s_mode s) /\ s_data_use s = Single /\ In (s_algorithm s) [DirectionIterative; HybridSolve]).

(** When a constraint is wanted *)
Definition wanted (s : settings) (c : constr) : Prop :=
  match c with
  | CAntenna => s_core s <> 0%R \/ s_groups s <> []
  | CInterval _ => s_averaging s <> []
  | CSmooth => s_smoothness s <> 0%R
  | CAmplitude => amplitude_mode (s_mode s)
  | CTec approximate offset => approximate = s_approximate_tec s /\ s_mode s = if offset then TecAndPhase else Tec
  | CTecDelay offset => s_mode s = if offset then TecPhaseAndDelay else TecAndDelay
  | CRotationDiagonal => s_mode s = RotationAndDiagonal
  | CRotation => s_mode s = Rotation
  | CFaraday => s_mode s = FaradayRotation
  | CLeakage => s_mode s = Leakage \/ s_mode s = LeakageAmplitude
  end.
(** The order in which constraints are applied: antennas, intervals, frequencies, and then those of the mode, the amplitude first *)
Definition rank (c : constr) : nat := match c with CAntenna => 0 | CInterval _ => 1 | CSmooth => 2 | CAmplitude => 3 | _ => 4 end.

(** The distance of two positions *)
Definition distance (a b : position) : R :=
  match a, b with (ax, ay, az), (bx, by_, bz) => sqrt ((ax - bx) ^ 2 + (ay - by_) ^ 2 + (az - bz) ^ 2) end%R.
(** Antenna [i] has the name, and no antenna before it *)
Definition named (names : list (list ascii)) (name : list ascii) (i : nat) : Prop := nth_error names i = Some name /\ forall j, j < i -> nth_error names j <> Some name.
(** m is the largest of the values of [f] for the antennas that are not the reference *)
Definition largest (n ref : nat) (f : nat -> R) (m : R) : Prop := (exists i, i < n /\ i <> ref /\ m = f i) /\ forall i, i < n -> i <> ref -> (f i <= m)%R.
