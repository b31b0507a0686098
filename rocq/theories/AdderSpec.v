(** What superstations are, independent of how StationAdder builds them. *)
From Coq Require Import Ascii String List Bool Arith ZArith QArith Qcanon.
Import ListNotations.
Open Scope nat_scope.

(** An original baseline, and whether it has to be conjugated *)
Definition use := (nat * bool)%type.

(** Original baseline [i] is between a station of [X] and one of [Y]; conjugated if the one of [Y] comes first *)
Definition link (orig : list (nat * nat)) (X Y : list nat) (u : use) : Prop :=
  exists p q, In p X /\ In q Y /\ nth_error orig (fst u) = Some (if snd u then (q, p) else (p, q)).

(** Original baselines for the autocorrelation of a superstation: the autocorrelations of its stations if [auto], the baselines
    between different ones otherwise; none if not asked for *)
Definition inside (make auto : bool) (orig : list (nat * nat)) (Y : list nat) (u : use) : Prop :=
  make = true /\ snd u = false /\ exists p q, In p Y /\ In q Y /\ nth_error orig (fst u) = Some (p, q) /\ (auto = true <-> p = q).

(** The stations behind an antenna number: itself, or the parts of a superstation *)
Definition stands (nold : nat) (all : list (list nat)) (a : nat) : list nat := if a <? nold then [a] else nth (a - nold) all [].

(** The original baselines behind every baseline, from what a new baseline is made of; [conjugated] and [from] read one entry *)
Definition flip (b : bool) (u : use) : use := (fst u, xorb b (snd u)).
Definition expand_one (conjugated : Z -> bool) (from : Z -> nat) (es : list (list use)) (zs : list Z) : list (list use) :=
  es ++ [flat_map (fun z => map (flip (conjugated z)) (nth (from z) es [])) zs].
Definition expand (conjugated : Z -> bool) (from : Z -> nat) (n : nat) (buf : list (list Z)) : list (list use) :=
  fold_left (expand_one conjugated from) buf (map (fun i => [(i, false)]) (seq 0 n)).
(** Entries are numbered from 1; negative ones are conjugated *)
Definition conjugated (z : Z) : bool := (z <? 0)%Z.
Definition from (z : Z) : nat := Z.to_nat (Z.abs z) - 1.

(** The last pattern that matches the name selects it: no later one matches *)
Definition selected (m : string -> string -> bool) (name : string) (patterns : list (bool * string)) : Prop :=
  exists before p after, patterns = before ++ (true, p) :: after /\ m p name = true /\ forall x, In x after -> m (snd x) name = false.
(** A pattern starting with ! or ^ (and more) deselects *)
Definition negative (pattern rest : string) : Prop := rest <> EmptyString /\ (pattern = String "!"%char rest \/ pattern = String "^"%char rest).

(** The part of a (possibly conjugated) complex number: [true] the imaginary one *)
Definition part (imag : bool) (re im : Qc) : Qc := if imag then im else re.
Definition signed (imag conj : bool) (x : Qc) : Qc := if imag && conj then Qcopp x else x.
