(** Model of base/Simulate.cc: how the UVW coordinates of baselines are split into UVW coordinates of stations. *)
From Coq Require Import List Bool Arith ZArith QArith Qcanon.
From Verif Require Import InfoModel.
Import ListNotations.
Open Scope nat_scope.

(** * Which baselines to use, in which order *)

(** steps/OnePredict.cc:462 etc.: a baseline is the pair of its antennas; numbers of antennas are assumed to exist *)
Notation baseline := (nat * nat)%type.
(** base/Simulate.cc:38-46: the baselines found, which stations are known, and the members of the current group *)
Record search := MkSearch { s_found : list Z; s_known : list bool; s_members : list nat }.
(** base/Simulate.cc:61-80: a baseline [i] with antennas [a1] and [a2], for the reference station [ref] *)
Definition visit (ref : nat) (st : search) (ib : nat * baseline) : search :=
  let '(i, (a1, a2)) := ib in
  if Bool.eqb (nth a1 (s_known st) false) (nth a2 (s_known st) false) then st
  else if a1 =? ref then MkSearch (s_found st ++ [Z.of_nat i]) (set_nth (s_known st) a2 true) (s_members st ++ [a2])
  else if a2 =? ref then MkSearch (s_found st ++ [(- Z.of_nat (i + 1))%Z]) (set_nth (s_known st) a1 true) (s_members st ++ [a1])
  else st.
(** The baselines with their indices *)
(** base/Simulate.cc:61-63 *)
Definition numbered (bls : list baseline) : list (nat * baseline) := combine (seq 0 (length bls)) bls.
(** base/Simulate.cc:58-81: the members of the group, from the [j]-th on; [fuel] bounds their number *)
Fixpoint scan (bls : list baseline) (fuel j : nat) (st : search) : search :=
  match fuel with
  | O => st
  | S fuel =>
    match nth_error (s_members st) j with
    | None => st
    | Some ref => scan bls fuel (j + 1) (fold_left (visit ref) (numbered bls) st)
    end
  end.
(** base/Simulate.cc:48-55: the first station that is not known *)
Fixpoint first_unknown (known : list bool) : option nat :=
  match known with
  | [] => None
  | k :: known => if k then option_map S (first_unknown known) else Some 0
  end.
(** base/Simulate.cc:43-82: the groups; the loop ends when all stations are known *)
Fixpoint groups_loop (bls : list baseline) (nant fuel : nat) (found : list Z) (known : list bool) : list Z :=
  match fuel with
  | O => found
  | S fuel =>
    match first_unknown known with
    | None => found
    | Some r =>
      let st := scan bls nant 0 (MkSearch found (set_nth known r true) [r]) in
      groups_loop bls nant fuel (s_found st) (s_known st)
    end
  end.
(** base/Simulate.cc:26-84 (SetupUvwSplitting without positions) *)
Definition setup (nant : nat) (bls : list baseline) : list Z := groups_loop bls nant nant [] (repeat false nant).

(** * With positions: the longest baselines that connect the stations *)

(** base/Simulate.cc:114-120: the selected baselines, the group of each antenna, and the antennas of each group *)
Record selection := MkSelection { l_chosen : list nat; l_group : list (option nat); l_groups : list (list nat) }.
(** base/Simulate.cc:123-160: a baseline; [None] if it adds nothing *)
Definition choose (st : selection) (bl a1 a2 : nat) : option selection :=
  let g1 := nth a1 (l_group st) None in
  let g2 := nth a2 (l_group st) None in
  let chosen := l_chosen st ++ [bl] in
  match g1, g2 with
  | None, None =>
    let n := length (l_groups st) in
    Some (MkSelection chosen (set_nth (set_nth (l_group st) a1 (Some n)) a2 (Some n)) (l_groups st ++ [[a1; a2]]))
  | None, Some g => Some (MkSelection chosen (set_nth (l_group st) a1 (Some g)) (set_nth (l_groups st) g (nth g (l_groups st) [] ++ [a1])))
  | Some g, None => Some (MkSelection chosen (set_nth (l_group st) a2 (Some g)) (set_nth (l_groups st) g (nth g (l_groups st) [] ++ [a2])))
  | Some g, Some h =>
    if g =? h then None
    else
      let old := nth h (l_groups st) [] in
      Some (MkSelection chosen (fold_left (fun m a => set_nth m a (Some g)) old (l_group st))
                        (set_nth (set_nth (l_groups st) g (nth g (l_groups st) [] ++ old)) h []))
  end.
(** base/Simulate.cc:122-167: the loop, which stops when there are enough baselines; for one antenna there never are *)
Fixpoint select_loop (nant : nat) (bls : list baseline) (order : list nat) (st : selection) : selection :=
  match order with
  | [] => st
  | bl :: order =>
    let '(a1, a2) := nth bl bls (0, 0) in
    match choose st bl a1 a2 with
    | None => select_loop nant bls order st
    | Some st => if length (l_chosen st) =? nant - 1 then st else select_loop nant bls order st
    end
  end.
(** base/Simulate.cc:111-169 (GetBaselineSelection) *)
Definition select (nant : nat) (bls : list baseline) (order : list nat) : list nat :=
  l_chosen (select_loop nant bls order (MkSelection [] (repeat None nant) [])).
(** base/Simulate.cc:171-203 (SetupUvwSplitting with positions): [order] are the baselines sorted by length (86-109), longest
    first; std::sort may give any order for baselines of equal length *)
Definition setup_selected (nant : nat) (bls : list baseline) (order : list nat) : list Z :=
  let chosen := select nant bls order in
  map (fun bl => if (0 <=? bl)%Z then Z.of_nat (nth (Z.to_nat bl) chosen 0) else (- Z.of_nat (nth (Z.to_nat (- bl - 1)) chosen 0%nat) - 1)%Z)
    (setup nant (map (fun bl => nth bl bls (0, 0)) chosen)).

(** * Splitting *)
Section Split.
(** UVW coordinates: three numbers, which are added and subtracted each by themselves *)
Variables (V : Type) (add sub : V -> V -> V) (zero : V).
(** base/Simulate.cc:210-230: one baseline *)
Definition split_one (bls : list baseline) (uvw : list V) (ant : list V) (index : Z) : list V :=
  if (index <? 0)%Z then
    let i := Z.to_nat (- index - 1) in
    let '(a1, a2) := nth i bls (0, 0) in set_nth ant a1 (sub (nth a2 ant zero) (nth i uvw zero))
  else
    let i := Z.to_nat index in
    let '(a1, a2) := nth i bls (0, 0) in set_nth ant a2 (add (nth a1 ant zero) (nth i uvw zero)).
(** base/Simulate.cc:205-231 (SplitUvw) *)
Definition split (nant : nat) (indices : list Z) (bls : list baseline) (uvw : list V) : list V :=
  fold_left (split_one bls uvw) indices (repeat zero nant).
End Split.

(** The coordinates, exact instead of rounded doubles *)
(** base/Simulate.cc:225-229 *)
Notation vec := (Qc * Qc * Qc)%type.
(** base/Simulate.cc:217-219 *)
Definition vsub (p q : vec) : vec := let '(a, b, c) := p in let '(d, e, f) := q in (a - d, b - e, c - f)%Qc.
(** base/Simulate.cc:225-227 *)
Definition vadd (p q : vec) : vec := let '(a, b, c) := p in let '(d, e, f) := q in (a + d, b + e, c + f)%Qc.
(** base/Simulate.cc:209: the coordinates before the splitting *)
Definition vzero : vec := (0, 0, 0)%Qc.
(** base/Simulate.cc:90-98: the squared length of a baseline, from the positions of the antennas *)
Definition length_squared (pos : nat -> vec) (b : baseline) : Qc :=
  let '(u, v, w) := vsub (pos (snd b)) (pos (fst b)) in (u * u + v * v + w * w)%Qc.
