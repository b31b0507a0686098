(** Model of applying the solutions to the model data and subtracting it: steps/DDECal.cc:1004-1124.  Numbers are exact; conversion to float is left out. *)
From Coq Require Import List Bool Arith.
From Verif Require Import Cplx AverageModel GainModel.
Import ListNotations.
Open Scope nat_scope.

(** steps/DDECal.cc:1008-1009: a full matrix from four solutions *)
Definition full_at (sols : list cplx) (i : nat) : outcome mat :=
  let! a := get sols (i * 4) in let! b := get sols (i * 4 + 1) in let! c := get sols (i * 4 + 2) in let! d := get sols (i * 4 + 3) in Ok (Mat a b c d).
(** steps/DDECal.cc:1017-1018: a diagonal matrix from two solutions *)
Definition diag_at (sols : list cplx) (i : nat) : outcome mat := let! a := get sols (i * 2) in let! b := get sols (i * 2 + 1) in Ok (mdiag a b).
(** steps/DDECal.cc:1005-1058: the model data with solutions applied, for [n_pol] polarizations of a solution *)
Definition apply_solution (n_pol : nat) (sols : list cplx) (i1 i2 : nat) (m : mat) : outcome mat :=
  if n_pol =? 4 then let! s1 := full_at sols i1 in let! s2 := full_at sols i2 in Ok (mmul (mmul s1 m) (mherm s2))
  else if n_pol =? 2 then let! s1 := diag_at sols i1 in let! s2 := diag_at sols i2 in Ok (mmul (mmul s1 m) (mherm s2))
  else let! s1 := get sols i1 in let! s2 := get sols i2 in Ok (mscale m (cmul s1 (conj s2))).
(** steps/DDECal.cc:1040-1067: the directions from [d]; the sum and the model data *)
Fixpoint directions (n_pol n_dir : nat) (keep : bool) (sols : list cplx) (a1 a2 d : nat) (ms : list mat) (sum : mat) : outcome (mat * list mat) :=
  match ms with
  | [] => Ok (sum, [])
  | m :: ms =>
      let! c := apply_solution n_pol sols (a1 * n_dir + d) (a2 * n_dir + d) m in
      let! (sum, ms) := directions n_pol n_dir keep sols a1 a2 (S d) ms (madd sum c) in
      Ok (sum, (if keep then c else m) :: ms)
  end.
(** steps/DDECal.cc:1031-1075 (ApplySolutionAndSubtract): data and model data of a channel of a baseline of antennas [a1] and [a2] *)
Definition apply_subtract (n_pol : nat) (subtract keep : bool) (sols : list cplx) (a1 a2 : nat) (x : mat * list mat) : outcome (mat * list mat) :=
  let! (sum, ms) := directions n_pol (length (snd x)) keep sols a1 a2 0 (snd x) mzero in
  Ok (if subtract then msub (fst x) sum else fst x, ms).
(** steps/DDECal.cc:1105-1115: the channels of a baseline from [ch]; [sols]: the solutions of all channel blocks *)
Fixpoint channels (n_pol : nat) (subtract keep : bool) (starts : list nat) (sols : list (list cplx)) (a1 a2 cb ch : nat) (l : list (mat * list mat))
    : outcome (list (mat * list mat)) :=
  match l with
  | [] => Ok []
  | x :: l =>
      let! e := get starts (cb + 1) in
      let cb := if ch =? e then cb + 1 else cb in
      let! s := get sols cb in
      let! y := apply_subtract n_pol subtract keep s a1 a2 x in
      let! l := channels n_pol subtract keep starts sols a1 a2 cb (S ch) l in
      Ok (y :: l)
  end.
(** steps/DDECal.cc:1101-1116: all baselines of a slot, with their antennas as they are numbered in the data (getAnt1 and getAnt2) *)
Fixpoint correct_slot (n_pol : nat) (subtract keep : bool) (starts : list nat) (sols : list (list cplx)) (l : list (nat * nat * list (mat * list mat)))
    : outcome (list (list (mat * list mat))) :=
  match l with
  | [] => Ok []
  | (a1, a2, chans) :: l =>
      let! q := channels n_pol subtract keep starts sols a1 a2 0 0 chans in
      let! l := correct_slot n_pol subtract keep starts sols l in
      Ok (q :: l)
  end.
