(** Model of the solutions that DDECal starts with: ddecal/InitialSolutions.cc, the part of steps/DDECal.cc InitializeSolutions without solutions of an earlier interval, and the smoothing
    factors per solution of ddecal/Settings.cc.  A gain is of any type with a product; the tables of the H5Parm file, with the interpolation and the nearest source of schaapcommon, are
    given functions of the direction, the channel block, the antenna and the polarization.  Rounding of float is not modelled, nor is overflow of numbers of values. *)
From Coq Require Import String List Bool Arith.
From Verif Require Import AverageModel GainModel.
Import ListNotations.
Open Scope nat_scope.

(** std::string::find(…) != npos, InitialSolutions.cc:44-45 *)
Definition contains (part s : string) : bool := match index 0 part s with Some _ => true | None => false end.
(** InitialSolutions.cc:40-49: whether the tables are those of full-Jones solutions; the names of the tables, and the size of the polarization axis of the first table, if it has one.
    Without tables, the first one does not exist. *)
Definition tables_are_full (names : list string) (n_pol : option nat) : outcome bool :=
  match names with
  | [] => Undefined
  | _ =>
      Ok match n_pol with
         | None => false
         | Some n => (length names =? 2) && contains "amplitude" (nth 0 names EmptyString) && contains "phase" (nth 1 names EmptyString) && (n =? 4)
         end
  end.
(** Settings.cc:302-305: GetNSolutions *)
Definition n_solutions (subs : list nat) : nat := fold_left plus subs 0.
(** vector::resize, InitialSolutions.cc:169 and DDECal.cc:515 *)
Definition resize {T} (n : nat) (x : T) (l : list T) : list T := firstn n l ++ repeat x (n - length l).
(** Settings.cc:391-396: the loop over directions *)
Fixpoint expand {Q} (factors : list Q) (subs : list nat) : outcome (list Q) :=
  match subs, factors with
  | [], _ => Ok []
  | _ :: _, [] => Undefined
  | n :: subs, f :: factors => let! r := expand factors subs in Ok (repeat f n ++ r)
  end.
(** Settings.cc:385-399: GetExpandedSmoothnessDdFactors *)
Definition expanded_factors {Q} (factors : list Q) (subs : list nat) : outcome (list Q) :=
  if (length subs =? 0) || (length factors =? 0) then Ok factors else expand factors subs.

Section Solutions.
(** The gains: one, the product and zero *)
Context {A : Type}.
Variables (one zero : A) (mul : A -> A -> A).
(** InitialSolutions.cc:73-111: ReadJonesMatrix, with indices direction, channel block, antenna, polarization *)
Definition reading := nat -> nat -> nat -> nat -> A.

(** InitialSolutions.cc:175-177 with 104-110 and 127-162: the values of a direction, frequency x antenna x polarization, the last one fastest *)
Definition tensor (n_freq n_ant n_pol : nat) (f : nat -> nat -> nat -> A) : list A :=
  flat_map (fun ch => flat_map (fun a => map (f ch a) (seq 0 n_pol)) (seq 0 n_ant)) (seq 0 n_freq).
(** InitialSolutions.cc:194-195: an element of it; xtensor does not check the single indices *)
Definition element (n_ant n_pol : nat) (t : list A) (ch a p : nat) : outcome A := get t (ch * (n_ant * n_pol) + a * n_pol + p).
(** InitialSolutions.cc:164: xt::prod over the tables *)
Definition product (l : list A) : A := fold_left mul l one.
(** vector::operator[] as destination, InitialSolutions.cc:194 *)
Definition put (l : list A) (i : nat) (x : A) : outcome (list A) := if i <? length l then Ok (firstn i l ++ x :: skipn (S i) l) else Undefined.
(** A loop with an outcome, InitialSolutions.cc:170-200 *)
Fixpoint loop {T} (f : T -> nat -> outcome T) (is : list nat) (x : T) : outcome T :=
  match is with [] => Ok x | i :: is => let! x := f x i in loop f is x end.

(** InitialSolutions.cc:183-196: the values of one sub-solution, number [s], of an antenna in a channel block; [n] values per solution, [w] polarizations in the tables *)
Definition fill_solution (n_ant n_sub n w : nat) (t : list A) (ch a s : nat) (l : list A) : outcome (list A) :=
  loop (fun l p => let! x := element n_ant w t ch a p in put l (a * n_sub * n + s * n + p) x) (seq 0 n) l.
(** InitialSolutions.cc:172-199: the directions from number [d] on, of which the first sub-solution has number [done] *)
Fixpoint fill_directions (n_ant n_sub n w : nat) (t : nat -> list A) (ch a d done : nat) (subs : list nat) (l : list A) : outcome (list A) :=
  match subs with
  | [] => Ok l
  | k :: subs =>
      let! l := loop (fun l i => fill_solution n_ant n_sub n w (t d) ch a (done + i) l) (seq 0 k) l in
      fill_directions n_ant n_sub n w t ch a (S d) (done + k) subs l
  end.
(** InitialSolutions.cc:169-200: a channel block; [l] is what the vector has before *)
Definition fill_block (n_ant n w : nat) (subs : list nat) (t : nat -> list A) (ch : nat) (l : list A) : outcome (list A) :=
  let n_sub := n_solutions subs in
  loop (fun l a => fill_directions n_ant n_sub n w t ch a 0 0 subs l) (seq 0 n_ant) (resize (n_sub * n_ant * n) zero l).

(** InitialSolutions.cc:113-202: Read, with [tables] for separate tables, which schaapcommon gives as two polarizations, and [full] for full-Jones tables, which have four.
    The assignment of four polarizations to a view with another number (InitialSolutions.cc:134-138) is not defined here.  The directions are those of the settings. *)
Definition read (is_full : bool) (tables : list reading) (full : reading) (n : nat) (subs : list nat) (n_ant : nat) (data : list (list A)) : outcome (list (list A)) :=
  if is_full && negb (n =? 4) then Undefined
  else
    let n_freq := length data in
    let w := if is_full then 4 else 2 in
    let value d ch a p := if is_full then full d ch a p else product (map (fun f => f d ch a p) tables) in
    let t d := tensor n_freq n_ant w (value d) in
    (fix blocks (ch : nat) (data : list (list A)) : outcome (list (list A)) :=
       match data with
       | [] => Ok []
       | l :: data => let! l := fill_block n_ant n w subs t ch l in let! r := blocks (S ch) data in Ok (l :: r)
       end) 0 data.

(** DDECal.cc:516-521: unity in groups of four from number [i] on, at most [fuel] groups *)
Fixpoint unity (fuel i n : nat) (l : list A) : outcome (list A) :=
  match fuel with
  | 0 => Ok l
  | S fuel =>
      if n <=? i then Ok l
      else
        let! l := put l i one in
        let! l := put l (i + 1) zero in
        let! l := put l (i + 2) zero in
        let! l := put l (i + 3) one in
        unity fuel (i + 4) n l
  end.
(** DDECal.cc:506-530: without earlier solutions and without initial ones, for one channel block *)
Definition unit_block (n : nat) (subs : list nat) (n_ant : nat) (l : list A) : outcome (list A) :=
  let n_values := n_solutions subs * n_ant * n in
  if n =? 4 then unity n_values 0 n_values (resize n_values zero l) else Ok (repeat one n_values).
End Solutions.
