(** What the constraints of DDECal promise, without reference to how they are applied. *)
From Coq Require Import Reals List Arith.
From Verif Require Import RealCplx.
Import ListNotations.
Open Scope R_scope.

(** The finite numbers of a list *)
Definition finite (l : list (option rc)) : list rc := flat_map (fun x => match x with Some z => [z] | None => [] end) l.
(** r is the mean of the finite numbers of l, and not a number if there are none *)
Definition is_mean (l : list (option rc)) (r : option rc) : Prop :=
  (finite l = [] /\ r = None) \/
  (finite l <> [] /\ exists z, r = Some z /\ rscale (INR (length (finite l))) z = fold_right radd rc0 (finite l)).
(** Two groups have no member in common *)
Definition disjoint (a b : list nat) : Prop := forall x, In x a -> ~ In x b.
(** The number of the first sub-solution of a direction *)
Definition offset (subs : list nat) (k : nat) : nat := fold_right plus 0%nat (firstn k subs).
(** The sub-solutions of a direction with n of them that are averaged with sub-solution j, f at a time *)
Definition same_block (f n j : nat) : list nat := filter (fun i => (i / f =? j / f)%nat) (seq 0 n).

(** At least 20% (strictly more) of the n channels of an antenna have a solution *)
Definition has_fifth (n : nat) (s : nat -> option rc) : Prop :=
  exists l, NoDup l /\ (forall ch, In ch l <-> (ch < n)%nat /\ s ch <> None) /\ (n < 5 * length l)%nat.
(** The reference antenna is the first one with enough solutions, else antenna 0; s is for antenna and channel *)
Definition is_reference (n_ch n_ant : nat) (s : nat -> nat -> option rc) (ref : nat) : Prop :=
  ((ref < n_ant)%nat /\ has_fifth n_ch (s ref) /\ forall a, (a < ref)%nat -> ~ has_fifth n_ch (s a)) \/
  (ref = 0%nat /\ forall a, (a < n_ant)%nat -> ~ has_fifth n_ch (s a)).

(** The documented size of the kernel (DDECal.yml, smoothnessconstraint and what follows): it varies with the frequency, and is multiplied with the factors of antenna and direction *)
Definition kernel_size (size ref_freq exponent freq ant_factor dd_factor : R) : R :=
  size * (if Req_EM_T ref_freq 0 then 1 else Rpower (ref_freq / freq) exponent) * ant_factor * dd_factor.
(** A Gaussian kernel, cut off at its size if it is truncated *)
Definition gaussian (truncate : bool) (size x : R) : R :=
  if (if truncate then if Rlt_dec size (Rabs x) then true else false else false) then 0 else exp (- (9 * (x / size * (x / size)))).
(** Sums over the channels *)
Definition rsum (n : nat) (g : nat -> R) : R := fold_right (fun j acc => g j + acc) 0 (seq 0 n).
Definition csum (n : nat) (g : nat -> rc) : rc := fold_right (fun j acc => radd (g j) acc) rc0 (seq 0 n).
(** r is the mean of the finite solutions of all n channels with weight (k j * w j), and not a number if the weights add up to zero *)
Definition is_smoothed (n : nat) (s : nat -> option rc) (k w : nat -> R) (r : option rc) : Prop :=
  let weight := rsum n (fun j => match s j with Some _ => k j * w j | None => 0 end) in
  let sum := csum n (fun j => match s j with Some z => rscale (k j * w j) z | None => rc0 end) in
  (weight = 0 /\ r = None) \/ (weight <> 0 /\ exists z, r = Some z /\ rscale weight z = sum).
