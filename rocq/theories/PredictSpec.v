(** What a prediction is to give: the sum over all sources, each seen through the beam of its patch. *)
From Coq Require Import String List Bool Arith QArith Qcanon Permutation Sorted.
From Verif Require Import QcUtil Cplx PredictModel.
Import ListNotations.
Open Scope nat_scope.

Section Sum.
Context {V B S : Type}.
Variables (v0 : V) (vadd : V -> V -> V) (seen : B -> V -> B -> V) (antennas : nat -> nat * nat) (response : Qc -> nat -> nat -> nat -> B) (use_beam : bool) (interval : Qc).
(** What a source of a patch gives on a baseline and channel, with the beam at the time [te] *)
Definition contribution (sim : S -> nat -> nat -> V) (te : Qc) (bl ch : nat) (x : S * nat) : V :=
  let beam a := response te (snd x) a ch in
  if use_beam then seen (beam (fst (antennas bl))) (sim (fst x) bl ch) (beam (snd (antennas bl))) else sim (fst x) bl ch.
(** The sum *)
Definition total (sim : S -> nat -> nat -> V) (te : Qc) (sources : list (S * nat)) (bl ch : nat) : V := fold_right vadd v0 (map (contribution sim te bl ch) sources).
(** The beam is that of at most half the interval away *)
Definition near (time te : Qc) : Prop := (- interval <= (te - time) + (te - time))%Qc /\ ((te - time) + (te - time) <= interval)%Qc.
(** Addition of visibilities, and the beam of a sum *)
Definition additive : Prop :=
  (forall a b, vadd a b = vadd b a) /\ (forall a b c, vadd a (vadd b c) = vadd (vadd a b) c) /\ (forall a, vadd v0 a = a) /\
  (forall l r a b, seen l (vadd a b) r = vadd (seen l a r) (seen l b r)) /\ (forall l r, seen l v0 r = v0).
End Sum.

(** The ranges (first source, number of sources, thread) have all sources once, none is empty, and each has its own thread *)
Definition tiles {S} (sources : list (S * nat)) (n_threads : nat) (ranges : list (nat * nat * nat)) : Prop :=
  flat_map (fun r => firstn (snd (fst r)) (skipn (fst (fst r)) sources)) ranges = sources /\
  Forall (fun r => 0 < snd (fst r) /\ fst (fst r) < length sources /\ snd r < n_threads) ranges /\ NoDup (map snd ranges).
(** Times that do not decrease, starting after [t] *)
Fixpoint ascending (t : Qc) (l : list Qc) : Prop := match l with [] => True | x :: l => (t <= x)%Qc /\ ascending x l end.

(** * Where the visibilities go *)

(** All baselines and channels are there *)
Definition shaped (nb nc : nat) (c : list (list mat)) : Prop := length c = nb /\ Forall (fun r => length r = nc) c.
(** The visibility of a baseline and channel *)
Definition at_ (c : list (list mat)) (i k : nat) : option mat := match nth_error c i with Some r => nth_error r k | None => None end.
(** What the operation makes of the input [x] and the prediction [p], to which the corrections have been applied *)
Definition expected (op : operation) (x p : mat) : mat := match op with ReplaceBy => p | Add => madd x p | Subtract => msub x p end.
(** The sum of the predictions of several directions, each with its own correction, for a baseline and channel *)
Definition directions_sum (l : list ((nat -> nat -> mat -> mat) * list (list mat))) (i k : nat) : mat :=
  fold_right madd mzero (map (fun x => match at_ (snd x) i k with Some p => fst x i k p | None => mzero end) l).
