(** What the estimates of the gains of the stations should be. *)
From Coq Require Import Reals List Arith Bool.
From Verif Require Import RealCplx StefModel.
Import ListNotations.
Open Scope R_scope.

Definition rsum (l : list R) : R := fold_right Rplus 0 l.
Definition csum (l : list rc) : rc := fold_right radd rc0 l.

(** A visibility between the feed [pol2] of the station [st2] and the feed [pol1] of the station [st1] *)
Record place := Place { st2 : nat; pol2 : nat; time : nat; ch : nat; pol1 : nat; st1 : nat }.
Definition inside (c : config) (p : place) : Prop :=
  (st2 p < n_st c /\ pol2 p < 2 /\ time p < sol_int c /\ ch p < n_chan c /\ pol1 p < 2 /\ st1 p < n_st c)%nat.
Definition value (c : config) (v : nat -> rc) (p : place) : rc := v (position c (st2 p) (pol2 p) (time p) (ch p) (pol1 p) (st1 p)).
(** The unknown for the gain of a feed of a station: one per station, or one per feed *)
Definition unknown (c : config) (st pol : nat) : nat := if scalar c then st else (st + n_st c * pol)%nat.

(** ** Gains that are numbers *)
(** A list of all places whose second feed has the gain [u] *)
Definition lists_all (c : config) (u : nat) (l : list place) : Prop :=
  NoDup l /\ forall p, In p l <-> inside c p /\ unknown c (st1 p) (pol1 p) = u.
(** How far the data of these places are from the model, if the gain is [x] and those of the other side are [g] *)
Definition misfit (c : config) (vis mvis g : nat -> rc) (l : list place) (x : rc) : R :=
  rsum (map (fun p => rnorm (rsub (value c vis p) (rmul (rconj (g (unknown c (st2 p) (pol2 p)))) (rmul (value c mvis p) x)))) l).
(** The best value among those that are allowed, and it is the only one *)
Definition best (allowed : rc -> Prop) (cost : rc -> R) (x : rc) : Prop := allowed x /\ forall y, allowed y -> y <> x -> cost x < cost y.
(** What an estimate should be: the best gain, the best gain of amplitude one, or the amplitude of the best gain *)
Definition estimate (m : mode) (cost : rc -> R) (x : rc) : Prop :=
  match m with
  | PhaseOnly => best (fun y => rabs y = 1) cost x
  | AmplitudeOnly => exists y, best (fun _ => True) cost y /\ x = RC (rabs y) 0
  | _ => best (fun _ => True) cost x
  end.
(** The data are exactly those of the model with the gains [g] *)
Definition exact (c : config) (vis mvis g : nat -> rc) : Prop :=
  forall p, inside c p -> value c vis p = rmul (rconj (g (unknown c (st2 p) (pol2 p)))) (rmul (value c mvis p) (g (unknown c (st1 p) (pol1 p)))).
(** The gain of a mode *)
Definition allowed_gain (m : mode) (x : rc) : Prop :=
  match m with PhaseOnly => rabs x = 1 | AmplitudeOnly => 0 <= re x /\ im x = 0 | _ => True end.

(** ** Gains that are matrices, with the elements in the order of the rows *)
Definition el (g : nat -> rc) (row col : nat) : rc := g (2 * row + col)%nat.
Definition sum2 (f : nat -> rc) : rc := radd (f 0%nat) (f 1%nat).
(** An element of G^H M X *)
Definition predicted (g x : nat -> rc) (m : nat -> nat -> rc) (a b : nat) : rc :=
  sum2 (fun j => sum2 (fun k => rmul (rmul (rconj (el g j a)) (m j k)) (el x k b))).
(** All visibilities of a station *)
Definition lists_station (c : config) (st : nat) (l : list place) : Prop :=
  NoDup l /\ forall p, In p l <-> inside c p /\ st1 p = st.
Definition misfit_matrix (c : config) (vis mvis : nat -> rc) (g : gains) (l : list place) (x : nat -> rc) : R :=
  rsum (map (fun p => rnorm (rsub (value c vis p)
    (predicted (g (st2 p)) x (fun j k => value c mvis (Place (st2 p) j (time p) (ch p) k (st1 p))) (pol2 p) (pol1 p)))) l).
Definition exact_matrix (c : config) (vis mvis : nat -> rc) (g : gains) : Prop :=
  forall p, inside c p -> value c vis p =
    predicted (g (st2 p)) (g (st1 p)) (fun j k => value c mvis (Place (st2 p) j (time p) (ch p) k (st1 p))) (pol2 p) (pol1 p).

(** ** Solution intervals *)
(** The mean of the amplitudes of the gains that are there, of the diagonal elements if they are matrices *)
Definition mean_amplitude (c : config) (g : nat -> option (nat -> rc)) (m : R) : Prop :=
  let amplitudes := flat_map (fun ant => match g ant with None => [] | Some v => if (n_cr c =? 4)%nat then [rabs (v 0%nat); rabs (v 3%nat)] else [rabs (v 0%nat)] end) (seq 0 (n_un c)) in
  amplitudes <> [] /\ m * INR (length amplitudes) = rsum amplitudes.
(** The gain [x] for all feeds, without leakage *)
Definition only_amplitude (c : config) (x : R) (g : nat -> rc) : Prop :=
  if (n_cr c =? 4)%nat then g 0%nat = RC x 0 /\ g 1%nat = rc0 /\ g 2%nat = rc0 /\ g 3%nat = RC x 0 else g 0%nat = RC x 0.
