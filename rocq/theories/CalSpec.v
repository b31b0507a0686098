(** What the arrays of gain calibration, its solutions and the corrected data should be. *)
From Coq Require Import Reals List Arith Bool.
From Verif Require Import RealCplx StefModel StefSpec CalModel.
Import ListNotations.
Open Scope R_scope.

(** A correlation is that between a feed of the first and a feed of the second station of a baseline *)
Definition between (n_corr cr p q : nat) : Prop :=
  (n_corr = 4 /\ cr = 2 * p + q /\ p < 2 /\ q < 2 \/ n_corr = 2 /\ cr = p /\ q = p /\ p < 2 \/ n_corr = 1 /\ cr = 0 /\ p = 0 /\ q = 0)%nat.
(** A sample that takes part in the calibration *)
Definition used (s : setting) (l : list slot) (time bl ch a1 a2 : nat) (b : slot) : Prop :=
  nth_error l time = Some b /\ nth_error (baselines s) bl = Some (a1, a2) /\ selected s bl = true /\ a1 <> a2 /\ flag b bl ch = false /\ (ch < n_channels s)%nat.
(** The settings make sense *)
Definition sound (s : setting) : Prop :=
  (0 < cell_chan s <= n_channels s)%nat /\ (n_corr s = 1 \/ n_corr s = 2 \/ n_corr s = 4)%nat /\
  (forall a1 a2, In (a1, a2) (baselines s) -> a1 < stations s /\ a2 < stations s)%nat /\
  (forall i j a1 a2 b1 b2, nth_error (baselines s) i = Some (a1, a2) -> nth_error (baselines s) j = Some (b1, b2) -> (a1 = b1 /\ a2 = b2 \/ a1 = b2 /\ a2 = b1) -> i = j).
(** The value at a place of the arrays of the cell [f] *)
Definition stored (s : setting) (l : list slot) (f : nat) (p : place) (v : rc * rc) : Prop :=
  (exists bl ch cr b, used s l (time p) bl ch (st2 p) (st1 p) b /\ (f * cell_chan s + StefSpec.ch p = ch)%nat /\ between (n_corr s) cr (pol2 p) (pol1 p) /\
     v = (rscale (sqrt (weight b bl ch cr)) (data b bl ch cr), rscale (sqrt (weight b bl ch cr)) (model b bl ch cr))) \/
  (exists bl ch cr b, used s l (time p) bl ch (st1 p) (st2 p) b /\ (f * cell_chan s + StefSpec.ch p = ch)%nat /\ between (n_corr s) cr (pol1 p) (pol2 p) /\
     v = (rscale (sqrt (weight b bl ch cr)) (rconj (data b bl ch cr)), rscale (sqrt (weight b bl ch cr)) (rconj (model b bl ch cr)))) \/
  (v = (rc0, rc0) /\ ~ exists bl ch cr b, (f * cell_chan s + StefSpec.ch p = ch)%nat /\
     (used s l (time p) bl ch (st2 p) (st1 p) b /\ between (n_corr s) cr (pol2 p) (pol1 p) \/ used s l (time p) bl ch (st1 p) (st2 p) b /\ between (n_corr s) cr (pol1 p) (pol2 p))).

(** The data of a baseline are S1 M S2^H, with one number per station, one per feed, or matrices *)
Definition corrupted (s : setting) (jones : nat -> nat -> rc) (b : slot) (bl ch a1 a2 : nat) : Prop :=
  match s_mode s with
  | FullJones => n_corr s = 4%nat /\ forall p q, (p < 2)%nat -> (q < 2)%nat ->
      data b bl ch (2 * p + q) = sum2 (fun j => sum2 (fun k => rmul (rmul (el (jones a1) p j) (model b bl ch (2 * j + k))) (rconj (el (jones a2) q k))))
  | _ => forall cr p q, between (n_corr s) cr p q ->
      data b bl ch cr = rmul (rmul (jones a1 (if s_scalar s then 0 else p)%nat) (model b bl ch cr)) (rconj (jones a2 (if s_scalar s then 0 else q)%nat))
  end.
(** Weights are not negative; for matrices they are those of the sample *)
Definition fair_weights (s : setting) (b : slot) (bl ch : nat) : Prop :=
  match s_mode s with FullJones => forall cr, (cr < 4)%nat -> weight b bl ch cr = weight b bl ch 0 | _ => True end.
(** A channel is in one cell *)
Definition cell_of (s : setting) (ch f : nat) : Prop := (exists i, ch = f * cell_chan s + i /\ i < cell_size s f)%nat.
(** The gains of the estimation are the conjugate transposes of the Jones matrices *)
Definition agrees (s : setting) (c : config) (g : gains) (jones : nat -> nat -> rc) : Prop :=
  forall st, (st < stations s)%nat ->
  match s_mode s with
  | FullJones => forall i j, (i < 2)%nat -> (j < 2)%nat -> el (g st) i j = rconj (el (jones st) j i)
  | _ => forall p, (p < 2)%nat -> g (unknown c st p) 0%nat = rconj (jones st (if s_scalar s then 0 else p)%nat)
  end.
(** The gains of a station can be inverted *)
Definition invertible (s : setting) (c : config) (g : gains) (st : nat) : Prop :=
  match s_mode s with
  | FullJones => rsub (rmul (g st 0%nat) (g st 3%nat)) (rmul (g st 1%nat) (g st 2%nat)) <> rc0
  | _ => forall p, (p < 2)%nat -> g (unknown c st p) 0%nat <> rc0
  end.

(** ** Solution intervals *)
Section Step.
Context {buf sols memory : Type} (calibrate : memory -> list buf -> memory * sols).
(** The intervals are calibrated one after the other, each with the memory of the one before *)
Inductive calibrated : memory -> list (list buf) -> list sols -> Prop :=
| Done m : calibrated m [] []
| Next m m' l sol ls solutions : calibrate m l = (m', sol) -> calibrated m' ls solutions -> calibrated m (l :: ls) (sol :: solutions).
(** Intervals of [n] buffers; the last one may have less *)
Inductive intervals (n : nat) : list (list buf) -> Prop :=
| No_interval : intervals n []
| Last l : (0 < length l <= n)%nat -> intervals n [l]
| Whole l ls : length l = n -> intervals n ls -> intervals n (l :: ls).
End Step.
(** The buffers of all intervals, each corrected with the solutions of its own *)
Definition corrected {buf sols : Type} (apply_solution : buf -> sols -> buf) (ls : list (list buf)) (solutions : list sols) : list buf :=
  flat_map (fun '(l, sol) => map (fun b => apply_solution b sol) l) (combine ls solutions).
