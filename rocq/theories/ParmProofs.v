(** Proofs about the values of the parameters. *)
From Coq Require Import Qcanon List Arith Lia Bool QArith Qround Field.
From Verif Require Import QcUtil AverageModel GainModel InfoModel BeamModel BeamProofs AxisModel AxisSpec AxisProofs AxisProps SolveBufferProofs ParmModel ParmSpec.
Import ListNotations.
Open Scope Qc_scope.
Open Scope nat_scope.

(** * Polynomials *)
Lemma pow_S x n : (x ^ S n = x * x ^ n)%Qc.
Proof. reflexivity. Qed.
Lemma pow_plus x a b : (x ^ (a + b) = x ^ a * x ^ b)%Qc.
Proof. induction a as [|a IH]; cbn [Nat.add Qcpower]; [ring|]. rewrite IH. ring. Qed.
Lemma pow_mult x y n : ((x * y) ^ n = x ^ n * y ^ n)%Qc.
Proof. induction n as [|n IH]; cbn [Qcpower]; [ring|]. rewrite IH. ring. Qed.
Lemma qsum_seq_S (f : nat -> Qc) n : qsum (map f (seq 0 (S n))) = (qsum (map f (seq 0 n)) + f n)%Qc.
Proof. rewrite seq_S, map_app, qsum_app. cbn. ring. Qed.

Lemma qsum_one (f g : nat -> Qc) n k v : (k < n) -> (forall i, i <> k -> f i = g i) -> (f k = g k + v)%Qc ->
  qsum (map f (seq 0 n)) = (qsum (map g (seq 0 n)) + v)%Qc.
Proof.
  intros L N E. induction n as [|n IH]; [lia|]. rewrite !qsum_seq_S. destruct (Nat.eq_dec k n) as [->|D].
  - rewrite E. rewrite (qsum_map_ext f g); [ring|]. intros i I. apply in_seq in I. apply N. lia.
  - rewrite IH, (N n) by lia. ring.
Qed.
Lemma poly_add_at m n k jx jy v x y : jx < n -> jy < k ->
  poly (add_at m jx jy v) n k x y = (poly m n k x y + v * x ^ jx * y ^ jy)%Qc.
Proof.
  intros Lx Ly. unfold poly. apply (qsum_one _ _ _ jy); [exact Ly| |].
  - intros j D. apply qsum_map_ext. intros i _. unfold add_at. apply Nat.eqb_neq in D. rewrite D, andb_false_r. reflexivity.
  - apply (qsum_one _ _ _ jx); [exact Lx| |].
    + intros i D. unfold add_at. apply Nat.eqb_neq in D. rewrite D. reflexivity.
    + unfold add_at. rewrite !Nat.eqb_refl. cbn [andb]. ring.
Qed.

(** The sum over k <= j of (i over k) o^(j-k) x^k. *)
Fixpoint bsum (o x : Qc) (i j : nat) : Qc :=
  match j with 0 => pascal 0 i | S k => (pascal j i * x ^ j + o * bsum o x i k)%Qc end.

Lemma pascal_out i : forall j, i < j -> pascal j i = 0%Qc.
Proof.
  induction i as [|i IH]; intros [|j] L; try lia; cbn [pascal]; [reflexivity|].
  destruct (Nat.leb_spec j i); [lia|reflexivity].
Qed.
Lemma pascal_S j i : pascal (S j) (S i) = (pascal j i + pascal (S j) i)%Qc.
Proof.
  cbn [pascal]. destruct (Nat.leb_spec j i) as [L|L]; [reflexivity|].
  rewrite (pascal_out i j), (pascal_out i (S j)) by lia. ring.
Qed.
Lemma pascal_0 i : pascal 0 i = 1%Qc.
Proof. destruct i; reflexivity. Qed.
Lemma bsum_S o x i j : bsum o x (S i) (S j) = (x * bsum o x i j + bsum o x i (S j))%Qc.
Proof.
  induction j as [|j IH].
  - cbn [bsum]. rewrite pascal_S, !pascal_0. rewrite !pow_S. cbn [Qcpower]. ring.
  - change (bsum o x (S i) (S (S j))) with (pascal (S (S j)) (S i) * x ^ S (S j) + o * bsum o x (S i) (S j))%Qc.
    rewrite IH, pascal_S.
    change (bsum o x i (S (S j))) with (pascal (S (S j)) i * x ^ S (S j) + o * bsum o x i (S j))%Qc.
    change (bsum o x i (S j)) with (pascal (S j) i * x ^ S j + o * bsum o x i j)%Qc.
    rewrite (pow_S x (S j)). ring.
Qed.
Lemma binomial o x i : bsum o x i i = ((x + o) ^ i)%Qc.
Proof.
  induction i as [|i IH]; [reflexivity|]. rewrite bsum_S, IH.
  change (bsum o x i (S i)) with (pascal (S i) i * x ^ S i + o * bsum o x i i)%Qc.
  rewrite IH, pascal_out, !pow_S by lia. ring.
Qed.

Lemma loop_x_poly o ix jy n k x y : ix < n -> jy < k -> forall jx p m, jx <= ix ->
  poly (loop_x o ix jy jx p m) n k x y = (poly m n k x y + p * y ^ jy * bsum o x ix jx)%Qc.
Proof.
  intros Ln Lk. induction jx as [|jx IH]; intros p m L; cbn [loop_x].
  - rewrite poly_add_at by lia. cbn [bsum pascal Qcpower]. ring.
  - rewrite IH by lia. rewrite poly_add_at by lia. cbn [bsum]. ring.
Qed.
Lemma loop_y_poly ox oy ix iy n k x y : ix < n -> iy < k -> forall jy p m, jy <= iy ->
  poly (loop_y ox oy ix iy jy p m) n k x y = (poly m n k x y + p * (x + ox) ^ ix * bsum oy y iy jy)%Qc.
Proof.
  intros Ln Lk. induction jy as [|jy IH]; intros p m L; cbn [loop_y].
  - rewrite loop_x_poly by lia. rewrite binomial. cbn [bsum pascal Qcpower]. ring.
  - rewrite IH by lia. rewrite loop_x_poly by lia. rewrite binomial. cbn [bsum]. ring.
Qed.
Lemma poly_0 n k x y : poly (fun _ _ => 0%Qc) n k x y = 0%Qc.
Proof. unfold poly. apply qsum_map_0. intros j _. apply qsum_map_0. intros i _. ring. Qed.
Lemma shifted_poly ox oy c x y : poly (shifted ox oy c) (nx c) (ny c) x y = poly (elem c) (nx c) (ny c) (x + ox) (y + oy).
Proof.
  unfold shifted.
  assert (R : forall iy, iy < ny c -> forall n m, n <= nx c ->
    poly (fold_left (fun m ix => loop_y ox oy ix iy iy (elem c ix iy) m) (seq 0 n) m) (nx c) (ny c) x y =
    (poly m (nx c) (ny c) x y + qsum (map (fun i => elem c i iy * (x + ox) ^ i * (y + oy) ^ iy) (seq 0 n)))%Qc).
  { intros iy Ly. induction n as [|n IH]; intros m Ln; [cbn; ring|].
    rewrite seq_S, fold_left_app. cbn [fold_left]. rewrite loop_y_poly by (cbn; lia).
    rewrite IH by lia. rewrite binomial. rewrite map_app, qsum_app. cbn. ring. }
  assert (K : forall k, k <= ny c ->
    poly (fold_left (fun m iy => fold_left (fun m ix => loop_y ox oy ix iy iy (elem c ix iy) m) (seq 0 (nx c)) m) (seq 0 k) (fun _ _ => 0%Qc)) (nx c) (ny c) x y =
    qsum (map (fun j => qsum (map (fun i => (elem c i j * (x + ox) ^ i * (y + oy) ^ j)%Qc) (seq 0 (nx c)))) (seq 0 k))).
  { induction k as [|k IH]; intros L; [apply poly_0|].
    rewrite seq_S, fold_left_app. cbn [fold_left]. rewrite R by (cbn; lia). rewrite IH by lia.
    rewrite map_app, qsum_app. cbn. ring. }
  apply K. lia.
Qed.

Lemma build_nth n m f i j : i < n -> j < m -> nth_error (data (build n m f)) (i + j * n) = Some (f i j).
Proof.
  intros Li Lj. cbn [build data]. revert j Lj.
  assert (H : forall m s j, j < m -> nth_error (flat_map (fun j => map (fun i => f i j) (seq 0 n)) (seq s m)) (i + j * n) = Some (f i (s + j))).
  { clear m. induction m as [|m IH]; intros s j Lj; [lia|]. cbn [seq flat_map].
    destruct j as [|j].
    - rewrite nth_error_app1 by (rewrite map_length, seq_length; lia).
      replace (i + 0 * n) with i by lia. replace (s + 0) with s by lia. apply (map_nth_error (fun i => f i s)).
      rewrite (nth_error_nth' _ 0) by (rewrite seq_length; lia). rewrite seq_nth by lia. reflexivity.
    - rewrite nth_error_app2 by (rewrite map_length, seq_length; nia).
      rewrite map_length, seq_length. replace (i + S j * n - n) with (i + j * n) by nia.
      rewrite IH by lia. do 2 f_equal. lia. }
  intros j Lj. apply (H m 0 j Lj).
Qed.
Lemma elem_build n m f i j : i < n -> j < m -> elem (build n m f) i j = f i j.
Proof.
  intros Li Lj. unfold elem. cbn [nx build]. rewrite Nat.add_comm.
  apply nth_error_nth. apply build_nth; assumption.
Qed.
Lemma poly_ext c d n m x y : (forall i j, i < n -> j < m -> c i j = d i j) -> poly c n m x y = poly d n m x y.
Proof.
  intros H. unfold poly. apply qsum_map_ext. intros j Ij. apply qsum_map_ext. intros i Ii.
  apply in_seq in Ij, Ii. rewrite H by lia. reflexivity.
Qed.
Lemma scale2_poly c ox oy sx sy x y :
  poly (elem (scale2 c ox oy sx sy)) (nx c) (ny c) x y = poly (elem c) (nx c) (ny c) (x * sx + ox) (y * sy + oy).
Proof.
  unfold scale2. rewrite <- shifted_poly. unfold poly.
  apply qsum_map_ext. intros j Ij. apply qsum_map_ext. intros i Ii. apply in_seq in Ij, Ii.
  rewrite elem_build by lia. rewrite !pow_mult. ring.
Qed.

Lemma horner_sum c x : forall i s, horner c x i s = (s * x ^ i + qsum (map (fun k => c k * x ^ k) (seq 0 (S i))))%Qc.
Proof.
  induction i as [|i IH]; intros s.
  - cbn [horner]. cbn. ring.
  - cbn [horner]. rewrite IH. rewrite (qsum_seq_S _ (S i)). rewrite pow_S. ring.
Qed.
Lemma polynomial_poly a x y : 0 < nx a -> polynomial a x y = poly (elem a) (nx a) (ny a) x y.
Proof.
  intros L. unfold polynomial, poly.
  assert (H : forall m, fold_left (fun '(yp, val) j => (yp * y, val + yp * horner (fun i => elem a i j) x (nx a - 1) 0)%Qc) (seq 0 m) (1, 0)%Qc =
    (y ^ m, qsum (map (fun j => qsum (map (fun i => elem a i j * x ^ i * y ^ j) (seq 0 (nx a)))) (seq 0 m)))%Qc).
  { induction m as [|m IH]; [reflexivity|]. rewrite seq_S, fold_left_app, IH. cbn [fold_left Nat.add].
    rewrite horner_sum, map_app, qsum_app. cbn [map]. rewrite qsum_cons, qsum_nil. f_equal; [rewrite pow_S; ring|].
    replace (S (nx a - 1)) with (nx a) by lia.
    replace (qsum (map (fun i => elem a i m * x ^ i * y ^ m) (seq 0 (nx a))))%Qc
      with (y ^ m * qsum (map (fun k => elem a k m * x ^ k) (seq 0 (nx a))))%Qc; [ring|].
    rewrite <- qsum_map_mult. apply qsum_map_ext. intros i _. ring. }
  rewrite H. reflexivity.
Qed.
Lemma elem_coefficients a i j : elem a i j = coefficients (nx a) (data a) i j.
Proof. unfold elem, coefficients. f_equal. lia. Qed.

(** A polynomial of one coefficient in x does not depend on x. *)
Lemma poly_x1 c m x x' y : poly c 1 m x y = poly c 1 m x' y.
Proof. unfold poly. apply qsum_map_ext. intros j _. cbn. ring. Qed.
Lemma poly_y1 c n x y y' : poly c n 1 x y = poly c n 1 x y'.
Proof. unfold poly. cbn [seq map]. rewrite !qsum_cons, !qsum_nil. apply (f_equal (fun z => z + 0)%Qc). apply qsum_map_ext. intros i _. cbn. ring. Qed.

Lemma rescale_nx c sx ex sy ey old : nx (rescale c sx ex sy ey old) = nx c.
Proof. unfold rescale. destruct (_ || _); reflexivity. Qed.
Lemma rescale_ny c sx ex sy ey old : ny (rescale c sx ex sy ey old) = ny c.
Proof. unfold rescale. destruct (_ || _); reflexivity. Qed.

Lemma rescale_poly c sx ex sy ey old x y :
  lower_x old <> upper_x old -> lower_y old <> upper_y old -> sx <> ex -> sy <> ey ->
  poly (elem (rescale c sx ex sy ey old)) (nx c) (ny c) (scaled sx ex x) (scaled sy ey y) =
  poly (elem c) (nx c) (ny c) (scaled (lower_x old) (upper_x old) x) (scaled (lower_y old) (upper_y old) y).
Proof.
  intros Dx Dy Nx Ny. unfold rescale, empty_box.
  destruct (near_spec (lower_x old) (upper_x old)) as [E|_]; [now elim Dx|].
  destruct (near_spec (lower_y old) (upper_y old)) as [E|_]; [now elim Dy|]. cbn [orb].
  destruct (Nat.eqb_spec (nx c * ny c) 1) as [E|_].
  { cbn [orb]. apply Nat.eq_mul_1 in E as [-> ->].
    rewrite (poly_x1 _ _ _ (scaled (lower_x old) (upper_x old) x)).
    apply poly_y1. }
  destruct ((nx c =? 1) && near sy (lower_y old) && near ey (upper_y old)) eqn:E1.
  { cbn [orb]. apply andb_true_iff in E1 as [E1 E3]. apply andb_true_iff in E1 as [E1 E2]. apply Nat.eqb_eq in E1.
    destruct (near_spec sy (lower_y old)) as [->|]; [|discriminate].
    destruct (near_spec ey (upper_y old)) as [->|]; [|discriminate].
    rewrite E1. apply poly_x1. }
  destruct ((ny c =? 1) && near sx (lower_x old) && near ex (upper_x old)) eqn:E2.
  { cbn [orb]. apply andb_true_iff in E2 as [E2 E4]. apply andb_true_iff in E2 as [E2 E3]. apply Nat.eqb_eq in E2.
    destruct (near_spec sx (lower_x old)) as [->|]; [|discriminate].
    destruct (near_spec ex (upper_x old)) as [->|]; [|discriminate].
    rewrite E2. apply poly_y1. }
  cbn [orb]. rewrite scale2_poly. unfold scaled.
  assert (H : forall a b : Qc, a <> b -> (b - a)%Qc <> 0%Qc).
  { intros a b N E. apply N. assert (a = b - (b - a))%Qc by ring. rewrite E in H. rewrite H. ring. }
  f_equal; field; auto.
Qed.

(** * Grids *)
Lemma nth_error_grid {A B} (f : A -> B -> Qc) (l : list A) (m : list B) i j a b :
  nth_error l i = Some a -> nth_error m j = Some b ->
  nth_error (flat_map (fun y => map (fun x => f x y) l) m) (i + j * length l) = Some (f a b).
Proof.
  revert j. induction m as [|y m IH]; intros [|j] Ha Hb; cbn [flat_map nth_error] in *; try discriminate.
  - injection Hb as ->. assert (i < length l) by (apply nth_error_Some; congruence).
    rewrite nth_error_app1 by (rewrite map_length; lia).
    replace (i + 0 * length l) with i by lia. apply (map_nth_error (fun x => f x b)). exact Ha.
  - rewrite nth_error_app2 by (rewrite map_length; lia). rewrite map_length.
    replace (i + S j * length l - length l) with (i + j * length l) by lia. auto.
Qed.
Lemma grid_length {A B} (f : A -> B -> Qc) (l : list A) (m : list B) :
  length (flat_map (fun y => map (fun x => f x y) l) m) = length l * length m.
Proof. induction m as [|y m IH]; cbn; [lia|]. rewrite app_length, map_length, IH. lia. Qed.


(** What holds after a loop: either it has done all its turns, or one of them has
   thrown. *)
Lemma loop_spec {S A} (f : S -> A -> outcome S) (I : S -> Prop) (D : S -> A -> Prop) (K : S -> S -> Prop) (Bad : A -> Prop) :
  (forall s, K s s) -> (forall s r t, K s r -> K r t -> K s t) -> (forall s r x, K s r -> D s x -> D r x) ->
  forall l s,
  (forall s x, In x l -> I s -> match f s x with Ok r => I r /\ D r x /\ K s r | Throw => Bad x | Undefined => False end) ->
  I s ->
  match loop f l s with
  | Ok r => I r /\ (forall x, In x l -> D r x) /\ K s r
  | Throw => exists x, In x l /\ Bad x
  | Undefined => False
  end.
Proof.
  intros Kr Kt Km. induction l as [|x l IH]; cbn [loop]; intros s H Is.
  - repeat split; auto. intros x [].
  - pose proof (H s x (or_introl eq_refl) Is) as Hx. destruct (f s x) as [s'| |]; cbn [bind]; [|exists x; cbn; auto|exact Hx].
    destruct Hx as (I1 & D1 & K1).
    specialize (IH s' (fun t y Iy => H t y (or_intror Iy)) I1).
    destruct (loop f l s') as [r| |]; [|destruct IH as (y & Iy & By); exists y; cbn; auto|exact IH].
    destruct IH as (I2 & D2 & K2). repeat split; eauto.
    intros y [<-|Iy]; eauto.
Qed.

Section Fill.
Variables (px py : list cell).
Let nrx := length px.
(** The values of the cells of the predict grid. *)
Variable value : nat -> nat -> Qc -> Prop.

(** Every element that has been set is right. *)
Definition right_so_far (res : list (option Qc)) : Prop :=
  length res = nrx * length py /\
  forall ix iy x, ix < nrx -> iy < length py -> nth_error res (ix + iy * nrx) = Some (Some x) -> value ix iy x.
(** An element has been set. *)
Definition done (res : list (option Qc)) (ix iy : nat) : Prop := exists x, nth_error res (ix + iy * nrx) = Some (Some x).
(** Elements stay set. *)
Definition kept (res res' : list (option Qc)) : Prop := forall a b, done res a b -> done res' a b.
(** There is no value for a cell. *)
Definition lost (ix iy : nat) : Prop := ix < nrx /\ iy < length py /\ forall x, ~ value ix iy x.

Lemma kept_refl r : kept r r. Proof. red. auto. Qed.
Lemma kept_trans r s t : kept r s -> kept s t -> kept r t. Proof. unfold kept. auto. Qed.

Lemma set_nth_length {A} (l : list A) i v : length (set_nth l i v) = length l.
Proof. revert i. induction l as [|z l IH]; intros [|i]; cbn; auto. Qed.

Lemma set_right res ix iy x : right_so_far res -> ix < nrx -> iy < length py -> value ix iy x ->
  right_so_far (set_nth res (iy * nrx + ix) (Some x)) /\
  done (set_nth res (iy * nrx + ix) (Some x)) ix iy /\
  kept res (set_nth res (iy * nrx + ix) (Some x)).
Proof.
  intros [L R] Lx Ly V. assert (B : iy * nrx + ix < length res) by (rewrite L; nia).
  split; [split|split].
  - rewrite set_nth_length. exact L.
  - intros a b z La Lb N. rewrite nth_error_set_nth in N. destruct (Nat.eqb_spec (iy * nrx + ix) (a + b * nrx)) as [E|D].
    + assert (iy = b) by nia. subst b. assert (ix = a) by nia. subst a.
      apply Nat.ltb_lt in B. rewrite B in N. cbn in N. congruence.
    + cbn [andb] in N. apply R; auto.
  - exists x. rewrite nth_error_set_nth. replace (ix + iy * nrx) with (iy * nrx + ix) by lia.
    rewrite Nat.eqb_refl. apply Nat.ltb_lt in B. rewrite B. reflexivity.
  - intros a b (z & D). red. rewrite nth_error_set_nth. destruct (_ && _); [exists x|exists z]; auto.
Qed.

(** A ParmValue of which the values fit its grid. *)
Definition good (v : parm_value) : Prop :=
  ordered (grid_x v) /\ ordered (grid_y v) /\ length (data (values v)) = length (grid_x v) * length (grid_y v).

(** v holds the value of the cell. *)
Definition holds_value (v : parm_value) (ix iy : nat) : Prop :=
  exists cx cy, nth_error px ix = Some cx /\ nth_error py iy = Some cy /\
  forall x, value ix iy x <-> value_at (grid_x v) (grid_y v) (data (values v)) (center cx) (center cy) x.

Lemma fill_cell_spec v iy iny cy dy st ix :
  good v -> right_so_far (fst st) -> holds_value v ix iy ->
  nth_error py iy = Some cy -> nth_error (grid_y v) iny = Some dy -> inside true (center cy) dy ->
  match fill_cell v px nrx iy iny st ix with
  | Ok r => right_so_far (fst r) /\ done (fst r) ix iy /\ kept (fst st) (fst r)
  | Throw => lost ix iy
  | Undefined => False
  end.
Proof.
  intros (Ox & Oy & Lv) R (cx & cy' & Nx & Ny & V) Cy Dy Iy. rewrite Cy in Ny. injection Ny as <-.
  assert (Lx : ix < nrx) by (apply nth_error_Some; congruence).
  assert (Ly : iy < length py) by (apply nth_error_Some; congruence).
  unfold fill_cell, get. rewrite Nx. cbn [bind].
  pose proof (C92_locate (grid_x v) (center cx) true (snd st) Ox) as (LO & LT).
  destruct (locate (grid_x v) (center cx) true (snd st)) as [i| |] eqn:E; cbn [bind].
  - destruct (proj1 (LO i) eq_refl) as (dx & Dx & Ix).
    assert (i < length (grid_x v)) by (apply nth_error_Some; congruence).
    assert (iny < length (grid_y v)) by (apply nth_error_Some; congruence).
    destruct (nth_error (data (values v)) (iny * length (grid_x v) + i)) as [x|] eqn:Ex.
    + cbn [bind fst]. apply set_right; auto. apply V. exists i, iny, dx, dy. repeat split; auto; try apply Ix; try apply Iy.
      rewrite <- Ex. f_equal. lia.
    + apply nth_error_None in Ex. rewrite Lv in Ex. nia.
  - repeat split; auto. intros x Hx. apply V in Hx as (i & j & dx & dy' & Dx & Ix & _).
    apply (proj1 LT eq_refl dx); auto. eapply nth_error_In; eauto.
  - unfold locate in E. destruct (snd _); discriminate.
Qed.

Lemma fill_row_spec v stx endx st iy cy :
  good v -> right_so_far (fst (fst st)) -> nth_error py iy = Some cy -> endx <= nrx -> stx < endx ->
  (forall ix, stx <= ix < endx -> holds_value v ix iy) ->
  match fill_row v px py nrx stx endx st iy with
  | Ok r => right_so_far (fst (fst r)) /\ (forall ix, stx <= ix < endx -> done (fst (fst r)) ix iy) /\ kept (fst (fst st)) (fst (fst r))
  | Throw => exists ix, stx <= ix < endx /\ lost ix iy
  | Undefined => False
  end.
Proof.
  intros G R Cy Le Ls V. destruct st as [[res inx] iny]. cbn [fst snd] in R |- *.
  unfold fill_row, get. rewrite Cy. cbn [bind].
  assert (Oy : ordered (grid_y v)) by apply G.
  pose proof (C92_locate (grid_y v) (center cy) true iny Oy) as (LO & LT).
  destruct (locate (grid_y v) (center cy) true iny) as [j| |] eqn:E; cbn [bind].
  - destruct (proj1 (LO j) eq_refl) as (dy & Dy & Iy).
    pose proof (loop_spec (fill_cell v px nrx iy j) (fun st => right_so_far (fst st)) (fun st ix => done (fst st) ix iy)
      (fun a b => kept (fst a) (fst b)) (fun ix => lost ix iy)) as H.
    specialize (H (fun s => kept_refl (fst s)) (fun s r t => kept_trans (fst s) (fst r) (fst t)) (fun s r x K D => K x iy D)
      (seq stx (endx - stx)) (res, inx)).
    destruct (loop _ _ _) as [r| |]; cbn [bind fst snd].
    + destruct H as (H1 & H2 & H3); auto.
      { intros s ix Ix Rs. apply in_seq in Ix. apply (fill_cell_spec v iy j cy dy); auto. apply V. lia. }
      repeat split; try apply H1; auto. intros ix B. apply H2. apply in_seq. lia.
    + destruct H as (ix & B & H); auto.
      { intros s ix Ix Rs. apply in_seq in Ix. apply (fill_cell_spec v iy j cy dy); auto. apply V. lia. }
      apply in_seq in B. exists ix. split; [lia|exact H].
    + apply H; auto.
      intros s ix Ix Rs. apply in_seq in Ix. apply (fill_cell_spec v iy j cy dy); auto. apply V. lia.
  - exists stx. split; [lia|]. destruct (V stx) as (cx & cy' & Nx & Ny & Vx); [lia|].
    rewrite Cy in Ny. injection Ny as <-. repeat split.
    + apply nth_error_Some. congruence.
    + apply nth_error_Some. congruence.
    + intros x Hx. apply Vx in Hx as (i & k & dx & dy & _ & _ & Dy & Iy & _).
      apply (proj1 LT eq_refl dy); auto. eapply nth_error_In; eauto.
  - unfold locate in E. destruct (snd _); discriminate.
Qed.

Lemma fill_array_spec v stx sty endx endy res :
  good v -> right_so_far res -> endx <= nrx -> stx < endx -> endy <= length py ->
  (forall ix iy, stx <= ix < endx -> sty <= iy < endy -> holds_value v ix iy) ->
  match fill_array v px py nrx stx sty endx endy res with
  | Ok r => right_so_far r /\ (forall ix iy, stx <= ix < endx -> sty <= iy < endy -> done r ix iy) /\ kept res r
  | Throw => exists ix iy, stx <= ix < endx /\ sty <= iy < endy /\ lost ix iy
  | Undefined => False
  end.
Proof.
  intros G R Le Ls Ly V. unfold fill_array.
  pose proof (loop_spec (fill_row v px py nrx stx endx) (fun st => right_so_far (fst (fst st)))
    (fun st iy => forall ix, stx <= ix < endx -> done (fst (fst st)) ix iy)
    (fun a b => kept (fst (fst a)) (fst (fst b))) (fun iy => exists ix, stx <= ix < endx /\ lost ix iy)) as H.
  specialize (H (fun s => kept_refl (fst (fst s))) (fun s r t => kept_trans (fst (fst s)) (fst (fst r)) (fst (fst t)))
    (fun s r x K D ix B => K ix x (D ix B)) (seq sty (endy - sty)) (res, 0, 0)).
  assert (T : forall (s0 : list (option Qc) * nat * nat) (x : nat), In x (seq sty (endy - sty)) -> right_so_far (fst (fst s0)) ->
    match fill_row v px py nrx stx endx s0 x with
    | Ok r => right_so_far (fst (fst r)) /\ (forall ix, stx <= ix < endx -> done (fst (fst r)) ix x) /\ kept (fst (fst s0)) (fst (fst r))
    | Throw => exists ix, stx <= ix < endx /\ lost ix x
    | Undefined => False
    end).
  { intros s0 iy I R0. apply in_seq in I.
    destruct (nth_error py iy) as [cy|] eqn:Cy; [|apply nth_error_None in Cy; lia].
    apply (fill_row_spec v stx endx s0 iy cy); auto. intros ix B. apply V; lia. }
  specialize (H T R). clear T.
  destruct (loop _ _ _) as [r| |]; cbn [bind fst snd].
  - destruct H as (H1 & H2 & H3). split; [exact H1|split; [|exact H3]]. intros ix iy Bx By. apply H2; [apply in_seq; lia|exact Bx].
  - destruct H as (iy & I & ix & B & L). apply in_seq in I. exists ix, iy. repeat split; try lia; apply L.
  - exact H.
Qed.

End Fill.

(** The parts of a mapping. *)
Fixpoint chain (m : list nat) (st : nat) (l : list nat) (n : nat) : Prop :=
  match l with
  | [] => st = n
  | e :: l => st < e /\ e <= n /\ (forall k, st <= k < e -> nth_error m k = nth_error m st) /\ chain m e l n
  end.

Lemma chain_of m b : m <> [] -> borders_of m b -> chain m 0 b (length m).
Proof.
  intros N (Sorted & Mem).
  assert (H : forall l st, st <= length m ->
    (forall i j x y, i < j -> nth_error l i = Some x -> nth_error l j = Some y -> x < y) ->
    (forall x, In x l <-> st < x /\ In x b) -> chain m st l (length m)).
  { induction l as [|e l IH]; intros st Ls So Me; cbn [chain].
    - destruct (Nat.eq_dec st (length m)) as [|D]; auto. exfalso.
      apply (proj2 (Me (length m))). split; [lia|]. apply Mem. auto.
    - destruct (proj1 (Me e) (or_introl eq_refl)) as (L1 & L2). apply Mem in L2 as L3.
      assert (Le : e <= length m) by lia. repeat split; auto.
      + intros k B. assert (Hk : forall d, st + d < e -> nth_error m (st + d) = nth_error m st).
        { induction d as [|d IHd]; intros Ld; [f_equal; lia|]. rewrite <- IHd by lia.
          assert (ED : {nth_error m (st + d) = nth_error m (st + S d)} + {nth_error m (st + d) <> nth_error m (st + S d)}) by (decide equality; apply Nat.eq_dec).
          destruct ED as [E|D]; [auto|].
          exfalso. assert (In (st + S d) (e :: l)).
          { apply Me. split; [lia|]. apply Mem. right. split; [lia|]. replace (st + S d - 1) with (st + d) by lia. exact D. }
          destruct H as [H|H]; [lia|]. apply In_nth_error in H as (i & H). specialize (So 0 (S i) e (st + S d)). cbn in So. specialize (So ltac:(lia) eq_refl H). lia. }
        specialize (Hk (k - st)). replace (st + (k - st)) with k in Hk by lia. apply Hk. lia.
      + apply IH; auto.
        * intros i j x y Lij Hx Hy. apply (So (S i) (S j)); cbn; auto. lia.
        * intros x. split.
          -- intros I. split; [|apply (Me x); cbn; auto]. apply In_nth_error in I as (i & I). apply (So 0 (S i) e x); cbn; auto. lia.
          -- intros (Lx & Ix). destruct (proj2 (Me x)) as [E|I]; [split; [lia|auto]|lia|exact I]. }
  apply H; [lia|exact Sorted|]. intros x. split; [|tauto].
  intros I. split; auto. apply Mem in I as [->|[? ?]]; [|lia].
  destruct m; [now elim N|cbn; lia].
Qed.

Section Multi.
Variables (s : value_set) (px py : list cell) (mapx mapy bordersx : list nat).
Hypothesis good_values : forall v, In v (parm_values s) -> good v.
Hypothesis number : length (parm_values s) = length (domain_x s) * length (domain_y s).
Hypothesis lx : length mapx = length px.
Hypothesis ly : length mapy = length py.
Hypothesis inx : forall m, In m mapx -> m < length (domain_x s).
Hypothesis iny : forall m, In m mapy -> m < length (domain_y s).
Hypothesis bx : chain mapx 0 bordersx (length px).

(** The value of a cell: that of the ParmValue of its domain. *)
Definition cell_value (ix iy : nat) (x : Qc) : Prop :=
  exists cx cy mx my v,
    nth_error px ix = Some cx /\ nth_error py iy = Some cy /\
    nth_error mapx ix = Some mx /\ nth_error mapy iy = Some my /\
    nth_error (parm_values s) (mx + my * length (domain_x s)) = Some v /\
    value_at (grid_x v) (grid_y v) (data (values v)) (center cx) (center cy) x.

Lemma cell_holds ix iy mx my v :
  nth_error mapx ix = Some mx -> nth_error mapy iy = Some my ->
  nth_error (parm_values s) (mx + my * length (domain_x s)) = Some v ->
  holds_value px py cell_value v ix iy.
Proof.
  intros Mx My V.
  assert (ix < length px) by (rewrite <- lx; apply nth_error_Some; congruence).
  assert (iy < length py) by (rewrite <- ly; apply nth_error_Some; congruence).
  destruct (nth_error px ix) as [cx|] eqn:Cx; [|apply nth_error_None in Cx; lia].
  destruct (nth_error py iy) as [cy|] eqn:Cy; [|apply nth_error_None in Cy; lia].
  exists cx, cy. split; [exact Cx|split; [exact Cy|]]. intros x. split.
  - intros (cx' & cy' & mx' & my' & v' & H1 & H2 & H3 & H4 & H5 & H6).
    rewrite Cx in H1. injection H1 as <-. rewrite Cy in H2. injection H2 as <-.
    rewrite Mx in H3. injection H3 as <-. rewrite My in H4. injection H4 as <-.
    rewrite V in H5. injection H5 as <-. exact H6.
  - intros H6. exists cx, cy, mx, my, v. auto 10.
Qed.

Lemma parts_x my sty endy : endy <= length py -> sty < endy ->
  (forall iy, sty <= iy < endy -> nth_error mapy iy = Some my) ->
  forall l res stx, chain mapx stx l (length px) -> right_so_far px py cell_value res ->
  match loop (fill_part s px py mapx my sty endy) l (res, stx) with
  | Ok r => right_so_far px py cell_value (fst r) /\
            (forall ix iy, stx <= ix < length px -> sty <= iy < endy -> done px (fst r) ix iy) /\ kept px res (fst r)
  | Throw => exists ix iy, lost px py cell_value ix iy
  | Undefined => False
  end.
Proof.
  intros Le Ls My. induction l as [|e l IH]; intros res stx C R; cbn [loop chain] in *.
  - subst stx. cbn [fst]. split; [exact R|split; [intros; lia|apply kept_refl]].
  - destruct C as (L1 & L2 & Const & C). unfold fill_part at 1, get.
    destruct (nth_error mapx stx) as [mx|] eqn:Mx; [|apply nth_error_None in Mx; lia]. cbn [bind].
    assert (Bmx : mx < length (domain_x s)) by (apply inx; eapply nth_error_In; eauto).
    assert (Bmy : my < length (domain_y s)) by (apply iny; apply (nth_error_In mapy sty); apply My; lia).
    rewrite (Nat.mul_comm (length (domain_x s)) my).
    destruct (nth_error (parm_values s) (mx + my * length (domain_x s))) as [v|] eqn:V; [|apply nth_error_None in V; rewrite number in V; nia].
    cbn [bind].
    pose proof (fill_array_spec px py cell_value v stx sty e endy res) as H.
    specialize (H (good_values v (nth_error_In _ _ V)) R L2 L1 Le).
    assert (HV : forall ix iy, stx <= ix < e -> sty <= iy < endy -> holds_value px py cell_value v ix iy).
    { intros ix iy Bx By. apply (cell_holds ix iy mx my); auto. }
    specialize (H HV). destruct (fill_array v px py (length px) stx sty e endy res) as [res'| |]; cbn [bind].
    + destruct H as (R1 & D1 & K1). specialize (IH res' e C R1).
      destruct (loop _ l _) as [r| |]; auto. destruct IH as (R2 & D2 & K2).
      split; [exact R2|split; [|eapply kept_trans; eauto]].
      intros ix iy Bx By. destruct (Nat.lt_ge_cases ix e); [apply K2, D1; lia|apply D2; lia].
    + destruct H as (ix & iy & _ & _ & L). eauto.
    + exact H.
Qed.

Lemma parts_y : forall l res sty, chain mapy sty l (length py) -> right_so_far px py cell_value res ->
  match loop (fill_parts s px py mapx bordersx mapy) l (res, sty) with
  | Ok r => right_so_far px py cell_value (fst r) /\
            (forall ix iy, ix < length px -> sty <= iy < length py -> done px (fst r) ix iy) /\ kept px res (fst r)
  | Throw => exists ix iy, lost px py cell_value ix iy
  | Undefined => False
  end.
Proof.
  induction l as [|e l IH]; intros res sty C R; cbn [loop chain] in *.
  - subst sty. cbn [fst]. split; [exact R|split; [intros; lia|apply kept_refl]].
  - destruct C as (L1 & L2 & Const & C). unfold fill_parts at 1, get.
    destruct (nth_error mapy sty) as [my|] eqn:My; [|apply nth_error_None in My; lia]. cbn [bind].
    pose proof (parts_x my sty e L2 L1) as H. specialize (H (fun iy B => Const iy B) bordersx res 0 bx R).
    destruct (loop (fill_part s px py mapx my sty e) bordersx (res, 0)) as [r1| |]; cbn [bind].
    + destruct H as (R1 & D1 & K1). specialize (IH (fst r1) e C R1).
      destruct (loop _ l _) as [r| |]; auto. destruct IH as (R2 & D2 & K2).
      split; [exact R2|split; [|eapply kept_trans; eauto]].
      intros ix iy Bx By. destruct (Nat.lt_ge_cases iy e); [apply K2, D1; lia|apply D2; lia].
    + exact H.
    + exact H.
Qed.
End Multi.

Lemma index_of n m k : k < n * m -> exists i j, i < n /\ j < m /\ k = i + j * n.
Proof.
  intros L. assert (n <> 0) by nia. exists (k mod n), (k / n). split; [apply Nat.mod_upper_bound; auto|].
  split; [apply Nat.div_lt_upper_bound; auto|]. rewrite (Nat.div_mod k n) at 1 by auto. lia.
Qed.

Lemma mapping_bounds a b mapping borders centers : a <> [] -> b <> [] -> ordered b ->
  axis_mapping a b = (mapping, borders, centers) ->
  length mapping = length a /\ (forall m, In m mapping -> m < length b) /\ chain mapping 0 borders (length a).
Proof.
  intros Na Nb O E. destruct (C92_mapping a b mapping borders centers Na Nb O E) as (L & _ & M & B).
  split; [exact L|split].
  - intros m I. apply In_nth_error in I as (i & I).
    destruct (nth_error a i) as [c|] eqn:C; [|apply nth_error_None in C; assert (i < length mapping) by (apply nth_error_Some; congruence); lia].
    destruct (M i c C) as (m' & d & H1 & H2 & _). rewrite I in H1. injection H1 as <-. apply H2.
  - rewrite <- L. apply chain_of; [|exact B]. intros ->. cbn in L. destruct a; [now elim Na|discriminate].
Qed.

(** The result of more than one ParmValue. *)
Lemma multi_spec s px py : px <> [] -> py <> [] ->
  ordered (domain_x s) -> ordered (domain_y s) -> domain_x s <> [] -> domain_y s <> [] ->
  (forall v, In v (parm_values s) -> good v) ->
  length (parm_values s) = length (domain_x s) * length (domain_y s) ->
  let value ix iy := cell_value s px py (fst (fst (axis_mapping px (domain_x s)))) (fst (fst (axis_mapping py (domain_y s)))) ix iy in
  match result_multi s px py with
  | Ok r => nx r = length px /\ ny r = length py /\ length (data r) = length px * length py /\
            forall ix iy, ix < length px -> iy < length py -> exists x, nth_error (data r) (ix + iy * length px) = Some x /\ value ix iy x
  | Throw => exists ix iy, ix < length px /\ iy < length py /\ forall x, ~ value ix iy x
  | Undefined => False
  end.
Proof.
  intros Nx Ny Ox Oy Dx Dy G L value. unfold result_multi. subst value.
  destruct (axis_mapping px (domain_x s)) as [[mapx bordersx] cenx] eqn:Ex.
  destruct (axis_mapping py (domain_y s)) as [[mapy bordersy] ceny] eqn:Ey. cbn [fst].
  destruct (mapping_bounds _ _ _ _ _ Nx Dx Ox Ex) as (Lx & Bx & Cx).
  destruct (mapping_bounds _ _ _ _ _ Ny Dy Oy Ey) as (Ly & By & Cy).
  assert (R0 : right_so_far px py (cell_value s px py mapx mapy) (repeat None (length px * length py))).
  { split; [apply repeat_length|]. intros ix iy x _ _ H. apply nth_error_In in H. apply repeat_spec in H. discriminate. }
  pose proof (parts_y s px py mapx mapy bordersx G L Lx Ly Bx By Cx bordersy _ 0 Cy R0) as H.
  destruct (loop _ _ _) as [r| |]; cbn [bind]; [| |exact H].
  - destruct H as ((R1 & R2) & D & _).
    assert (exists d, each is_set (fst r) = Ok d) as (d & E).
    { apply each_total. intros o I. apply In_nth_error in I as (k & I).
      assert (B : k < length (fst r)) by (apply nth_error_Some; congruence). rewrite R1 in B.
      apply index_of in B as (i & j & Li & Lj & ->). destruct (D i j Li) as (x & Hx); [lia|].
      rewrite Hx in I. injection I as <-. exists x. reflexivity. }
    rewrite E. cbn [bind nx ny data]. apply each_ok in E.
    split; [reflexivity|split; [reflexivity|]]. split.
    + rewrite <- (Forall2_length _ _ _ E). exact R1.
    + intros ix iy Li Lj. destruct (D ix iy Li) as (x & Hx); [lia|].
      destruct (Forall2_nth _ _ _ E _ _ Hx) as (x' & H1 & H2). cbn in H2. injection H2 as <-.
      exists x. split; auto.
  - destruct H as (ix & iy & H1 & H2 & H3). eauto.
Qed.
