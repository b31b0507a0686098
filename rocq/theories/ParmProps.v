(** C93: the values of the parameters of the parameter database. *)
From Coq Require Import Qcanon List Arith Lia Bool QArith Qround Field.
From Verif Require Import QcUtil AverageModel GainModel InfoModel BeamModel BeamProofs AxisModel AxisSpec AxisProofs AxisProps ParmModel ParmSpec ParmProofs.
Import ListNotations.
Open Scope Qc_scope.
Open Scope nat_scope.

Lemma middle_center c x : middle c x <-> x = center c.
Proof.
  unfold middle, center. split.
  - intros H. rewrite <- H. rewrite <- (half_mul x) at 1. ring.
  - intros ->. rewrite half_mul. reflexivity.
Qed.
Lemma poly_coefficients a n m x y : poly (coefficients (nx a) (data a)) n m x y = poly (elem a) n m x y.
Proof. apply poly_ext. intros. symmetry. apply elem_coefficients. Qed.

Lemma list_eq (l m : list Qc) : map this l = map this m -> l = m.
Proof.
  revert m. induction l as [|u l IH]; intros [|v m] E; try discriminate; auto. cbn in E. injection E as E1 E2.
  f_equal; auto. apply Qc_is_canon. rewrite E1. apply Qeq_refl.
Qed.

(** Rescaling a polynomial to a new domain does not change its value at any point:
   the coordinates of the point are scaled to the new domain with the new
   coefficients, and to the old domain with the old ones.  The shape of the array
   of coefficients stays the same. *)
Theorem C93_rescale : forall c sx ex sy ey old x y,
  lower_x old <> upper_x old -> lower_y old <> upper_y old -> sx <> ex -> sy <> ey ->
  let r := rescale c sx ex sy ey old in
  nx r = nx c /\ ny r = ny c /\
  poly (coefficients (nx c) (data r)) (nx c) (ny c) (scaled sx ex x) (scaled sy ey y) =
  poly (coefficients (nx c) (data c)) (nx c) (ny c)
       (scaled (lower_x old) (upper_x old) x) (scaled (lower_y old) (upper_y old) y).
Proof.
  intros c sx ex sy ey old x y D1 D2 N1 N2 r. unfold r.
  split; [apply rescale_nx|split; [apply rescale_ny|]].
  rewrite <- (rescale_nx c sx ex sy ey old) at 1. rewrite !poly_coefficients.
  apply rescale_poly; auto.
Qed.
Print Assumptions C93_rescale.

(** 1 + 2x + 3y + 4xy on the domain 0..2, 0..4, rescaled to 2..6, 0..2. *)
Example C93_rescale_case :
  data (rescale (Array 2 2 [q 1; q 2; q 3; q 4]) (q 2) (q 6) (q 0) (q 2) (Box (q 0) (q 0) (q 2) (q 4))) =
  [(q 3); q 4; (q 7 * half)%Qc; q 4] /\
  q 0 <> q 2 /\ q 2 <> q 6 /\ q 0 <> q 4 /\
  poly (coefficients 2 [(q 3); q 4; (q 7 * half)%Qc; q 4]) 2 2 (scaled (q 2) (q 6) (q 4)) (scaled (q 0) (q 2) (q 1)) =
  poly (coefficients 2 [q 1; q 2; q 3; q 4]) 2 2 (q 2) (q 1 * half * half)%Qc.
Proof.
  split; [apply list_eq; vm_compute; reflexivity|].
  do 3 (split; [discriminate|]). apply Qc_is_canon. vm_compute. reflexivity.
Qed.

(** A parameter that is a polynomial: the value of a cell of the grid is that of the
   polynomial of the domain in which the center of the cell lies (or the one that is
   taken for it if it is in no domain), at the center scaled to that domain. *)
Theorem C93_polynomial : forall s px py,
  px <> [] -> py <> [] ->
  ordered (domain_x s) -> ordered (domain_y s) -> domain_x s <> [] -> domain_y s <> [] ->
  scalar s = false ->
  (forall v, In v (def_value s :: parm_values s) -> 0 < nx (values v)) ->
  exists r, get_result s px py false = Ok r /\
  nx r = length px /\ ny r = length py /\ length (data r) = length px * length py /\
  forall ix iy cx cy x y,
    nth_error px ix = Some cx -> nth_error py iy = Some cy -> middle cx x -> middle cy y ->
    exists mx my dx dy, let a := values (nth (mx + my * length (domain_x s)) (parm_values s) (def_value s)) in
      mapped (domain_x s) x mx /\ nth_error (domain_x s) mx = Some dx /\
      mapped (domain_y s) y my /\ nth_error (domain_y s) my = Some dy /\
      nth_error (data r) (ix + iy * length px) =
        Some (poly (coefficients (nx a) (data a)) (nx a) (ny a)
                   (scaled (fst dx) (snd dx) x) (scaled (fst dy) (snd dy) y)).
Proof.
  intros s px py Nx Ny Ox Oy Dx Dy Sc Pos. unfold get_result. rewrite Sc. cbn [andb negb].
  eexists. split; [reflexivity|]. unfold result_coeff.
  destruct (axis_mapping px (domain_x s)) as [[mapx bordersx] cenx] eqn:Ex.
  destruct (axis_mapping py (domain_y s)) as [[mapy bordersy] ceny] eqn:Ey. cbn [nx ny data].
  destruct (C92_mapping _ _ _ _ _ Nx Dx Ox Ex) as (Lx & Lcx & Mx & _).
  destruct (C92_mapping _ _ _ _ _ Ny Dy Oy Ey) as (Ly & Lcy & My & _).
  set (f := fun (p q : nat * Qc) => polynomial (values (nth (fst p + fst q * length (domain_x s)) (parm_values s) (def_value s))) (snd p) (snd q)).
  replace (flat_map _ _) with (flat_map (fun qy => map (fun p => f p qy) (List.combine mapx cenx)) (List.combine mapy ceny)).
  2:{ apply flat_map_ext. intros [a b]. apply map_ext. intros [c d]. reflexivity. }
  assert (LX : length (List.combine mapx cenx) = length px) by (rewrite combine_length; lia).
  assert (LY : length (List.combine mapy ceny) = length py) by (rewrite combine_length; lia).
  split; [reflexivity|split; [reflexivity|split]].
  - rewrite grid_length, LX, LY. reflexivity.
  - intros ix iy cx cy x y Cx Cy Hx Hy. apply middle_center in Hx, Hy. subst x y.
    destruct (Mx ix cx Cx) as (mx & dx & M1 & M2 & M3 & M4).
    destruct (My iy cy Cy) as (my & dy & P1 & P2 & P3 & P4).
    exists mx, my, dx, dy. cbv zeta.
    split; [exact M2|split; [exact M3|split; [exact P2|split; [exact P3|]]]].
    rewrite <- LX.
    rewrite (nth_error_grid f _ _ ix iy (mx, ((fst cx + snd cx) * half - fst dx) / (snd dx - fst dx))%Qc (my, ((fst cy + snd cy) * half - fst dy) / (snd dy - fst dy))%Qc).
    + unfold f. cbn [fst snd]. f_equal. rewrite poly_coefficients. apply polynomial_poly.
      apply Pos. destruct (nth_in_or_default (mx + my * length (domain_x s)) (parm_values s) (def_value s)) as [I|E]; [right; exact I|left; symmetry; exact E].
    + apply combine_nth_some; assumption.
    + apply combine_nth_some; assumption.
Qed.
Print Assumptions C93_polynomial.

(** x + 10y on 0..2, and 5 on 2..4; cells of width 1. *)
Definition two_polynomials : value_set :=
  ValueSet false [(q 0, q 2); (q 2, q 4)] [(q 0, q 1)]
    [ParmValue [(q 0, q 2)] [(q 0, q 1)] (Array 2 2 [q 0; q 1; q 10; q 0]);
     ParmValue [(q 2, q 4)] [(q 0, q 1)] (Array 1 1 [q 5])]
    (ParmValue [(q 0, q 1)] [(q 0, q 1)] (Array 1 1 [q 0])) (Box 0%Qc 0%Qc 0%Qc 0%Qc).
Example C93_polynomial_case :
  exists r, get_result two_polynomials (regular_cells (q 0) (q 1) 4) [(q 0, q 1)] false = Ok r /\
  map this (data r) = map this [(q 5 + half * half)%Qc; (q 5 + half + half * half)%Qc; q 5; q 5].
Proof. eexists. split; [reflexivity|]. vm_compute. reflexivity. Qed.

Lemma nth_error_flat {A B C} (f : A -> B -> C) (l : list A) (m : list B) i j a b :
  nth_error l i = Some a -> nth_error m j = Some b ->
  nth_error (flat_map (fun y => map (fun x => f x y) l) m) (i + j * length l) = Some (f a b).
Proof.
  revert j. induction m as [|y m IH]; intros [|j] Ha Hb; cbn [flat_map nth_error] in *; try discriminate.
  - injection Hb as ->. assert (i < length l) by (apply nth_error_Some; congruence).
    rewrite nth_error_app1 by (rewrite map_length; lia).
    replace (i + 0 * length l) with i by lia. apply (map_nth_error (fun x => f x b)). exact Ha.
  - rewrite nth_error_app2 by (rewrite map_length; lia). rewrite map_length.
    replace (i + S j * length l - length l) with (i + j * length l) by lia. auto.
Qed.

(** If the values of a polynomial are made on a solve grid from the default value,
   then at all points of any grid the parameter has the value of the default
   polynomial on its own domain. *)
Theorem C93_created : forall s gx gy px py,
  px <> [] -> py <> [] -> ordered gx -> ordered gy -> gx <> [] -> gy <> [] ->
  scalar s = false -> 0 < nx (values (def_value s)) ->
  lower_x (scale_domain s) <> upper_x (scale_domain s) ->
  lower_y (scale_domain s) <> upper_y (scale_domain s) ->
  exists r, get_result (create_values s gx gy) px py false = Ok r /\
  forall ix iy cx cy x y,
    nth_error px ix = Some cx -> nth_error py iy = Some cy -> middle cx x -> middle cy y ->
    let a := values (def_value s) in
    nth_error (data r) (ix + iy * length px) =
      Some (poly (coefficients (nx a) (data a)) (nx a) (ny a)
                 (scaled (lower_x (scale_domain s)) (upper_x (scale_domain s)) x)
                 (scaled (lower_y (scale_domain s)) (upper_y (scale_domain s)) y)).
Proof.
  intros s gx gy px py Nx Ny Ox Oy Dx Dy Sc Pos Bx By.
  assert (EB : empty_box (scale_domain s) = false).
  { unfold empty_box. destruct (near_spec (lower_x (scale_domain s)) (upper_x (scale_domain s))); [contradiction|].
    destruct (near_spec (lower_y (scale_domain s)) (upper_y (scale_domain s))); [contradiction|]. reflexivity. }
  destruct (C93_polynomial (create_values s gx gy) px py) as (r & E & _ & _ & _ & H); auto.
  { cbn [create_values def_value parm_values]. rewrite EB. intros v [<-|I]; [exact Pos|].
    apply in_flat_map in I as (cy & _ & I). apply in_map_iff in I as (cx & <- & _). cbn [values]. rewrite rescale_nx. exact Pos. }
  exists r. split; [exact E|]. intros ix iy cx cy x y Cx Cy Hx Hy a.
  destruct (H ix iy cx cy x y Cx Cy Hx Hy) as (mx & my & dx & dy & M1 & M2 & M3 & M4 & V).
  cbn [create_values domain_x domain_y parm_values def_value] in M1, M2, M3, M4, V. rewrite EB in V.
  set (f := fun (c d : cell) => ParmValue (grid_x (def_value s)) (grid_y (def_value s)) (rescale (values (def_value s)) (fst c) (snd c) (fst d) (snd d) (scale_domain s))) in V.
  pose proof (nth_error_flat f gx gy mx my dx dy M2 M4) as N. unfold f in N, V.
  rewrite (nth_error_nth _ _ _ N) in V. cbn [values] in V. rewrite V. f_equal.
  rewrite rescale_nx, rescale_ny.
  apply (proj2 (C93_rescale a (fst dx) (snd dx) (fst dy) (snd dy) (scale_domain s) x y Bx By
    (fun E0 => Qclt_not_eq _ _ (ordered_wide _ _ _ Ox M2) E0) (fun E0 => Qclt_not_eq _ _ (ordered_wide _ _ _ Oy M4) E0))).
Qed.
Print Assumptions C93_created.

(** The default polynomial x + 10y on the domain 0..4, 0..1. *)
Definition default_polynomial : value_set :=
  ValueSet false (cells default_axis) (cells default_axis) []
    (ParmValue (cells default_axis) (cells default_axis) (Array 2 2 [q 0; q 1; q 10; q 0]))
    (Box (q 0) (q 0) (q 4) (q 1)).
Example C93_created_case :
  exists r, get_result (create_values default_polynomial (regular_cells (q 0) (q 2) 3) [(q 0, q 1)])
              (regular_cells (q 0) (q 4) 2) [(q 0, q 1)] false = Ok r /\
  map this (data r) = map this [(q 5 + half)%Qc; (q 6 + half)%Qc].
Proof. eexists. split; [reflexivity|]. vm_compute. reflexivity. Qed.

(** A default polynomial that is evaluated without making the values first is not
   scaled to its domain but to the domain of everything, from -1e30 to 1e30: the
   value at a point of its domain is another one than that of the polynomial. *)
Theorem C93_default_refuted : exists s px py r x y v,
  parm_values s = [] /\ domain_x s = cells default_axis /\ domain_y s = cells default_axis /\
  scalar s = false /\ px = [(q 0, q 2)] /\ py = [(q 0, q 1)] /\
  middle (q 0, q 2) x /\ middle (q 0, q 1) y /\
  (lower_x (scale_domain s) < x)%Qc /\ (x < upper_x (scale_domain s))%Qc /\
  (lower_y (scale_domain s) < y)%Qc /\ (y < upper_y (scale_domain s))%Qc /\
  get_result s px py false = Ok r /\ data r = [v] /\
  v <> poly (coefficients 2 [q 0; q 1; q 10; q 0]) 2 2
            (scaled (lower_x (scale_domain s)) (upper_x (scale_domain s)) x)
            (scaled (lower_y (scale_domain s)) (upper_y (scale_domain s)) y) /\
  data (values (def_value s)) = [q 0; q 1; q 10; q 0].
Proof.
  exists default_polynomial, [(q 0, q 2)], [(q 0, q 1)]. eexists. exists (q 1), half. eexists.
  do 6 (split; [reflexivity|]).
  split; [apply Qc_is_canon; vm_compute; reflexivity|].
  split; [apply Qc_is_canon; vm_compute; reflexivity|].
  do 4 (split; [apply qltb_true; vm_compute; reflexivity|]).
  split; [reflexivity|]. split; [reflexivity|]. split; [|reflexivity].
  intros E. apply (f_equal this) in E. vm_compute in E. discriminate.
Qed.
Print Assumptions C93_default_refuted.

(** A parameter with scalar values in more than one domain: a cell of the grid gets
   the value stored for the cell, of the domain taken for its center, in which its
   center lies.  An exception is thrown exactly if there is a cell of which the
   center does not lie in a cell stored for its domain. *)
Theorem C93_scalars : forall s px py,
  px <> [] -> py <> [] ->
  ordered (domain_x s) -> ordered (domain_y s) -> domain_x s <> [] -> domain_y s <> [] ->
  scalar s = true -> length (domain_x s) * length (domain_y s) <> 1 ->
  length (parm_values s) = length (domain_x s) * length (domain_y s) ->
  (forall v, In v (parm_values s) -> ordered (grid_x v) /\ ordered (grid_y v) /\
     length (data (values v)) = length (grid_x v) * length (grid_y v)) ->
  let value cx cy z := forall x y, middle cx x -> middle cy y -> exists mx my v,
    mapped (domain_x s) x mx /\ mapped (domain_y s) y my /\
    nth_error (parm_values s) (mx + my * length (domain_x s)) = Some v /\
    value_at (grid_x v) (grid_y v) (data (values v)) x y z in
  (exists r, get_result s px py false = Ok r /\
     nx r = length px /\ ny r = length py /\ length (data r) = length px * length py /\
     forall ix iy cx cy, nth_error px ix = Some cx -> nth_error py iy = Some cy ->
       exists z, nth_error (data r) (ix + iy * length px) = Some z /\ value cx cy z) \/
  (get_result s px py false = Throw /\
   exists cx cy, In cx px /\ In cy py /\ forall z, ~ value cx cy z).
Proof.
  intros s px py Nx Ny Ox Oy Dx Dy Sc N1 L G value. unfold get_result. rewrite Sc. cbn [andb negb].
  apply Nat.eqb_neq in N1. rewrite N1.
  pose proof (multi_spec s px py Nx Ny Ox Oy Dx Dy G L) as H. cbv zeta in H.
  destruct (axis_mapping px (domain_x s)) as [[mapx bordersx] cenx] eqn:Ex.
  destruct (axis_mapping py (domain_y s)) as [[mapy bordersy] ceny] eqn:Ey. cbn [fst] in H.
  destruct (C92_mapping _ _ _ _ _ Nx Dx Ox Ex) as (Lx & _ & Mx & _).
  destruct (C92_mapping _ _ _ _ _ Ny Dy Oy Ey) as (Ly & _ & My & _).
  assert (Uniq : forall b x m n, mapped b x m -> mapped b x n -> m = n).
  { intros b x m n (A1 & A2 & A3) (B1 & B2 & B3). destruct (lt_eq_lt_dec m n) as [[C|C]|C]; auto; exfalso.
    - destruct (nth_error b m) as [d|] eqn:E; [|apply nth_error_None in E; lia].
      destruct (A3 m d (le_n m) E) as [X|X]; [|lia]. specialize (B2 m d C E). qclra.
    - destruct (nth_error b n) as [d|] eqn:E; [|apply nth_error_None in E; lia].
      destruct (B3 n d (le_n n) E) as [X|X]; [|lia]. specialize (A2 n d C E). qclra. }
  assert (Same : forall ix iy cx cy z, nth_error px ix = Some cx -> nth_error py iy = Some cy ->
    (cell_value s px py mapx mapy ix iy z <-> value cx cy z)).
  { intros ix iy cx cy z Cx Cy. destruct (Mx ix cx Cx) as (mx & dx & M1 & M2 & _). destruct (My iy cy Cy) as (my & dy & P1 & P2 & _). split.
    - intros (cx' & cy' & mx' & my' & v & H1 & H2 & H3 & H4 & H5 & H6).
      rewrite Cx in H1. injection H1 as <-. rewrite Cy in H2. injection H2 as <-.
      rewrite M1 in H3. injection H3 as <-. rewrite P1 in H4. injection H4 as <-.
      intros x y Hx Hy. apply middle_center in Hx, Hy. subst. exists mx, my, v. auto.
    - intros V. destruct (V (center cx) (center cy)) as (mx' & my' & v & H1 & H2 & H3 & H4); [now apply middle_center|now apply middle_center|].
      rewrite (Uniq _ _ _ _ H1 M2) in H3. rewrite (Uniq _ _ _ _ H2 P2) in H3.
      exists cx, cy, mx, my, v. auto 10. }
  destruct (result_multi s px py) as [r| |]; [left|right|contradiction].
  - destruct H as (H1 & H2 & H3 & H4). exists r. repeat split; auto.
    intros ix iy cx cy Cx Cy. destruct (H4 ix iy) as (z & Z1 & Z2); [apply nth_error_Some; congruence|apply nth_error_Some; congruence|].
    exists z. split; auto. now apply (Same ix iy cx cy z).
  - split; auto. destruct H as (ix & iy & H1 & H2 & H3).
    destruct (nth_error px ix) as [cx|] eqn:Cx; [|apply nth_error_None in Cx; lia].
    destruct (nth_error py iy) as [cy|] eqn:Cy; [|apply nth_error_None in Cy; lia].
    exists cx, cy. split; [eapply nth_error_In; eauto|split; [eapply nth_error_In; eauto|]].
    intros z V. apply (H3 z). now apply (Same ix iy cx cy z).
Qed.
Print Assumptions C93_scalars.

(** Two domains, the first one with two values and the second one with one. *)
Definition two_domains : value_set :=
  ValueSet true [(q 0, q 2); (q 2, q 4)] [(q 0, q 1)]
    [ParmValue [(q 0, q 1); (q 1, q 2)] [(q 0, q 1)] (Array 2 1 [q 7; q 8]);
     ParmValue [(q 2, q 4)] [(q 0, q 1)] (Array 1 1 [q 9])]
    (ParmValue (cells default_axis) (cells default_axis) (Array 1 1 [q 0])) (Box 0%Qc 0%Qc 0%Qc 0%Qc).
Example C93_scalars_case :
  (exists r, get_result two_domains (regular_cells (q 0) (q 1) 4) [(q 0, q 1)] false = Ok r /\
     map this (data r) = map this [q 7; q 8; q 9; q 9]) /\
  get_result two_domains (regular_cells (q 1) (q 1) 4) [(q 0, q 1)] false = Throw.
Proof. split; [eexists; split; [reflexivity|]; vm_compute; reflexivity|reflexivity]. Qed.

(** If the domains follow each other, the values of each of them cover it, and the
   centers of the cells of the grid lie in the domains, then there is no exception,
   and each cell gets the value stored for its center. *)
Theorem C93_covered : forall s px py x0 x1 y0 y1,
  px <> [] -> py <> [] ->
  tiles x0 x1 (domain_x s) -> tiles y0 y1 (domain_y s) -> domain_x s <> [] -> domain_y s <> [] ->
  scalar s = true -> length (domain_x s) * length (domain_y s) <> 1 ->
  length (parm_values s) = length (domain_x s) * length (domain_y s) ->
  (forall i j dx dy v, nth_error (domain_x s) i = Some dx -> nth_error (domain_y s) j = Some dy ->
     nth_error (parm_values s) (i + j * length (domain_x s)) = Some v ->
     tiles (fst dx) (snd dx) (grid_x v) /\ tiles (fst dy) (snd dy) (grid_y v) /\
     length (data (values v)) = length (grid_x v) * length (grid_y v)) ->
  (forall c x, In c px -> middle c x -> (x0 <= x)%Qc /\ (x < x1)%Qc) ->
  (forall c y, In c py -> middle c y -> (y0 <= y)%Qc /\ (y < y1)%Qc) ->
  exists r, get_result s px py false = Ok r /\ length (data r) = length px * length py /\
  forall ix iy cx cy x y, nth_error px ix = Some cx -> nth_error py iy = Some cy -> middle cx x -> middle cy y ->
    exists i j dx dy v z,
      nth_error (domain_x s) i = Some dx /\ inside true x dx /\
      nth_error (domain_y s) j = Some dy /\ inside true y dy /\
      nth_error (parm_values s) (i + j * length (domain_x s)) = Some v /\
      value_at (grid_x v) (grid_y v) (data (values v)) x y z /\
      nth_error (data r) (ix + iy * length px) = Some z.
Proof.
  intros s px py x0 x1 y0 y1 Nx Ny Tx Ty Dx Dy Sc N1 L G Cx Cy.
  assert (Ox := tiles_ordered _ _ _ Tx). assert (Oy := tiles_ordered _ _ _ Ty).
  assert (Split : forall v, In v (parm_values s) -> exists i j dx dy,
    nth_error (domain_x s) i = Some dx /\ nth_error (domain_y s) j = Some dy /\
    nth_error (parm_values s) (i + j * length (domain_x s)) = Some v).
  { intros v I. apply In_nth_error in I as (k & I).
    assert (B : k < length (parm_values s)) by (apply nth_error_Some; congruence). rewrite L in B.
    apply index_of in B as (i & j & Li & Lj & ->).
    destruct (nth_error (domain_x s) i) as [dx|] eqn:E1; [|apply nth_error_None in E1; lia].
    destruct (nth_error (domain_y s) j) as [dy|] eqn:E2; [|apply nth_error_None in E2; lia].
    exists i, j, dx, dy. auto. }
  assert (G' : forall v, In v (parm_values s) -> ordered (grid_x v) /\ ordered (grid_y v) /\
     length (data (values v)) = length (grid_x v) * length (grid_y v)).
  { intros v I. destruct (Split v I) as (i & j & dx & dy & E1 & E2 & E3).
    destruct (G i j dx dy v E1 E2 E3) as (G1 & G2 & G3). repeat split; auto; eapply tiles_ordered; eauto. }
  assert (Find : forall cx cy x y, In cx px -> In cy py -> middle cx x -> middle cy y ->
    exists i j dx dy v z,
      nth_error (domain_x s) i = Some dx /\ inside true x dx /\
      nth_error (domain_y s) j = Some dy /\ inside true y dy /\
      nth_error (parm_values s) (i + j * length (domain_x s)) = Some v /\
      value_at (grid_x v) (grid_y v) (data (values v)) x y z).
  { intros cx cy x y Ix Iy Hx Hy. destruct (Cx cx x Ix Hx) as (A1 & A2). destruct (Cy cy y Iy Hy) as (B1 & B2).
    destruct (tiles_cover _ _ _ x Tx A1 A2) as (i & dx & E1 & F1).
    destruct (tiles_cover _ _ _ y Ty B1 B2) as (j & dy & E2 & F2).
    assert (i < length (domain_x s)) by (apply nth_error_Some; congruence).
    assert (j < length (domain_y s)) by (apply nth_error_Some; congruence).
    destruct (nth_error (parm_values s) (i + j * length (domain_x s))) as [v|] eqn:E3; [|apply nth_error_None in E3; rewrite L in E3; nia].
    destruct (G i j dx dy v E1 E2 E3) as (G1 & G2 & G3).
    destruct (tiles_cover _ _ _ x G1 (proj1 F1) (proj2 F1)) as (k & ex & E4 & F4).
    destruct (tiles_cover _ _ _ y G2 (proj1 F2) (proj2 F2)) as (l & ey & E5 & F5).
    assert (k < length (grid_x v)) by (apply nth_error_Some; congruence).
    assert (l < length (grid_y v)) by (apply nth_error_Some; congruence).
    destruct (nth_error (data (values v)) (k + l * length (grid_x v))) as [z|] eqn:E6; [|apply nth_error_None in E6; rewrite G3 in E6; nia].
    exists i, j, dx, dy, v, z. do 5 (split; [assumption|]). exists k, l, ex, ey. auto. }
  destruct (C93_scalars s px py Nx Ny Ox Oy Dx Dy Sc N1 L G') as [(r & E & _ & _ & Len & V)|(_ & cx & cy & Ix & Iy & V)].
  - exists r. split; [exact E|split; [exact Len|]]. intros ix iy cx cy x y Ex Ey Hx Hy.
    destruct (Find cx cy x y (nth_error_In _ _ Ex) (nth_error_In _ _ Ey) Hx Hy) as (i & j & dx & dy & v & z & F1 & F2 & F3 & F4 & F5 & F6).
    destruct (V ix iy cx cy Ex Ey) as (z' & Z1 & Z2). destruct (Z2 x y Hx Hy) as (mx & my & v' & M1 & M2 & M3 & M4).
    rewrite (C92_mapped_inside _ _ _ _ _ Ox M1 F1 F2), (C92_mapped_inside _ _ _ _ _ Oy M2 F3 F4), F5 in M3. injection M3 as <-.
    exists i, j, dx, dy, v, z'. auto 10.
  - exfalso.
    destruct (Find cx cy (center cx) (center cy) Ix Iy) as (i & j & dx & dy & v & z & F1 & F2 & F3 & F4 & F5 & F6); [now apply middle_center|now apply middle_center|].
    apply (V z). intros x y Hx Hy. apply middle_center in Hx, Hy. subst x y.
    exists i, j, v. split; [|split; [|split; [exact F5|exact F6]]].
    + repeat split.
      * apply nth_error_Some. congruence.
      * intros k c Lk Ek. destruct F2 as (F2 & _). eapply Qcle_trans; [|exact F2]. apply (ordered_lt (domain_x s) k i c dx); auto.
      * intros k c Lk Ek. left. destruct F2 as (F2' & F2). destruct (Nat.eq_dec k i) as [->|D]; [congruence|].
        assert (snd dx <= fst c)%Qc by (apply (ordered_lt (domain_x s) i k dx c); auto; lia).
        pose proof (ordered_wide _ _ _ Ox Ek). qclra.
    + repeat split.
      * apply nth_error_Some. congruence.
      * intros k c Lk Ek. destruct F4 as (F4 & _). eapply Qcle_trans; [|exact F4]. apply (ordered_lt (domain_y s) k j c dy); auto.
      * intros k c Lk Ek. left. destruct F4 as (F4' & F4). destruct (Nat.eq_dec k j) as [->|D]; [congruence|].
        assert (snd dy <= fst c)%Qc by (apply (ordered_lt (domain_y s) j k dy c); auto; lia).
        pose proof (ordered_wide _ _ _ Oy Ek). qclra.
Qed.
Print Assumptions C93_covered.

(** The hypotheses hold for the two domains above. *)
Example C93_covered_case :
  tiles (q 0) (q 4) (domain_x two_domains) /\ tiles (q 0) (q 1) (domain_y two_domains) /\
  scalar two_domains = true /\ length (domain_x two_domains) * length (domain_y two_domains) <> 1 /\
  (forall i j dx dy v, nth_error (domain_x two_domains) i = Some dx -> nth_error (domain_y two_domains) j = Some dy ->
     nth_error (parm_values two_domains) (i + j * length (domain_x two_domains)) = Some v ->
     tiles (fst dx) (snd dx) (grid_x v) /\ tiles (fst dy) (snd dy) (grid_y v) /\
     length (data (values v)) = length (grid_x v) * length (grid_y v)).
Proof.
  assert (T : forall a b, qltb (q a) (q b) = true -> (q a < q b)%Qc) by (intros; now apply qltb_true).
  split; [cbn; repeat split; apply T; vm_compute; reflexivity|].
  split; [cbn; repeat split; apply T; vm_compute; reflexivity|].
  split; [reflexivity|]. split; [discriminate|].
  intros [|[|i]] [|[|j]] dx dy v; cbn [two_domains domain_x domain_y parm_values nth_error length Nat.add Nat.mul]; intros E1 E2 E3; try discriminate; try (destruct i; discriminate); try (destruct j; discriminate);
  injection E1 as <-; injection E2 as <-; injection E3 as <-; cbn; repeat split; apply T; vm_compute; reflexivity.
Qed.

(** A parameter with one domain: a single value holds everywhere; otherwise each cell
   gets the value of the cell of that domain in which its center lies, and outside of
   them the value of the next one or the last one.  Without any domain the default
   holds everywhere.  The values handed out to the user have the shape of the grid. *)
Theorem C93_one_domain : forall s px py include,
  px <> [] -> py <> [] -> scalar s = true -> length (domain_x s) = 1 -> length (domain_y s) = 1 ->
  (include = true \/ parm_values s <> []) ->
  let v := hd (def_value s) (parm_values s) in
  ordered (grid_x v) -> ordered (grid_y v) -> grid_x v <> [] -> grid_y v <> [] ->
  length (data (values v)) = length (grid_x v) * length (grid_y v) ->
  exists r, facade_values s px py include = Ok (Some r) /\
  nx r = length px /\ ny r = length py /\
  length (data r) = length px * length py /\
  forall ix iy cx cy x y, nth_error px ix = Some cx -> nth_error py iy = Some cy -> middle cx x -> middle cy y ->
    exists z, nth_error (data r) (ix + iy * length px) = Some z /\
      value_near (grid_x v) (grid_y v) (data (values v)) x y z.
Proof.
  intros s px py include Nx Ny Sc D1 D2 Inc v Ox Oy Gx Gy L.
  assert (Px : 0 < length px) by (destruct px; [now elim Nx|cbn; lia]).
  assert (Py : 0 < length py) by (destruct py; [now elim Ny|cbn; lia]).
  assert (E0 : negb include && (length (parm_values s) =? 0) = false).
  { destruct Inc as [->|N]; [reflexivity|]. destruct (parm_values s); [now elim N|]. apply andb_false_r. }
  unfold facade_values, get_result. rewrite E0, Sc, D1, D2. cbn [negb Nat.mul Nat.add Nat.eqb]. fold v.
  destruct (Nat.eqb_spec (length (grid_x v) * length (grid_y v)) 1) as [E1|E1].
  - apply Nat.eq_mul_1 in E1 as [E1 E2]. cbn [bind]. rewrite E1, E2 in L. cbn in L.
    destruct (data (values v)) as [|z [|? ?]] eqn:Ed; try discriminate.
    eexists. split; [reflexivity|]. cbn [nx ny data]. do 2 (split; [reflexivity|]). split; [apply repeat_length|].
    intros ix iy cx cy x y Ex Ey _ _. exists z.
    assert (ix < length px) by (apply nth_error_Some; congruence).
    assert (iy < length py) by (apply nth_error_Some; congruence).
    split.
    + rewrite (nth_error_nth' _ z) by (rewrite repeat_length; nia). rewrite nth_repeat. reflexivity.
    + exists 0, 0. assert (M : forall (g : list cell) w, length g = 1 -> mapped g w 0).
      { intros g w Lg. repeat split; [lia|intros; lia|]. intros i c _ _. right. lia. }
      split; [auto|split; [auto|reflexivity]].
  - unfold result_single.
    destruct (axis_mapping px (grid_x v)) as [[mapx bordersx] cenx] eqn:Ex.
    destruct (axis_mapping py (grid_y v)) as [[mapy bordersy] ceny] eqn:Ey.
    destruct (C92_mapping _ _ _ _ _ Nx Gx Ox Ex) as (Lx & _ & Mx & _).
    destruct (C92_mapping _ _ _ _ _ Ny Gy Oy Ey) as (Ly & _ & My & _).
    destruct (mapping_bounds _ _ _ _ _ Nx Gx Ox Ex) as (_ & Bx & _).
    destruct (mapping_bounds _ _ _ _ _ Ny Gy Oy Ey) as (_ & By & _).
    set (f := fun my => each (fun mx => get (data (values v)) (mx + my * length (grid_x v))) mapx).
    assert (exists rows, each f mapy = Ok rows) as (rows & E).
    { apply each_total. intros my Iy. apply each_total. intros mx Ix. unfold get.
      specialize (Bx mx Ix). specialize (By my Iy).
      destruct (nth_error (data (values v)) (mx + my * length (grid_x v))) as [z|] eqn:Ez; [eauto|].
      apply nth_error_None in Ez. rewrite L in Ez. nia. }
    rewrite E. cbn [bind]. apply each_ok in E.
    assert (Rows : Forall (fun row => length row = length px) rows).
    { apply Forall_forall. intros row I. apply In_nth_error in I as (k & I).
      destruct (Forall2_nth_r _ _ _ E k row I) as (my & H1 & H2). apply each_ok in H2.
      rewrite <- (Forall2_length _ _ _ H2). exact Lx. }
    assert (Len : length (concat rows) = length px * length py).
    { rewrite <- Ly, (Forall2_length _ _ _ E). clear - Rows. induction Rows as [|row rows H _ IH]; cbn; [lia|]. rewrite app_length, H, IH. lia. }
    assert (Nth : forall k row i, nth_error rows k = Some row -> i < length px -> nth_error (concat rows) (i + k * length px) = nth_error row i).
    { clear - Rows. induction Rows as [|r0 rows H _ IH]; intros [|k] row i Hk Hi; cbn [nth_error concat] in *; try discriminate.
      - injection Hk as ->. rewrite nth_error_app1 by lia. f_equal. lia.
      - rewrite nth_error_app2 by lia. rewrite H. replace (i + S k * length px - length px) with (i + k * length px) by lia. auto. }
    assert (Val : forall ix iy cx cy x y, nth_error px ix = Some cx -> nth_error py iy = Some cy -> middle cx x -> middle cy y ->
      exists z, nth_error (concat rows) (ix + iy * length px) = Some z /\ value_near (grid_x v) (grid_y v) (data (values v)) x y z).
    { intros ix iy cx cy x y Cx Cy Hx Hy. apply middle_center in Hx, Hy. subst x y.
      destruct (Mx ix cx Cx) as (mx & dx & M1 & M2 & M3 & M4).
      destruct (My iy cy Cy) as (my & dy & P1 & P2 & P3 & P4).
      destruct (Forall2_nth _ _ _ E iy my P1) as (row & R1 & R2). apply each_ok in R2.
      destruct (Forall2_nth _ _ _ R2 ix mx M1) as (z & Z1 & Z2). apply get_ok in Z2.
      exists z. split; [rewrite (Nth iy row ix R1); [exact Z1|apply nth_error_Some; congruence]|].
      exists mx, my. auto. }
    cbn [data]. destruct (concat rows) as [|z [|z' l]] eqn:Ec.
    + cbn in Len. nia.
    + cbn [length] in Len. assert (length px = 1 /\ length py = 1) as [L1 L2] by (symmetry in Len; apply Nat.eq_mul_1 in Len; auto).
      eexists. split; [reflexivity|]. cbn [nx ny data]. do 2 (split; [reflexivity|]). rewrite L1, L2. split; [reflexivity|].
      intros ix iy cx cy x y Cx Cy Hx Hy. rewrite L1 in Val. apply (Val ix iy cx cy x y Cx Cy Hx Hy).
    + eexists. split; [reflexivity|]. cbn [nx ny data]. do 2 (split; [reflexivity|]). split; [exact Len|exact Val].
Qed.
Print Assumptions C93_one_domain.

(** One domain with two values, and a grid that goes on after it; and no domain. *)
Definition one_domain (l : list parm_value) : value_set :=
  ValueSet true [(q 0, q 4)] [(q 0, q 1)] l
    (ParmValue (cells default_axis) (cells default_axis) (Array 1 1 [q 3])) (Box 0%Qc 0%Qc 0%Qc 0%Qc).
Definition two_values : parm_value :=
  ParmValue [(q 0, q 2); (q 2, q 4)] [(q 0, q 1)] (Array 2 1 [q 7; q 9]).
Example C93_one_domain_case :
  (exists r, facade_values (one_domain [two_values]) (regular_cells (q 1) (q 1) 4) [(q 0, q 1)] false = Ok (Some r) /\
     map this (data r) = map this [q 7; q 9; q 9; q 9]) /\
  (exists r, facade_values (one_domain []) (regular_cells (q 1) (q 1) 4) [(q 0, q 1)] true = Ok (Some r) /\
     map this (data r) = map this [q 3; q 3; q 3; q 3]).
Proof. split; eexists; (split; [reflexivity|]); vm_compute; reflexivity. Qed.

(** A parameter without values is not handed out, unless the defaults are asked for. *)
Theorem C93_no_values : forall s px py include,
  px <> [] -> py <> [] ->
  (forall r, get_result s px py false = Ok r -> data r <> []) ->
  (facade_values s px py include = Ok None <-> include = false /\ parm_values s = []).
Proof.
  intros s px py include Nx Ny H. unfold facade_values.
  assert (E : forall b, b && (length (parm_values s) =? 0) = true <-> b = true /\ parm_values s = []).
  { intros b. destruct b, (parm_values s); cbn; intuition discriminate. }
  destruct (negb include && (length (parm_values s) =? 0)) eqn:B.
  - unfold get_result at 1. rewrite B. cbn [bind data]. apply E in B as (B1 & B2).
    destruct include; [discriminate|]. tauto.
  - assert (get_result s px py (negb include) = get_result s px py false) as -> by (unfold get_result; rewrite B; reflexivity).
    split.
    + destruct (get_result s px py false) as [r| |]; cbn [bind]; try discriminate.
      destruct (data r) as [|z [|? ?]] eqn:Ed; try discriminate. now elim (H r eq_refl).
    + intros (-> & P). rewrite P in B. discriminate.
Qed.
Print Assumptions C93_no_values.
Example C93_no_values_case :
  facade_values (one_domain []) (regular_cells (q 1) (q 1) 4) [(q 0, q 1)] false = Ok None.
Proof. reflexivity. Qed.

(** What a user gets outside of the stored values depends on how they are stored: the
   same values give the last value if they are in one domain, and an exception if they
   are in two. *)
Theorem C93_outside_refuted : exists s t px py r,
  scalar s = true /\ scalar t = true /\
  (forall x y z,
     (exists v, parm_values s = [v] /\ value_at (grid_x v) (grid_y v) (data (values v)) x y z) <->
     (exists v, In v (parm_values t) /\ value_at (grid_x v) (grid_y v) (data (values v)) x y z)) /\
  get_result s px py false = Ok r /\ data r <> [] /\ get_result t px py false = Throw.
Proof.
  exists (one_domain [two_values]).
  exists (ValueSet true [(q 0, q 2); (q 2, q 4)] [(q 0, q 1)]
            [ParmValue [(q 0, q 2)] [(q 0, q 1)] (Array 1 1 [q 7]);
             ParmValue [(q 2, q 4)] [(q 0, q 1)] (Array 1 1 [q 9])]
            (def_value (one_domain [])) (scale_domain (one_domain []))).
  exists [(q 3, q 4); (q 4, q 5)], [(q 0, q 1)]. eexists.
  split; [reflexivity|]. split; [reflexivity|]. split; [|split; [reflexivity|split; [discriminate|reflexivity]]].
  intros x y z. cbn [parm_values one_domain]. split.
  - intros (v & E & i & j & cx & cy & H1 & H2 & H3 & H4 & H5). injection E as <-.
    cbn [two_values grid_x grid_y values data] in *.
    destruct j as [|j]; [|destruct j; discriminate].
    destruct i as [|[|i]]; [| |destruct i; discriminate]; cbn in H1, H3, H5; injection H1 as <-; injection H3 as <-; injection H5 as <-.
    + exists (ParmValue [(q 0, q 2)] [(q 0, q 1)] (Array 1 1 [q 7])). split; [cbn; auto|].
      exists 0, 0, (q 0, q 2), (q 0, q 1). do 4 (split; [auto|]). reflexivity.
    + exists (ParmValue [(q 2, q 4)] [(q 0, q 1)] (Array 1 1 [q 9])). split; [cbn; auto|].
      exists 0, 0, (q 2, q 4), (q 0, q 1). do 4 (split; [auto|]). reflexivity.
  - intros (v & [<-|[<-|[]]] & i & j & cx & cy & H1 & H2 & H3 & H4 & H5); cbn [grid_x grid_y values data] in *;
    (destruct i as [|i]; [|destruct i; discriminate]); (destruct j as [|j]; [|destruct j; discriminate]);
    cbn in H1, H3, H5; injection H1 as <-; injection H3 as <-; injection H5 as <-;
    exists two_values; (split; [reflexivity|]).
    + exists 0, 0, (q 0, q 2), (q 0, q 1). do 4 (split; [auto|]). reflexivity.
    + exists 1, 0, (q 2, q 4), (q 0, q 1). do 4 (split; [auto|]). reflexivity.
Qed.
Print Assumptions C93_outside_refuted.

Lemma this_qn n : (this (qn n) == inject_Z (Z.of_nat n))%Q.
Proof. unfold qn. apply Qred_correct. Qed.
Lemma floor_bounds (x : Qc) : (0 <= Qfloor (this x))%Z ->
  (qn (Z.to_nat (Qfloor (this x))) <= x)%Qc /\ (x < qn (Z.to_nat (Qfloor (this x))) + 1)%Qc.
Proof.
  intros H. set (k := Qfloor (this x)) in *.
  assert (A := Qfloor_le (this x)). assert (B := Qlt_floor (this x)). fold k in A, B.
  assert (E := this_qn (Z.to_nat k)). rewrite Z2Nat.id in E by exact H.
  split.
  - unfold Qcle. rewrite E. exact A.
  - assert (E1 := this_qn (S (Z.to_nat k))). rewrite <- qn_S. unfold Qclt. rewrite E1.
    rewrite Nat2Z.inj_succ, Z2Nat.id by exact H. exact B.
Qed.
Lemma qdiv_mul (x y : Qc) : y <> 0%Qc -> (x / y * y = x)%Qc.
Proof. intros. field. assumption. Qed.

(** The grid made for a start, an end and a step: it goes from the start to the end
   with cells of one width, and the number of cells is the one for which the width is
   closest to the step: the cells with the width of the step would end at most half a
   step before or after the end (but there is at least one cell). *)
Theorem C93_grid : forall v1 v2 step def_step,
  (v1 < v2)%Qc -> (0 < step)%Qc ->
  let a := values_axis v1 v2 step def_step true in
  let n := length (cells a) in
  0 < n /\ tiles v1 v2 (cells a) /\ (exists w, wide w (cells a)) /\
  (v2 - v1 < qn n * step + step * half)%Qc /\
  (n = 1 \/ (qn n * step - step * half <= v2 - v1)%Qc).
Proof.
  intros v1 v2 step def_step L P a n. unfold n, a, values_axis.
  assert (qleb step 0 = false) as -> by (apply qleb_false; exact P). cbv iota zeta.
  set (c := count_steps (v2 - v1) step).
  assert (Pc : 0 < c) by (unfold c, count_steps; lia).
  assert (Pw : (0 < (v2 - v1) / qn c)%Qc).
  { unfold Qcdiv. apply qc_mult_pos; [qclra|]. apply qc_inv_pos. apply qn_pos. exact Pc. }
  destruct (C92_regular v1 ((v2 - v1) / qn c)%Qc c Pw Pc) as (R1 & R2 & R3 & R4 & R5).
  destruct (R5 v2 L) as (R6 & R7).
  assert (Len : length (cells (regular_axis_to v1 v2 c)) = c) by exact R2. rewrite Len.
  split; [exact Pc|]. split; [exact R6|]. split; [exists ((v2 - v1) / qn c)%Qc; exact R4|].
  set (x := ((v2 - v1) / step + half)%Qc).
  assert (X : (x * step = (v2 - v1) + step * half)%Qc) by (unfold x; rewrite Qcmult_plus_distr_l, qdiv_mul by (intros E; rewrite E in P; now apply Qclt_not_eq in P); ring).
  assert (Hp : (0 < half)%Qc) by (apply qltb_true; vm_compute; reflexivity).
  assert (Hs : (0 < step * half)%Qc) by (apply qc_mult_pos; auto).
  assert (Hh := half_mul step).
  destruct (Z.le_gt_cases 1 (Qfloor (this x))) as [F|F].
  - assert (c = Z.to_nat (Qfloor (this x))) as Ec by (unfold c, count_steps; fold x; lia).
    destruct (floor_bounds x) as (B1 & B2); [lia|]. rewrite <- Ec in B1, B2.
    assert (B3 : (qn c * step <= x * step)%Qc) by (apply Qcmult_le_compat_r; [exact B1|apply Qclt_le_weak; exact P]).
    assert (B4 : (x * step < (qn c + 1) * step)%Qc) by (apply Qcmult_lt_compat_r; [exact P|exact B2]).
    rewrite X in B3, B4.
    assert (B5 : ((qn c + 1) * step = qn c * step + step)%Qc) by ring. rewrite B5 in B4.
    set (z := (qn c * step)%Qc) in *. set (h := (step * half)%Qc) in *. set (d := (v2 - v1)%Qc) in *.
    split; [qclra|right; qclra].
  - assert (c = 1) as Ec by (unfold c, count_steps; fold x; lia). split; [|left; exact Ec].
    rewrite Ec. change (qn 1) with 1%Qc.
    assert (B2 : (x < 1)%Qc).
    { destruct (Z.le_gt_cases 0 (Qfloor (this x))) as [F0|F0].
      - destruct (floor_bounds x F0) as (_ & B). replace (Qfloor (this x)) with 0%Z in B by lia. cbn in B. change (qn 0) with 0%Qc in B. qclra.
      - assert (A := Qlt_floor (this x)). unfold Qclt. eapply Qlt_le_trans; [exact A|].
        change (this 1) with (inject_Z 1). rewrite <- Zle_Qle. lia. }
    assert (B4 : (x * step < 1 * step)%Qc) by (apply Qcmult_lt_compat_r; [exact P|exact B2]).
    rewrite X in B4. rewrite Qcmult_1_l in *. set (h := (step * half)%Qc) in *. set (d := (v2 - v1)%Qc) in *. qclra.
Qed.
Print Assumptions C93_grid.
Example C93_grid_case :
  cells (values_axis (q 0) (q 10) (q 4) (q 1) true) = regular_cells (q 0) (q 10 / q 3)%Qc 3 /\
  cells (values_axis (q 0) (q 10) (q 0) (q 5) true) = regular_cells (q 0) (q 5) 2.
Proof. split; apply shown_eq; vm_compute; reflexivity. Qed.

(** The grid made for a center and a width is not the interval around the center with
   that width: it starts at the center, and each of its cells has the full width. *)
Theorem C93_center_refuted : exists c w step def_step,
  (0 < w)%Qc /\ (0 < step)%Qc /\
  let l := cells (values_axis c w step def_step false) in
  ~ tiles (c - w * half) (c + w * half) l /\
  length l = 4 /\ (forall d, In d l -> (c <= fst d)%Qc) /\ wide w l.
Proof.
  exists (q 100), (q 8), (q 2), (q 1). split; [apply qltb_true; vm_compute; reflexivity|].
  split; [apply qltb_true; vm_compute; reflexivity|]. cbv zeta.
  assert (E : cells (values_axis (q 100) (q 8) (q 2) (q 1) false) = regular_cells (q 100) (q 8) 4).
  { unfold values_axis. replace (qleb (q 2) 0) with false by (vm_compute; reflexivity).
    replace (count_steps (q 8) (q 2)) with 4 by (vm_compute; reflexivity). reflexivity. }
  rewrite E. split; [|split; [reflexivity|split]].
  - intros T. cbn in T. destruct T as (T & _). apply (f_equal this) in T. vm_compute in T. discriminate.
  - cbn. intros d [<-|[<-|[<-|[<-|[]]]]]; cbn [fst]; apply qleb_true; vm_compute; reflexivity.
  - apply regular_cells_wide.
Qed.
Print Assumptions C93_center_refuted.

(** Asking for the values on a start-end range without steps does not give the grid with
   the default steps: the flag that says that it is a range is taken as the time step,
   and the flag for the defaults is taken for it. *)
Theorem C93_map_refuted : exists fv1 fv2 tv1 tv2 steps,
  let r := values_map_default fv1 fv2 tv1 tv2 steps true true in
  let e := values_map fv1 fv2 0%Qc tv1 tv2 0%Qc steps true true in
  let r2 := values_map_default fv1 fv2 tv1 tv2 steps true false in
  length (cells (snd (fst r))) = 10 /\ length (cells (snd (fst e))) = 2 /\
  snd r = false /\ snd e = true /\
  ~ tiles fv1 fv2 (cells (fst (fst r2))) /\ tiles fv1 fv2 (cells (fst (fst e))).
Proof.
  exists (q 0), (q 4), (q 0), (q 10), (q 2, q 5). cbv zeta.
  split; [vm_compute; reflexivity|]. split; [vm_compute; reflexivity|].
  split; [reflexivity|]. split; [reflexivity|].
  assert (A : cells (fst (fst (values_map_default (q 0) (q 4) (q 0) (q 10) (q 2, q 5) true false))) = [(q 0, q 4); (q 4, q 8)])
    by (apply shown_eq; vm_compute; reflexivity).
  assert (B : cells (fst (fst (values_map (q 0) (q 4) 0%Qc (q 0) (q 10) 0%Qc (q 2, q 5) true true))) = [(q 0, q 2); (q 2, q 4)])
    by (apply shown_eq; vm_compute; reflexivity).
  rewrite A, B. split.
  - cbn. intros (_ & _ & _ & _ & T). apply (f_equal this) in T. vm_compute in T. discriminate.
  - cbn. repeat split; apply qltb_true; vm_compute; reflexivity.
Qed.
Print Assumptions C93_map_refuted.
