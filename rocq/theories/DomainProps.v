(** C105: grids of the parameter database that are made from domains. *)
From Coq Require Import Qcanon List Arith Bool Lia ZArith.
From Verif Require Import QcUtil AverageModel GainModel AxisModel DomainModel DomainSpec.
Import ListNotations.
Open Scope nat_scope.

Lemma near_eq a b : near a b = true <-> a = b.
Proof. unfold near. destruct (Qc_eq_dec a b); split; auto; discriminate. Qed.

Lemma near_cell_eq a b : near_cell a b = true <-> a = b.
Proof. unfold near_cell. rewrite andb_true_iff, !near_eq. destruct a, b; cbn. split; [intros [-> ->]; reflexivity | intros [= -> ->]; auto]. Qed.

Lemma boxes_flat {A B} (xs : list A) (ys : list B) : boxes_of xs ys = flat_map (fun y => map (fun x => (x, y)) xs) ys.
Proof. induction ys; cbn; congruence. Qed.

Lemma boxes_length {A B} (xs : list A) (ys : list B) : length (boxes_of xs ys) = length ys * length xs.
Proof. induction ys as [|y ys IH]; cbn; [reflexivity|]. rewrite app_length, map_length, IH. reflexivity. Qed.

Lemma boxes_nth {A B} (xs : list A) : forall (ys : list B) i j x y, nth_error xs i = Some x -> nth_error ys j = Some y -> nth_error (boxes_of xs ys) (j * length xs + i) = Some (x, y).
Proof.
  induction ys as [|y0 ys IH]; intros i j x y Hx Hy; [destruct j; discriminate|].
  assert (Hi : i < length xs) by (apply nth_error_Some; congruence). cbn [boxes_of]. destruct j as [|j].
  - cbn in Hy. injection Hy as ->. cbn [Nat.mul Nat.add]. rewrite nth_error_app1 by (rewrite map_length; lia). now apply map_nth_error with (f := fun x => (x, y)) in Hx.
  - cbn in Hy. rewrite nth_error_app2 by (rewrite map_length; lia). rewrite map_length. replace (S j * length xs + i - length xs) with (j * length xs + i) by lia. now apply IH.
Qed.

Lemma nth_error_ext {T} : forall (l m : list T), length l = length m -> (forall i, i < length l -> nth_error l i = nth_error m i) -> l = m.
Proof.
  induction l as [|a l IH]; intros [|b m] L H; try discriminate; [reflexivity|].
  pose proof (H 0 ltac:(cbn; lia)) as H0. cbn in H0. injection H0 as ->. f_equal. apply IH; [now injection L|].
  intros i Hi. apply (H (S i)). cbn. lia.
Qed.

(** Regular steps from a cell on *)
Fixpoint steps_from (e w : Qc) (l : list cell) : Prop := match l with [] => True | c :: l => e = fst c /\ w = width c /\ steps_from (snd c) w l end.

Lemma regular_cells_steps w : forall l s, steps_from s w l -> l = regular_cells s w (length l).
Proof.
  induction l as [|[a b] l IH]; intros s H; [reflexivity|]. cbn [steps_from fst snd length regular_cells] in *. destruct H as (-> & Hw & H).
  assert (E : (a + w)%Qc = b) by (rewrite Hw; unfold width; cbn [fst snd]; ring). rewrite E. f_equal. now apply IH.
Qed.

Lemma steps_equal : forall l c, steps_from (snd c) (width c) l <-> equal_steps (c :: l).
Proof.
  induction l as [|b l IH]; intros c; [cbn; tauto|]. cbn [steps_from].
  change (equal_steps (c :: b :: l)) with (snd c = fst b /\ (snd c - fst c = snd b - fst b)%Qc /\ equal_steps (b :: l)). rewrite <- IH.
  change (width c) with (snd c - fst c)%Qc. change (width b) with (snd b - fst b)%Qc.
  split; intros (A & B & C); repeat split; auto; [now rewrite <- B | now rewrite B].
Qed.

Lemma row_count sy dx : forall l ex, let '(n, r) := row sy ex dx l in
  n <= length l /\ (forall i b, i < n -> nth_error l i = Some b -> fst (snd b) = sy) /\ (r = true <-> steps_from ex dx (map fst (firstn n l))).
Proof.
  induction l as [|[x y] l IH]; intros ex; cbn [row]; [repeat split; auto; intros; lia|].
  destruct (Qc_eq_dec sy (fst y)) as [E|E]; [|repeat split; cbn; auto; try lia; intros; lia].
  specialize (IH (snd x)). destruct (row sy (snd x) dx l) as [n r]. destruct IH as (A & B & C). split; [cbn; lia|]. split.
  - intros [|i] b Hi H; cbn in H; [injection H as <-; auto|]. apply (B i); [lia|exact H].
  - cbn [firstn map steps_from fst]. rewrite !andb_true_iff, !near_eq, C. tauto.
Qed.

Lemma rows_regular_steps dy : forall ys ey, rows_regular ey dy ys = true <-> steps_from ey dy ys.
Proof. induction ys as [|y ys IH]; intros ey; cbn; [tauto|]. rewrite !andb_true_iff, !near_eq, IH. tauto. Qed.

(** The axis that is made has the given cells. *)
Lemma make_axis_cells r c l : (r = true -> steps_from (snd c) (width c) l) -> cells (make_axis r c (c :: l)) = c :: l.
Proof.
  intros H. unfold make_axis. destruct r; [|reflexivity]. specialize (H eq_refl). symmetry. apply regular_cells_steps. cbn [steps_from]. auto.
Qed.

Lemma steps_first c l : steps_from (fst c) (width c) (c :: l) <-> steps_from (snd c) (width c) l.
Proof. cbn. tauto. Qed.

Lemma ordered_ascending : forall l, ordered l = true <-> ascending l.
Proof.
  induction l as [|c l IH]; [cbn; tauto|]. cbn [ordered ascending]. rewrite !andb_true_iff, IH.
  assert (W : (if Qclt_le_dec 0 (width c) then true else false) = true <-> (fst c < snd c)%Qc).
  { unfold width. destruct (Qclt_le_dec 0 (snd c - fst c)) as [H|H].
    - split; [intros _ | reflexivity]. now apply Qclt_minus_iff.
    - split; [discriminate|]. intros K. apply Qclt_minus_iff in K. exfalso. exact (Qclt_not_le _ _ K H). }
  rewrite W. destruct l as [|d l]; [tauto|].
  destruct (Qclt_le_dec (fst d) (snd c)) as [H|H]; [|tauto]. split; [intros [[_ K] _]; discriminate|]. intros (_ & K & _). exfalso. exact (Qclt_not_le _ _ H K).
Qed.

(** Every interval after the first starts after it. *)
Lemma ascending_starts : forall l c, ascending (c :: l) -> forall d, In d l -> (fst c < fst d)%Qc.
Proof.
  induction l as [|b l IH]; intros c H d Hd; [destruct Hd|]. destruct H as (W & O & A).
  assert (K : (fst c < fst b)%Qc) by (apply Qclt_le_trans with (snd c); assumption).
  destruct Hd as [<-|Hd]; [exact K|]. apply Qclt_trans with (fst b); [exact K | now apply IH].
Qed.

(** What [setup] makes, apart from the asserts *)
Lemma setup_axes a first others r : setup a (first :: others) = Ok r ->
  let l := first :: others in
  let n := fst (row (fst (snd first)) (snd (fst first)) (width (fst first)) others) in
  let nx := S n in
  nx <= length l /\ cells (fst r) = map fst (firstn nx l) /\ cells (snd r) = map (fun j => snd (domain l first (j * nx))) (seq 0 (length l / nx)) /\
  (a = true -> rectangular l first nx (length l / nx) = true /\ ascending (cells (fst r)) /\ ascending (cells (snd r))) /\
  (regular (fst r) = true <-> equal_steps (cells (fst r))) /\ (regular (snd r) = true <-> equal_steps (cells (snd r))).
Proof.
  unfold setup. pose proof (row_count (fst (snd first)) (width (fst first)) others (snd (fst first))) as R.
  destruct (row _ _ _ others) as [n xr]. destruct R as (A & _ & C). cbn [fst]. cbv zeta. set (l := first :: others). intros E.
  assert (Hn : S n <= length l) by (cbn; lia). split; [exact Hn|].
  destruct (a && negb _) eqn:Q; [discriminate|]. apply (f_equal (fun o => match o with Ok x => x | _ => r end)) in E.
  assert (Ex : map fst (firstn (S n) l) = fst first :: map fst (firstn n others)) by reflexivity.
  assert (Hy : exists k, length l / S n = S k) by (exists (length l / S n - 1); assert (1 <= length l / S n) by (apply Nat.div_le_lower_bound; lia); lia).
  destruct Hy as [k Hk]. rewrite Hk in *. set (ys := map (fun j => snd (domain l first (j * S n))) (seq 0 (S k))) in *.
  assert (Ey : exists t, ys = snd first :: t) by (eexists; reflexivity). destruct Ey as [t Ey].
  assert (S1 : cells (make_axis xr (fst first) (map fst (firstn (S n) l))) = map fst (firstn (S n) l)) by (rewrite Ex; apply make_axis_cells; now rewrite C).
  assert (S2 : cells (make_axis (rows_regular (fst (snd first)) (width (snd first)) ys) (snd first) ys) = ys).
  { rewrite Ey. apply make_axis_cells. rewrite rows_regular_steps. now rewrite steps_first. }
  cbn beta iota in E. subst r. cbn [fst snd]. rewrite S1, S2. split; [reflexivity|]. split; [reflexivity|]. split.
  - intros ->. cbn [andb] in Q. apply negb_false_iff in Q. rewrite !andb_true_iff, !ordered_ascending in Q. tauto.
  - split.
    + rewrite Ex, <- steps_equal, <- C. unfold make_axis. destruct xr; cbn [regular regular_axis]; tauto.
    + assert (Q2 := rows_regular_steps (width (snd first)) ys (fst (snd first))). rewrite Ey in Q2 at 2. rewrite steps_first, steps_equal, <- Ey in Q2. rewrite <- Q2.
      unfold make_axis. destruct (rows_regular _ _ ys); cbn [regular regular_axis]; tauto.
Qed.

(** C105: a grid that is made from domains, with asserts, has exactly these domains as its cells, row by row; rows and columns are in order.  An axis is regular exactly if its cells follow each other and are equally wide. *)
Theorem C105_sound l ax ay : setup true l = Ok (ax, ay) ->
  l = boxes_of (cells ax) (cells ay) /\ ascending (cells ax) /\ ascending (cells ay) /\ (regular ax = true <-> equal_steps (cells ax)) /\ (regular ay = true <-> equal_steps (cells ay)).
Proof.
  intros E. destruct l as [|first others]; [discriminate|]. destruct (setup_axes _ _ _ _ E) as (Hn & X & Y & A & RX & RY). cbn [fst snd] in *.
  specialize (A eq_refl). destruct A as (A & AS). split; [|split; [apply AS | split; [apply AS | split; [exact RX | exact RY]]]]. set (l := first :: others) in *. set (nx := S (fst (row _ _ _ others))) in *.
  unfold rectangular in A. rewrite !andb_true_iff in A. destruct A as ((M & AX) & AY). apply Nat.eqb_eq in M.
  rewrite forallb_forall in AX, AY. set (ny := length l / nx) in *.
  assert (Hnx : 0 < nx) by (unfold nx; lia).
  assert (L : length l = nx * ny) by (pose proof (Nat.div_mod (length l) nx ltac:(lia)); unfold ny; lia).
  assert (LX : length (cells ax) = nx) by (rewrite X, map_length, firstn_length; lia).
  assert (LY : length (cells ay) = ny) by (rewrite Y, map_length, seq_length; reflexivity).
  apply nth_error_ext; [etransitivity; [exact L|]; symmetry; etransitivity; [exact (boxes_length (cells ax) (cells ay))|]; rewrite LX, LY; lia|]. intros k Hk.
  set (j := k / nx). set (i := k mod nx). assert (Ek : k = j * nx + i) by (pose proof (Nat.div_mod k nx ltac:(lia)); unfold i, j; lia).
  assert (Hi : i < nx) by (apply Nat.mod_upper_bound; lia). assert (Hj : j < ny) by (apply Nat.div_lt_upper_bound; lia).
  assert (Dk : nth_error l k = Some (domain l first k)) by (apply nth_error_nth'; exact Hk). rewrite Dk. symmetry. rewrite Ek at 1. rewrite <- LX at 1.
  rewrite (surjective_pairing (domain l first k)). apply boxes_nth.
  - rewrite X. assert (F : nth_error (firstn nx l) i = Some (domain l first i)); [|rewrite (map_nth_error fst i _ F)].
    2:{ f_equal. destruct (Nat.eq_dec j 0) as [J|J]; [rewrite Ek, J; reflexivity|].
      specialize (AX j ltac:(apply in_seq; lia)). rewrite forallb_forall in AX. specialize (AX i ltac:(apply in_seq; lia)). apply near_cell_eq in AX. now rewrite Ek. }
    unfold domain.
      assert (G : nth_error (firstn nx l) i = nth_error l i).
      { rewrite <- (firstn_skipn nx l) at 2. rewrite nth_error_app1; [reflexivity|]. rewrite firstn_length. lia. }
      rewrite G. apply nth_error_nth'. nia.
  - rewrite Y. assert (F : nth_error (seq 0 ny) j = Some j); [|rewrite (map_nth_error (fun j => snd (domain l first (j * nx))) j _ F)].
    2:{ f_equal. destruct (Nat.eq_dec i 0) as [I|I]; [rewrite Ek, I, Nat.add_0_r; reflexivity|].
      specialize (AY j ltac:(apply in_seq; lia)). rewrite forallb_forall in AY. specialize (AY i ltac:(apply in_seq; lia)). apply near_cell_eq in AY. now rewrite Ek. }
    rewrite (nth_error_nth' _ 0) by (rewrite seq_length; lia). now rewrite seq_nth by lia.
Qed.

Lemma row_full sy dx : forall xs ex y rest, fst y = sy -> match rest with [] => True | b :: _ => fst (snd b) <> sy end ->
  fst (row sy ex dx (map (fun x => (x, y)) xs ++ rest)) = length xs.
Proof.
  induction xs as [|x xs IH]; intros ex y rest Hy Hr; cbn [map app row length].
  - destruct rest as [|[x y'] rest]; [reflexivity|]. cbn [row]. cbn in Hr. destruct (Qc_eq_dec sy (fst y')); [congruence | reflexivity].
  - destruct (Qc_eq_dec sy (fst y)); [|congruence]. specialize (IH (snd x) y rest Hy Hr). destruct (row sy (snd x) dx _) as [n r]. cbn [fst] in *. congruence.
Qed.

Lemma firstn_boxes {A B} (x : A) xs (y : B) ys : map fst (firstn (length (x :: xs)) (boxes_of (x :: xs) (y :: ys))) = x :: xs.
Proof.
  cbn [boxes_of]. rewrite firstn_app, map_length, Nat.sub_diag, app_nil_r.
  replace (length (x :: xs)) with (length (map (fun x => (x, y)) (x :: xs))) by apply map_length. rewrite firstn_all, map_map. cbn [fst]. apply map_id.
Qed.

(** C105: domains that are the cells of a rectangular grid, row by row and in order, give that grid, with or without asserts. *)
Theorem C105_complete a xs ys : xs <> [] -> ys <> [] -> ascending xs -> ascending ys ->
  exists ax ay, setup a (boxes_of xs ys) = Ok (ax, ay) /\ cells ax = xs /\ cells ay = ys.
Proof.
  intros HX HY AX AY. destruct xs as [|x xs]; [contradiction|]. destruct ys as [|y ys]; [contradiction|].
  assert (D : forall y', In y' ys -> fst y' <> fst y) by (intros y' H K; pose proof (ascending_starts _ _ AY _ H) as Z; rewrite K in Z; exact (Qclt_not_le _ _ Z (Qcle_refl _))).
  set (l := (boxes_of (x :: xs) (y :: ys) : list box)). set (nx := length (x :: xs)).
  assert (E : l = (x, y) :: (map (fun x => (x, y)) xs ++ boxes_of (x :: xs) ys)) by reflexivity.
  assert (R : fst (row (fst y) (snd x) (width x) (map (fun x => (x, y)) xs ++ boxes_of (x :: xs) ys)) = length xs).
  { apply row_full; [reflexivity|]. destruct ys as [|y' ys]; [exact I|]. cbn. apply D. now left. }
  assert (L : @length box l = length (y :: ys) * nx) by apply boxes_length.
  assert (NY : @length box l / nx = length (y :: ys)) by (rewrite L; apply Nat.div_mul; unfold nx; cbn; lia).
  assert (DN : forall i j x' y', nth_error (x :: xs) i = Some x' -> nth_error (y :: ys) j = Some y' -> domain l (x, y) (j * nx + i) = (x', y')).
  { intros i j x' y' Hi Hj. unfold domain. apply nth_error_nth. now apply boxes_nth. }
  assert (GX : forall i, i < nx -> exists x', nth_error (x :: xs) i = Some x').
  { intros i Hi. destruct (nth_error (x :: xs) i) eqn:Q; [eauto|]. apply nth_error_None in Q. unfold nx in Hi. lia. }
  assert (GY : forall j, j < length (y :: ys) -> exists y', nth_error (y :: ys) j = Some y').
  { intros j Hj. destruct (nth_error (y :: ys) j) eqn:Q; [eauto|]. apply nth_error_None in Q. lia. }
  assert (Q : rectangular l (x, y) nx (length (y :: ys)) = true).
  { unfold rectangular. rewrite !andb_true_iff. repeat split.
    - apply Nat.eqb_eq. rewrite L. apply Nat.mod_mul. unfold nx. cbn. lia.
    - apply forallb_forall. intros j Hj. apply in_seq in Hj. apply forallb_forall. intros i Hi. apply in_seq in Hi. apply near_cell_eq.
      destruct (GX i ltac:(lia)) as [x' Hx]. destruct (GY j ltac:(lia)) as [y' Hy]. rewrite (DN i j x' y' Hx Hy).
      change i with (0 * nx + i) at 1. now rewrite (DN i 0 x' y Hx eq_refl).
    - apply forallb_forall. intros j Hj. apply in_seq in Hj. apply forallb_forall. intros i Hi. apply in_seq in Hi. apply near_cell_eq.
      destruct (GX i ltac:(lia)) as [x' Hx]. destruct (GY j ltac:(lia)) as [y' Hy]. rewrite (DN i j x' y' Hx Hy).
      replace (j * nx) with (j * nx + 0) by lia. now rewrite (DN 0 j x y' eq_refl Hy). }
  assert (XS : map fst (firstn nx l) = x :: xs) by apply firstn_boxes.
  assert (YS : map (fun j => snd (domain l (x, y) (j * nx))) (seq 0 (length (y :: ys))) = y :: ys).
  { apply nth_error_ext; [now rewrite map_length, seq_length|]. intros j Hj. rewrite map_length, seq_length in Hj.
    destruct (GY j Hj) as [y' Hy]. rewrite Hy.
    assert (F : nth_error (seq 0 (length (y :: ys))) j = Some j) by (rewrite (nth_error_nth' _ 0) by (rewrite seq_length; lia); now rewrite seq_nth by lia).
    rewrite (map_nth_error (fun j => snd (domain l (x, y) (j * nx))) j _ F). replace (j * nx) with (j * nx + 0) by lia. now rewrite (DN 0 j x y' eq_refl Hy). }
  assert (O : exists r, setup a l = Ok r).
  { assert (G : forall m first others, m = first :: others -> setup a m =
      let '(n, xr) := row (fst (snd first)) (snd (fst first)) (width (fst first)) others in
      let xs := map fst (firstn (S n) m) in let ys := map (fun j => snd (domain m first (j * S n))) (seq 0 (length m / S n)) in
      if a && negb (rectangular m first (S n) (length m / S n) && ordered xs && ordered ys) then Throw
      else Ok (make_axis xr (fst first) xs, make_axis (rows_regular (fst (snd first)) (width (snd first)) ys) (snd first) ys)) by (intros m first others ->; reflexivity).
    rewrite (G _ _ _ E). cbn [fst snd]. destruct (row (fst y) (snd x) (width x) _) as [n xr]. cbn [fst] in R. subst n. cbv zeta.
    change (S (length xs)) with nx. rewrite NY, Q, XS, YS, (proj2 (ordered_ascending _) AX), (proj2 (ordered_ascending _) AY), andb_false_r. eexists. reflexivity. }
  destruct O as [[ax ay] O]. exists ax, ay. split; [exact O|].
  assert (G : forall m first others, m = first :: others -> setup a m = Ok (ax, ay) ->
    let n := fst (row (fst (snd first)) (snd (fst first)) (width (fst first)) others) in
    cells ax = map fst (firstn (S n) m) /\ cells ay = map (fun j => snd (domain m first (j * S n))) (seq 0 (length m / S n))).
  { intros m first others -> H. destruct (setup_axes _ _ _ _ H) as (_ & X & Y & _). split; assumption. }
  destruct (G _ _ _ E O) as [X Y]. cbn [fst snd] in X, Y. rewrite R in X, Y. change (S (length xs)) with nx in X, Y. rewrite NY in Y. split.
  - now rewrite X.
  - now rewrite Y.
Qed.

(** C105: the cell with a number is the domain with that number, and number and location of a cell belong together. *)
Theorem C105_cell l ax ay id b : setup true l = Ok (ax, ay) -> nth_error l id = Some b ->
  get_cell ax ay (cell_location ax id) = Ok b /\ cell_id ax (fst (cell_location ax id)) (snd (cell_location ax id)) = id.
Proof.
  intros E H. destruct (C105_sound _ _ _ E) as [-> _]. assert (K : id < length (boxes_of (cells ax) (cells ay))) by (apply nth_error_Some; intros K; assert (Some b = None) by (etransitivity; [symmetry; exact H | exact K]); discriminate).
  rewrite boxes_length in K. set (nx := length (cells ax)) in *. assert (N : nx <> 0) by nia.
  unfold cell_location, cell_id. cbn [fst snd]. fold nx. assert (D : id / nx * nx + id mod nx = id) by (pose proof (Nat.div_mod id nx N); lia).
  split; [|exact D]. unfold get_cell. cbn [fst snd]. unfold get.
  assert (Hi : id mod nx < length (cells ax)) by (apply Nat.mod_upper_bound; exact N).
  assert (Hj : id / nx < length (cells ay)) by (apply Nat.div_lt_upper_bound; lia).
  destruct (nth_error (cells ax) (id mod nx)) as [x|] eqn:X; [|apply nth_error_None in X; lia].
  destruct (nth_error (cells ay) (id / nx)) as [y|] eqn:Y; [|apply nth_error_None in Y; lia]. cbn [bind].
  pose proof (boxes_nth _ _ _ _ _ _ X Y) as B. fold nx in B. rewrite D in B.
  assert (Z : Some b = Some (x, y)) by (etransitivity; [symmetry; exact H | exact B]). now injection Z as ->.
Qed.

(** C105: the domains of a grid that was made from domains are these domains, and they are added to the ones that are there, if the grid has at least as many columns as rows. *)
Theorem C105_domains l ax ay old : setup true l = Ok (ax, ay) -> length (cells ay) <= length (cells ax) -> to_domains ax ay old = Ok (old ++ l).
Proof.
  intros E H. unfold to_domains. rewrite (proj2 (Nat.ltb_ge _ _) H). rewrite <- boxes_flat. now destruct (C105_sound _ _ _ E) as [<- _].
Qed.

(** 0 to 1, 1 to 2 and 2 to 4 *)
Definition c01 : Qc * Qc := (0, 1)%Qc.
Definition c12 : Qc * Qc := (1, 1 + 1)%Qc.
Definition c24 : Qc * Qc := (1 + 1, 1 + 1 + 1 + 1)%Qc.

(** C105, a finding: the domains of a grid with more rows than columns are not given: the arrays for the borders of the rows have the number of columns as their size, so that memory after them is written. *)
Theorem C105_domains_refuted : exists l ax ay, setup true l = Ok (ax, ay) /\ to_domains ax ay [] = Undefined.
Proof. exists (boxes_of [c01] [c01; c12]). do 2 eexists. split; reflexivity. Qed.

(** C105, a finding: according to its description the constructor throws an exception if the domains do not span a rectangular grid, but only asserts check it.
    Without these, a domain is dropped, or the grid has a cell that is not one of the domains. *)
Theorem C105_rectangular_refuted : exists l m ax ay bx by', 
  setup false l = Ok (ax, ay) /\ length (boxes_of (cells ax) (cells ay)) < length l /\
  setup false m = Ok (bx, by') /\ exists b, In b (boxes_of (cells bx) (cells by')) /\ ~ In b m.
Proof.
  exists [(c01, c01); (c12, c01); (c01, c12)], [(c01, c01); (c12, c01); (c01, c12); (c24, c12)]. do 4 eexists. split; [reflexivity|]. split; [cbn; lia|].
  split; [reflexivity|]. exists (c12, c12). split; [right; right; right; left; reflexivity|].
  intros [H|[H|[H|[H|[]]]]]; discriminate H.
Qed.

(** Two columns that are regular and three rows that are not *)
Example setup_example : exists ax ay, setup true (boxes_of [c01; c12] [c01; c12; c24]) = Ok (ax, ay) /\ cells ax = [c01; c12] /\ cells ay = [c01; c12; c24] /\
  regular ax = true /\ regular ay = false.
Proof. do 2 eexists. repeat split; reflexivity. Qed.
Example setup_throws : setup true [(c01, c01); (c12, c01); (c01, c12)] = Throw.
Proof. reflexivity. Qed.
Example domains_example : exists ax ay, setup true (boxes_of [c01; c24] [c01; c12]) = Ok (ax, ay) /\ to_domains ax ay [] = Ok (boxes_of [c01; c24] [c01; c12]).
Proof. do 2 eexists. split; reflexivity. Qed.

Print Assumptions C105_sound.
Print Assumptions C105_complete.
Print Assumptions C105_cell.
Print Assumptions C105_domains.
Print Assumptions C105_domains_refuted.
Print Assumptions C105_rectangular_refuted.
