(** C105: grids of the parameter database that are made from grids. *)
From Coq Require Import Qcanon List Arith Bool Lia ZArith.
From Verif Require Import QcUtil AverageModel GainModel AxisModel AxisSpec AxisProps DomainModel DomainSpec DomainProps GridsModel.
Import ListNotations.
Open Scope nat_scope.

Lemma boxes_in {A B} (xs : list A) : forall (ys : list B) x y, In (x, y) (boxes_of xs ys) <-> In x xs /\ In y ys.
Proof.
  induction ys as [|z ys IH]; intros x y; cbn [boxes_of In]; [tauto|]. rewrite in_app_iff, IH, in_map_iff. split.
  - intros [(x' & [= -> ->] & H)|[H1 H2]]; auto.
  - intros [H [->|H2]]; [left; eauto | right; auto].
Qed.

(** The cells of a regular axis are regular steps. *)
Lemma tiles_steps w : forall l a b, tiles a b l -> wide w l -> steps_from a w l.
Proof.
  induction l as [|[s e] l IH]; intros a b T W; [exact I|]. cbn in T. destruct T as (-> & _ & T). cbn [steps_from fst snd].
  split; [reflexivity|]. split; [symmetry; apply (W a e); now left|]. apply (IH _ b); [exact T|]. intros s' e' H. apply W. now right.
Qed.

Lemma regular_steps a : axis_cells (regular a) (cells a) -> regular a = true -> steps_from (start_of (cells a)) (width (hd (0, 0)%Qc (cells a))) (cells a).
Proof.
  intros (N & _ & R) E. destruct (R E) as (s & e & w & T & W). destruct (cells a) as [|[c1 c2] l]; [congruence|].
  pose proof (tiles_steps _ _ _ _ T W) as H. destruct T as (-> & _ & _). unfold start_of. cbn [hd fst].
  assert (F : width (s, c2) = w) by (apply (W s c2); now left). rewrite F. exact H.
Qed.

Lemma steps_app w : forall l m e, l <> [] -> steps_from e w l -> steps_from (end_of l) w m -> steps_from e w (l ++ m).
Proof.
  induction l as [|c l IH]; intros m e N H K; [congruence|]. cbn [app steps_from] in *. destruct H as (A & B & C). split; [exact A|]. split; [exact B|].
  destruct l as [|d l]; [exact K|]. apply IH; [discriminate | exact C | exact K].
Qed.

Lemma continues_steps w : forall axes e, (forall a, In a axes -> axis_cells (regular a) (cells a)) -> continues w e axes = true -> steps_from e w (flat_map cells axes).
Proof.
  induction axes as [|a axes IH]; intros e H K; [exact I|]. cbn [continues] in K. rewrite !andb_true_iff, !near_eq in K. destruct K as (((R & W) & S) & K).
  assert (A : axis_cells (regular a) (cells a)) by (apply H; now left). cbn [flat_map]. apply steps_app; [apply A | |].
  - subst e. rewrite W. now apply regular_steps.
  - apply IH; [|exact K]. intros b Hb. apply H. now right.
Qed.

Lemma steps_equal_steps l e w : steps_from e w l -> equal_steps l.
Proof.
  destruct l as [|c l]; [intros _; exact I|]. cbn [steps_from]. intros (_ & -> & H). now apply steps_equal.
Qed.

Lemma ordered_after_ascending : forall l lo, ordered_after lo l -> ascending l /\ match l with [] => True | b :: _ => (lo <= fst b)%Qc end.
Proof.
  induction l as [|[s e] l IH]; intros lo H; [cbn; auto|]. cbn in H. destruct H as (A & B & C). destruct (IH _ C) as [D E]. cbn [ascending fst snd]. auto.
Qed.

Lemma axis_ascending r l : axis_cells r l -> ascending l.
Proof.
  intros (_ & O & _). destruct l as [|[s e] l]; [exact I|]. destruct O as [A B]. destruct (ordered_after_ascending _ _ B) as [C D]. cbn [ascending fst snd]. auto.
Qed.

(** The cells of combined axes are those of the axes, one after the other. *)
Lemma combine_axes_cells axes r : (forall a, In a axes -> axis_cells (regular a) (cells a)) -> combine_axes true axes = Ok r ->
  cells r = flat_map cells axes /\ ascending (cells r) /\ (regular r = true -> equal_steps (cells r)).
Proof.
  intros H E. destruct axes as [|a [|b axes]]; [discriminate| |].
  - injection E as <-. assert (A : axis_cells (regular a) (cells a)) by (apply H; now left). cbn [flat_map]. rewrite app_nil_r.
    split; [reflexivity|]. split; [exact (axis_ascending _ _ A)|]. intros R. exact (steps_equal_steps _ _ _ (regular_steps _ A R)).
  - unfold combine_axes in E. set (axes' := b :: axes) in *. set (w := width _) in *. destruct (regular a && continues w (end_of (cells a)) axes') eqn:Q.
    + apply andb_true_iff in Q. destruct Q as [R K].
      assert (S : steps_from (start_of (cells a)) w (flat_map cells (a :: axes'))).
      { cbn [flat_map]. assert (A : axis_cells (regular a) (cells a)) by (apply H; now left). apply steps_app; [apply A | now apply regular_steps |].
        apply continues_steps; [|exact K]. intros c Hc. apply H. now right. }
      pose proof (regular_cells_steps _ _ _ S) as Z. cbn [andb] in E. destruct (negb _) eqn:O in E; [discriminate|]. apply negb_false_iff in O. apply ordered_ascending in O.
      injection E as <-. cbn [regular_axis cells] in *. split; [now symmetry|]. split; [exact O|]. intros _. exact (eq_ind _ equal_steps (steps_equal_steps _ _ _ S) _ Z).
    + cbn [andb] in E. destruct (negb _) eqn:O in E; [discriminate|]. apply negb_false_iff in O. apply ordered_ascending in O.
      injection E as <-. split; [reflexivity|]. split; [exact O|]. discriminate.
Qed.

Lemma sum_cons n l : list_sum (n :: l) = n + list_sum l.
Proof. reflexivity. Qed.

Lemma sum_product {A B} (f : A -> nat) (g : B -> nat) (l : list A) : forall m, list_sum (flat_map (fun b => map (fun a => f a * g b) l) m) = list_sum (map f l) * list_sum (map g m).
Proof.
  assert (S : forall c, list_sum (map (fun a => f a * c) l) = list_sum (map f l) * c) by (intros c; clear; induction l as [|a l' IH]; [reflexivity|]; cbn [map]; rewrite !sum_cons, IH; nia).
  induction m as [|b m IH]; [cbn; nia|]. cbn [flat_map map]. rewrite list_sum_app, S, IH, sum_cons. nia.
Qed.

Lemma flat_length (l : list axis) : length (flat_map cells l) = list_sum (map (fun a => length (cells a)) l).
Proof. induction l as [|a l IH]; cbn; [reflexivity|]. now rewrite app_length, IH. Qed.

Lemma seq_from s : forall n, seq s n = map (fun i => s + i) (seq 0 n).
Proof. induction n as [|n IH]; [reflexivity|]. rewrite !seq_S, map_app, IH. reflexivity. Qed.

(** The boxes of a grid *)
Definition boxes (g : grid) : list (cell * cell) := boxes_of (cells (fst g)) (cells (snd g)).

(** C105: a grid that is made from grids, with asserts, has exactly their cells, none of them more than once; rows and columns are in order, and an axis that is regular has equal steps. *)
Theorem C105_grids gs r : (forall g, In g gs -> axis_cells (regular (fst g)) (cells (fst g)) /\ axis_cells (regular (snd g)) (cells (snd g))) ->
  make_grid true gs = Ok r ->
  (forall b, In b (boxes r) <-> exists g, In g gs /\ In b (boxes g)) /\
  length (boxes r) = list_sum (map (fun g => length (boxes g)) gs) /\
  ascending (cells (fst r)) /\ ascending (cells (snd r)) /\
  (regular (fst r) = true -> equal_steps (cells (fst r))) /\ (regular (snd r) = true -> equal_steps (cells (snd r))).
Proof.
  intros H E. assert (C : gs = [r] \/ setup_grids true gs = Ok r).
  { destruct gs as [|g [|g' gs]]; [right; exact E | left; injection E as ->; reflexivity | right; exact E]. }
  destruct C as [-> | S].
  { destruct (H r (or_introl eq_refl)) as [X Y]. split; [|split; [cbn; lia|split; [exact (axis_ascending _ _ X)|split; [exact (axis_ascending _ _ Y)|]]]].
    - intros b. split; [intros K; exists r; split; [now left | exact K] | intros (g & [<-|[]] & K); exact K].
    - split; intros R; [exact (steps_equal_steps _ _ _ (regular_steps _ X R)) | exact (steps_equal_steps _ _ _ (regular_steps _ Y R))]. }
  clear E. destruct gs as [|first others]; [discriminate|]. unfold setup_grids in S. set (gs := first :: others) in *.
  destruct (setup true (map bounding gs)) as [[dx dy]| |] eqn:D; try discriminate. cbn [bind fst snd] in S.
  set (nx := length (cells dx)) in *. set (ny := length (cells dy)) in *.
  destruct (C105_sound _ _ _ D) as [B _]. apply (f_equal (@length _)) in B.
  assert (L : length gs = ny * nx) by (etransitivity; [symmetry; apply (map_length bounding)|]; etransitivity; [exact B | exact (boxes_length (cells dx) (cells dy))]).
  assert (P : 0 < nx /\ 0 < ny) by (cbn in L; nia). destruct P as [PX PY].
  destruct (combine_axes true (map (fun i => fst (grid_at gs first i)) (seq 0 nx))) as [ax| |] eqn:EX; try discriminate. cbn [bind] in S.
  destruct (combine_axes true (map (fun j => snd (grid_at gs first (j * nx))) (seq 0 ny))) as [ay| |] eqn:EY; try discriminate. cbn [bind andb] in S.
  destruct (negb _) eqn:Q in S; [discriminate|]. injection S as <-. apply negb_false_iff in Q. unfold same_axes in Q. apply andb_true_iff in Q. destruct Q as [QX QY].
  rewrite forallb_forall in QX, QY.
  assert (I : forall i, In (grid_at gs first i) gs).
  { intros i. unfold grid_at. destruct (Nat.lt_ge_cases i (length gs)) as [K|K]; [now apply nth_In|]. rewrite nth_overflow by exact K. now left. }
  assert (FX : forall i j, i < nx -> j < ny -> cells (fst (grid_at gs first (j * nx + i))) = cells (fst (grid_at gs first i))).
  { intros i j Hi Hj. destruct j as [|j]; [reflexivity|]. specialize (QX (S j) ltac:(apply in_seq; lia)). rewrite forallb_forall in QX.
    specialize (QX i ltac:(apply in_seq; lia)). symmetry. refine (proj1 (C92_equal _ _ _ _) QX); apply H; apply I. }
  assert (FY : forall i j, i < nx -> j < ny -> cells (snd (grid_at gs first (j * nx + i))) = cells (snd (grid_at gs first (j * nx)))).
  { intros i j Hi Hj. destruct i as [|i]; [now rewrite Nat.add_0_r|]. specialize (QY j ltac:(apply in_seq; lia)). rewrite forallb_forall in QY.
    specialize (QY (S i) ltac:(apply in_seq; lia)). symmetry. refine (proj1 (C92_equal _ _ _ _) QY); apply H; apply I. }
  apply combine_axes_cells in EX; [|intros a Ha; apply in_map_iff in Ha; destruct Ha as (i & <- & _); apply H, I]. destruct EX as (CX & AX & RX).
  apply combine_axes_cells in EY; [|intros a Ha; apply in_map_iff in Ha; destruct Ha as (i & <- & _); apply H, I]. destruct EY as (CY & AY & RY).
  cbn [fst snd]. split; [|split; [|auto]].
  - intros [x y]. unfold boxes. cbn [fst snd]. rewrite boxes_in, CX, CY, !in_flat_map. split.
    + intros [(a & Ha & Hx) (c & Hc & Hy)]. apply in_map_iff in Ha, Hc. destruct Ha as (i & <- & Hi), Hc as (j & <- & Hj). apply in_seq in Hi, Hj.
      exists (grid_at gs first (j * nx + i)). split; [apply I|]. apply boxes_in. rewrite FX, FY by lia. auto.
    + intros (g & Hg & K). apply boxes_in in K. destruct K as [Hx Hy]. apply (In_nth _ _ first) in Hg. destruct Hg as (k & Hk & Hg). fold (grid_at gs first k) in Hg.
      assert (Ek : k = k / nx * nx + k mod nx) by (pose proof (Nat.div_mod k nx ltac:(lia)); lia).
      assert (Hi : k mod nx < nx) by (apply Nat.mod_upper_bound; lia). assert (Hj : k / nx < ny) by (apply Nat.div_lt_upper_bound; lia).
      assert (Hg' : g = grid_at gs first (k / nx * nx + k mod nx)) by (rewrite <- Ek; now symmetry). clear Hg. subst g. rewrite FX in Hx by assumption. rewrite FY in Hy by assumption. split.
      * eexists. split; [apply in_map_iff; exists (k mod nx); split; [reflexivity | apply in_seq; lia] | exact Hx].
      * eexists. split; [apply in_map_iff; exists (k / nx); split; [reflexivity | apply in_seq; lia] | exact Hy].
  - unfold boxes at 1. cbn [fst snd]. rewrite boxes_length, CX, CY, !flat_length, !map_map.
    set (f := fun i => length (cells (fst (grid_at gs first i)))). set (g := fun j => length (cells (snd (grid_at gs first (j * nx))))).
    transitivity (list_sum (map (fun k => f (k mod nx) * g (k / nx)) (seq 0 (length gs)))).
    + rewrite Nat.mul_comm, <- sum_product. f_equal. rewrite L. clear - PX.
      induction ny as [|n IH]; [reflexivity|]. rewrite seq_S, flat_map_app, IH. cbn [flat_map]. rewrite app_nil_r. cbn [Nat.add].
      replace (S n * nx) with (n * nx + nx) by lia. rewrite seq_app, map_app. f_equal. cbn [Nat.add].
      rewrite (seq_from (n * nx) nx).
      rewrite map_map. apply map_ext_in. intros i Hi. apply in_seq in Hi.
      replace ((n * nx + i) mod nx) with i by (rewrite Nat.add_comm, Nat.mod_add by lia; symmetry; apply Nat.mod_small; lia).
      now replace ((n * nx + i) / nx) with n by (rewrite Nat.add_comm, Nat.div_add by lia; rewrite Nat.div_small by lia; lia).
    + f_equal. replace (map (fun g => length (boxes g)) gs) with (map (fun k => length (boxes (grid_at gs first k))) (seq 0 (length gs))).
      * apply map_ext_in. intros k Hk. apply in_seq in Hk. unfold boxes. rewrite boxes_length. unfold f, g.
        assert (Ek : k = k / nx * nx + k mod nx) by (pose proof (Nat.div_mod k nx ltac:(lia)); lia).
        assert (Hi : k mod nx < nx) by (apply Nat.mod_upper_bound; lia). assert (Hj : k / nx < ny) by (apply Nat.div_lt_upper_bound; lia).
        pose proof (FX _ _ Hi Hj) as GX. pose proof (FY _ _ Hi Hj) as GY. rewrite <- Ek in GX, GY. rewrite GX, GY. lia.
      * rewrite <- (map_map (grid_at gs first) (fun g => length (boxes g))). f_equal. clear. generalize first at 1. intros d. clearbody gs.
        induction gs as [|g' gs' IH]; [reflexivity|]. cbn [length seq map]. f_equal. rewrite <- seq_shift, map_map. exact IH.
Qed.

Lemma steps_split w : forall l m e, l <> [] -> steps_from e w (l ++ m) -> e = start_of l /\ w = width (hd (0, 0)%Qc l) /\ steps_from (end_of l) w m.
Proof.
  induction l as [|c l IH]; intros m e N H; [congruence|]. cbn [app steps_from] in H. destruct H as (A & B & C). split; [exact A|]. split; [exact B|].
  destruct l as [|d l]; [exact C|]. apply (IH m (snd c)); [discriminate | exact C].
Qed.

Lemma steps_continue w : forall axes e, (forall a, In a axes -> cells a <> [] /\ regular a = true) -> steps_from e w (flat_map cells axes) -> continues w e axes = true.
Proof.
  induction axes as [|a axes IH]; intros e H K; [reflexivity|]. destruct (H a (or_introl eq_refl)) as [N R]. cbn [flat_map] in K. apply steps_split in K; [|exact N].
  destruct K as (A & B & C). cbn [continues]. rewrite R, (proj2 (near_eq _ _) A), (proj2 (near_eq _ _) B). cbn [andb]. apply IH; [|exact C]. intros b Hb. apply H. now right.
Qed.

Lemma equal_steps_from l : l <> [] -> equal_steps l -> steps_from (start_of l) (width (hd (0, 0)%Qc l)) l.
Proof. destruct l as [|c l]; [congruence|]. intros _ H. cbn [steps_from]. split; [reflexivity|]. split; [reflexivity|]. now apply steps_equal. Qed.

(** Axes in ascending order can be combined. *)
Lemma combine_axes_ok b axes : axes <> [] -> (forall a, In a axes -> axis_cells (regular a) (cells a)) -> ascending (flat_map cells axes) ->
  exists r, combine_axes b axes = Ok r /\ cells r = flat_map cells axes /\
  (regular r = true <-> (forall a, In a axes -> regular a = true) /\ equal_steps (flat_map cells axes)).
Proof.
  intros N H O. destruct axes as [|a [|a' axes]]; [congruence| |].
  - exists a. split; [reflexivity|]. cbn [flat_map]. rewrite app_nil_r. split; [reflexivity|]. split.
    + intros R. split; [intros c [<-|[]]; exact R|]. exact (steps_equal_steps _ _ _ (regular_steps _ (H a (or_introl eq_refl)) R)).
    + intros [R _]. apply R. now left.
  - unfold combine_axes. set (axes' := a' :: axes) in *. set (w := width _). set (fl := flat_map cells (a :: axes')) in *.
    assert (A : axis_cells (regular a) (cells a)) by (apply H; now left).
    destruct (regular a && continues w (end_of (cells a)) axes') eqn:Q.
    + apply andb_true_iff in Q. destruct Q as [R K].
      assert (S : steps_from (start_of (cells a)) w fl).
      { apply steps_app; [apply A | now apply regular_steps |]. apply continues_steps; [|exact K]. intros c Hc. apply H. now right. }
      pose proof (regular_cells_steps _ _ _ S) as Z. unfold regular_axis. cbn [cells]. rewrite <- Z, (proj2 (ordered_ascending _) O), andb_false_r.
      eexists. split; [reflexivity|]. cbn [cells regular]. split; [reflexivity|]. split; [|reflexivity]. intros _. split; [|exact (steps_equal_steps _ _ _ S)].
      intros c [<-|Hc]; [exact R|]. clear - K Hc. revert K. generalize (end_of (cells a)). induction axes' as [|d l IH]; intros e K; [destruct Hc|].
      cbn [continues] in K. rewrite !andb_true_iff in K. destruct Hc as [<-|Hc]; [tauto|]. apply (IH Hc (end_of (cells d))). tauto.
    + cbn [cells]. rewrite (proj2 (ordered_ascending _) O), andb_false_r. eexists. split; [reflexivity|]. cbn [cells regular]. split; [reflexivity|].
      split; [discriminate|]. intros [R S]. rewrite (R a (or_introl eq_refl)) in Q. cbn [andb] in Q. rewrite <- Q. symmetry. symmetry. apply steps_continue.
      * intros c Hc. split; [apply (H c); now right | apply R; now right].
      * assert (NF : fl <> []) by (unfold fl; cbn [flat_map]; destruct A as (NA & _); destruct (cells a); [congruence|discriminate]).
        pose proof (equal_steps_from _ NF S) as F. unfold fl in F at 3. cbn [flat_map] in F.
        assert (NA : cells a <> []) by apply A.
        assert (W : width (hd (0, 0)%Qc fl) = w) by (unfold fl, w; cbn [flat_map]; destruct (cells a); [congruence|reflexivity]). rewrite W in F.
        apply steps_split in F; [|exact NA]. apply F.
Qed.

(** The first start and the last end of cells *)
Definition range (a : axis) : cell := (start_of (cells a), end_of (cells a)).

Lemma ascending_app : forall l m, l <> [] -> m <> [] -> ascending (l ++ m) -> (start_of l < end_of l)%Qc /\ (end_of l <= start_of m)%Qc /\ ascending m.
Proof.
  induction l as [|c l IH]; intros m N M H; [congruence|]. cbn [app ascending] in H. destruct H as (A & B & C). destruct l as [|d l].
  - destruct m as [|e m]; [congruence|]. cbn [app] in *. split; [exact A|]. split; [exact B | exact C].
  - destruct (IH m ltac:(discriminate) M C) as (D & E & F). split; [|split; [exact E | exact F]].
    change (fst c < end_of (d :: l))%Qc. apply Qclt_trans with (snd c); [exact A|]. apply Qcle_lt_trans with (fst d); [exact B | exact D].
Qed.

Lemma ascending_start l : l <> [] -> ascending l -> (start_of l < end_of l)%Qc.
Proof.
  induction l as [|c l IH]; intros N H; [congruence|]. destruct H as (A & B & C). destruct l as [|d l]; [exact A|].
  change (fst c < end_of (d :: l))%Qc. apply Qclt_trans with (snd c); [exact A|]. apply Qcle_lt_trans with (fst d); [exact B|]. apply IH; [discriminate | exact C].
Qed.

Lemma ascending_ranges : forall axes, (forall a, In a axes -> cells a <> []) -> ascending (flat_map cells axes) -> ascending (map range axes).
Proof.
  induction axes as [|a axes IH]; intros N H; [exact I|]. cbn [map ascending]. assert (NA : cells a <> []) by (apply N; now left). destruct axes as [|b axes].
  - cbn [flat_map] in H. rewrite app_nil_r in H. split; [|split; exact I]. now apply ascending_start.
  - cbn [flat_map] in H. fold (flat_map cells axes) in H. assert (NB : cells b <> []) by (apply N; right; now left).
    apply ascending_app in H; [|exact NA | destruct (cells b); [congruence|discriminate]]. destruct H as (A & B & C).
    split; [exact A|]. split; [|apply IH; [intros c Hc; apply N; now right | exact C]]. cbn [map range fst snd].
    destruct (cells b) eqn:Q; [congruence|]. exact B.
Qed.

Lemma bounding_boxes xs : forall ys, map bounding (boxes_of xs ys) = boxes_of (map range xs) (map range ys).
Proof. induction ys as [|y ys IH]; [reflexivity|]. cbn [boxes_of map]. rewrite map_app, IH, !map_map. reflexivity. Qed.

(** C105: grids that fill rows and columns in ascending order are accepted, with and without asserts, and the cells of the axes are those of the grids.
    An axis is regular exactly if those of the grids are and all steps are equal. *)
Theorem C105_grids_complete a xs ys : xs <> [] -> ys <> [] -> (forall x, In x xs \/ In x ys -> axis_cells (regular x) (cells x)) ->
  ascending (flat_map cells xs) -> ascending (flat_map cells ys) ->
  exists r, make_grid a (boxes_of xs ys) = Ok r /\ cells (fst r) = flat_map cells xs /\ cells (snd r) = flat_map cells ys /\
  (regular (fst r) = true <-> (forall x, In x xs -> regular x = true) /\ equal_steps (flat_map cells xs)) /\
  (regular (snd r) = true <-> (forall y, In y ys -> regular y = true) /\ equal_steps (flat_map cells ys)).
Proof.
  intros NX NY W AX AY.
  destruct (combine_axes_ok a xs NX ltac:(intros x Hx; apply W; auto) AX) as (ax & EX & CX & RX).
  destruct (combine_axes_ok a ys NY ltac:(intros y Hy; apply W; auto) AY) as (ay & EY & CY & RY).
  assert (S : setup_grids a (boxes_of xs ys) = Ok (ax, ay)).
  { destruct xs as [|x xs]; [congruence|]. destruct ys as [|y ys]; [congruence|]. set (gs := boxes_of (x :: xs) (y :: ys)).
    destruct (C105_complete a (map range (x :: xs)) (map range (y :: ys))) as (dx & dy & D & DX & DY); try discriminate.
    1,2: apply ascending_ranges; [intros c Hc; apply W; auto | assumption].
    rewrite <- bounding_boxes in D. fold gs in D. assert (G : gs = (x, y) :: tl gs) by reflexivity.
    assert (GA : forall i j x' y', nth_error (x :: xs) i = Some x' -> nth_error (y :: ys) j = Some y' -> grid_at gs (x, y) (j * length (x :: xs) + i) = (x', y')).
    { intros i j x' y' Hi Hj. unfold grid_at. apply nth_error_nth. now apply boxes_nth. }
    assert (GX : forall i, i < length (x :: xs) -> exists x', nth_error (x :: xs) i = Some x').
    { intros i Hi. destruct (nth_error (x :: xs) i) eqn:Q; [eauto|]. apply nth_error_None in Q. lia. }
    assert (GY : forall j, j < length (y :: ys) -> exists y', nth_error (y :: ys) j = Some y').
    { intros j Hj. destruct (nth_error (y :: ys) j) eqn:Q; [eauto|]. apply nth_error_None in Q. lia. }
    assert (LX : length (cells dx) = length (x :: xs)) by (rewrite DX; apply map_length). assert (LY : length (cells dy) = length (y :: ys)) by (rewrite DY; apply map_length).
    assert (U : forall f g, f = g :: tl f -> setup_grids a f = let! d := setup a (map bounding f) in
      let nx := length (cells (fst d)) in let ny := length (cells (snd d)) in
      let! ax := combine_axes a (map (fun i => fst (grid_at f g i)) (seq 0 nx)) in let! ay := combine_axes a (map (fun j => snd (grid_at f g (j * nx))) (seq 0 ny)) in
      if a && negb (same_axes f g nx ny) then Throw else Ok (ax, ay)) by (intros f g E; rewrite E; reflexivity).
    rewrite (U gs (x, y) G), D. cbn [bind]. cbv zeta. cbn [fst snd]. rewrite LX, LY.
    assert (MX : map (fun i => fst (grid_at gs (x, y) i)) (seq 0 (length (x :: xs))) = x :: xs).
    { apply nth_error_ext; [now rewrite map_length, seq_length|]. intros i Hi. rewrite map_length, seq_length in Hi. destruct (GX i Hi) as [x' Hx]. rewrite Hx.
      assert (F : nth_error (seq 0 (length (x :: xs))) i = Some i) by (rewrite (nth_error_nth' _ 0) by (rewrite seq_length; lia); now rewrite seq_nth by lia).
      rewrite (map_nth_error (fun i => fst (grid_at gs (x, y) i)) i _ F). change i with (0 * length (x :: xs) + i) at 1. now rewrite (GA i 0 x' y Hx eq_refl). }
    assert (MY : map (fun j => snd (grid_at gs (x, y) (j * length (x :: xs)))) (seq 0 (length (y :: ys))) = y :: ys).
    { apply nth_error_ext; [now rewrite map_length, seq_length|]. intros j Hj. rewrite map_length, seq_length in Hj. destruct (GY j Hj) as [y' Hy]. rewrite Hy.
      assert (F : nth_error (seq 0 (length (y :: ys))) j = Some j) by (rewrite (nth_error_nth' _ 0) by (rewrite seq_length; lia); now rewrite seq_nth by lia).
      rewrite (map_nth_error (fun j => snd (grid_at gs (x, y) (j * length (x :: xs)))) j _ F).
      replace (j * length (x :: xs)) with (j * length (x :: xs) + 0) by lia. now rewrite (GA 0 j x y' eq_refl Hy). }
    rewrite MX, EX. cbn [bind]. rewrite MY, EY. cbn [bind].
    assert (SA : same_axes gs (x, y) (length (x :: xs)) (length (y :: ys)) = true).
    { unfold same_axes. apply andb_true_iff. split; apply forallb_forall; intros j Hj; apply in_seq in Hj; apply forallb_forall; intros i Hi; apply in_seq in Hi;
        destruct (GX i ltac:(lia)) as [x' Hx]; destruct (GY j ltac:(lia)) as [y' Hy]; rewrite (GA i j x' y' Hx Hy).
      - change i with (0 * length (x :: xs) + i) at 1. rewrite (GA i 0 x' y Hx eq_refl). apply C92_equal; [| |reflexivity]; apply W; left; exact (nth_error_In _ _ Hx).
      - replace (j * length (x :: xs)) with (j * length (x :: xs) + 0) by lia. rewrite (GA 0 j x y' eq_refl Hy). apply C92_equal; [| |reflexivity]; apply W; right; exact (nth_error_In _ _ Hy). }
    rewrite SA, andb_false_r. reflexivity. }
  exists (ax, ay). cbn [fst snd]. split; [|auto].
  unfold make_grid. destruct (boxes_of xs ys) as [|g [|g' gs]] eqn:B; [exact S| |exact S].
  destruct xs as [|x xs]; [congruence|]. destruct ys as [|y ys]; [congruence|]. pose proof (boxes_length (x :: xs) (y :: ys)) as L. rewrite B in L. cbn in L.
  destruct xs as [|]; [|cbn in L; nia]. destruct ys as [|]; [|cbn in L; nia]. cbn in B, EX, EY. congruence.
Qed.

(** Two columns of grids, with two cells of width 1 and with one cell of width 2, and two rows of grids that together are regular *)
Example grids_example : exists r, make_grid true (boxes_of [regular_axis 0%Qc 1%Qc 2; regular_axis (1 + 1)%Qc (1 + 1)%Qc 1] [regular_axis 0%Qc 1%Qc 1; regular_axis 1%Qc 1%Qc 1]) = Ok r /\
  cells (fst r) = [c01; c12; c24] /\ cells (snd r) = [c01; c12] /\ regular (fst r) = false /\ regular (snd r) = true.
Proof. eexists. repeat split; reflexivity. Qed.
(** The axes of these grids are what the theorems assume. *)
Example grids_axes : axis_cells true (cells (regular_axis 0%Qc 1%Qc 2)) /\ ascending (flat_map cells [regular_axis 0%Qc 1%Qc 2; regular_axis (1 + 1)%Qc (1 + 1)%Qc 1]).
Proof.
  split; [split; [discriminate|]; split; [repeat split; discriminate|]|repeat split; discriminate].
  intros _. exists 0%Qc, (1 + 1)%Qc, 1%Qc. split; [repeat split; reflexivity|]. intros s e [H|[H|[]]]; injection H as <- <-; reflexivity.
Qed.
(** The second row has other columns. *)
Example grids_throw : make_grid true [(regular_axis 0%Qc 1%Qc 2, regular_axis 0%Qc 1%Qc 1); (regular_axis 0%Qc (1 + 1)%Qc 1, regular_axis 1%Qc 1%Qc 1)] = Throw.
Proof. reflexivity. Qed.

Print Assumptions C105_grids.
Print Assumptions C105_grids_complete.
