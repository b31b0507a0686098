(** C85: updating a measurement set puts the fields of each buffer in the selected channels of its own rows. *)
From Coq Require Import String QArith Qcanon List Bool Arith Lia ZifyBool.
From Verif Require Import QcUtil AverageModel InfoModel InfoProofs FieldsModel CellsModel CellsSpec CellsProofs CellsProps DdecalProofs
  UpdateMsModel UpdateMsSpec.
Import ListNotations.
Open Scope nat_scope.

Lemma mask_length {A} (bad : A) : forall f l, length (mask bad f l) = length l.
Proof. induction f as [|a f IH]; intros [|x l]; cbn; auto. Qed.
Lemma mask_nth {A} (bad d : A) : forall f l i, i < length l -> nth i (mask bad f l) d = if nth i f false then bad else nth i l d.
Proof. induction f as [|a f IH]; intros [|x l] [|i] H; cbn in *; try lia; auto. apply IH. lia. Qed.

Section Planes.
Variable u : updater.

Lemma plane_get {A} (l : list A) b c p d : c < u_chan u -> p < u_corr u ->
  nth p (nth c (plane u l b) []) d = value (u_chan u) (u_corr u) l b c p d.
Proof.
  intros Hc Hp. unfold plane. set (g := fun c => firstn (u_corr u) (skipn ((b * u_chan u + c) * u_corr u) l)).
  rewrite nth_indep with (d' := g 0) by now rewrite map_length, seq_length.
  rewrite map_nth, seq_nth by auto. cbn [Nat.add]. subst g. cbn beta. rewrite nth_firstn', nth_skipn' by auto. reflexivity.
Qed.
Lemma plane_shape {A} (l : list A) b : length l = u_bl u * u_chan u * u_corr u -> b < u_bl u -> shaped (u_chan u) (u_corr u) (plane u l b).
Proof.
  intros L Hb. split. { unfold plane. now rewrite map_length, seq_length. }
  apply Forall_forall. intros x Hx. unfold plane in Hx. apply in_map_iff in Hx as (c & <- & Hc). apply in_seq in Hc.
  rewrite firstn_length, skipn_length, L. pose proof (below b c _ _ Hb (proj2 Hc)).
  pose proof (Nat.mul_le_mono_r (b * u_chan u + c + 1) (u_bl u * u_chan u) (u_corr u)). lia.
Qed.
Lemma plane_clear (l : list bool) b : length l = u_bl u * u_chan u * u_corr u -> b < u_bl u ->
  existsb (existsb negb) (plane u l b) = true <-> exists c p, c < u_chan u /\ p < u_corr u /\ value (u_chan u) (u_corr u) l b c p false = false.
Proof.
  intros L Hb. destruct (plane_shape l b L Hb) as [S1 S2]. rewrite existsb_exists. split.
  - intros (x & Hx & Hn). apply existsb_exists in Hn as (f & Hf & E).
    apply (In_nth _ _ []) in Hx as (c & Hc & Ec). subst x. rewrite Forall_forall in S2.
    pose proof (S2 _ (nth_In (plane u l b) [] Hc)) as Lp. apply (In_nth _ _ false) in Hf as (p & Hp & Ep). rewrite Lp in Hp. rewrite S1 in Hc.
    exists c, p. split; auto. split; auto. rewrite <- plane_get by auto. rewrite Ep. now destruct f.
  - intros (c & p & Hc & Hp & E). exists (nth c (plane u l b) []). split. { apply nth_In. now rewrite S1. }
    apply existsb_exists. exists false. split; auto. rewrite <- E, <- plane_get by auto. apply nth_In.
    rewrite Forall_forall in S2. rewrite (S2 (nth c (plane u l b) [])); auto. apply nth_In. now rewrite S1.
Qed.
Lemma put_slice_ok {A} (cell new : list (list A)) d : u_start u + u_chan u <= u_orig u -> shaped (u_orig u) (u_corr u) cell ->
  shaped (u_chan u) (u_corr u) new -> exists cell', put_slice u cell new = Ok cell' /\
  replaced (u_orig u) (u_corr u) (u_start u) (u_chan u) true (fun c p => stored new c p d) d cell cell'.
Proof.
  intros H [C1 C2] [N1 N2]. unfold put_slice. replace (_ <=? _) with true by lia. eexists. split; [reflexivity|]. split.
  - split. { rewrite !app_length, firstn_length, skipn_length. lia. }
    rewrite !Forall_app. split; [|split]; auto.
    + apply Forall_forall. intros x Hx. rewrite Forall_forall in C2. apply C2. rewrite <- (firstn_skipn (u_start u) cell), in_app_iff. auto.
    + apply Forall_forall. intros x Hx. rewrite Forall_forall in C2. apply C2. rewrite <- (firstn_skipn (u_start u + u_chan u) cell), in_app_iff. auto.
  - intros c p Hc Hp. cbn [andb]. unfold stored. destruct (Nat.leb_spec (u_start u) c); cbn [andb].
    + rewrite app_nth2 by (rewrite firstn_length; lia). rewrite firstn_length. rewrite Nat.min_l by lia.
      destruct (Nat.ltb_spec c (u_start u + u_chan u)).
      * rewrite app_nth1 by lia. reflexivity.
      * rewrite app_nth2 by lia. rewrite nth_skipn'. do 2 f_equal. lia.
    + rewrite app_nth1 by (rewrite firstn_length; lia). now rewrite nth_firstn'.
Qed.
Lemma replaced_all {A} (cell new : list (list A)) d : u_orig u = u_chan u -> u_start u + u_chan u <= u_orig u -> shaped (u_chan u) (u_corr u) new ->
  replaced (u_orig u) (u_corr u) (u_start u) (u_chan u) true (fun c p => stored new c p d) d cell new.
Proof.
  intros E H S. split; [now rewrite E|]. intros c p Hc Hp. replace (u_start u) with 0 by lia. cbn [andb]. replace (c <? 0 + u_chan u) with true by lia.
  cbn. f_equal. lia.
Qed.
Lemma replaced_ext {A} ch co s n w (f g : nat -> nat -> A) d x y : (forall c p, c < n -> p < co -> f c p = g c p) ->
  replaced ch co s n w f d x y -> replaced ch co s n w g d x y.
Proof.
  intros E [S H]. split; auto. intros c p Hc Hp. rewrite H by auto. destruct (w && _ && _) eqn:B; auto. apply E; auto. lia.
Qed.
Lemma replaced_not {A} ch co s n (f : nat -> nat -> A) d x : shaped ch co x -> replaced ch co s n false f d x x.
Proof. intros S. split; auto. Qed.
End Planes.

Section Update.
Variables (D : Type) (nan zero : D).
Implicit Types (buf : buffer D) (ms : list (ms_row D)).

(** The rows that are put are those of the buffer, each with its own baseline *)
Lemma put_rows_ok {A} u (put : list (list A) -> ms_row D -> outcome (ms_row D)) l : forall rows b ms, NoDup rows ->
  (forall j r, nth_error rows j = Some r -> exists x y, nth_error ms r = Some x /\ put (plane u l (b + j)) x = Ok y) ->
  exists ms', put_rows u put l b rows ms = Ok ms' /\ length ms' = length ms /\ (forall r, ~ In r rows -> nth_error ms' r = nth_error ms r) /\
    (forall j r x, nth_error rows j = Some r -> nth_error ms r = Some x ->
       exists y, put (plane u l (b + j)) x = Ok y /\ nth_error ms' r = Some y).
Proof.
  induction rows as [|r0 rows IH]; intros b ms N H.
  - exists ms. split; [reflexivity|]. split; [reflexivity|]. split; [reflexivity|]. intros [|j]; discriminate.
  - apply NoDup_cons_iff in N as [N0 N]. destruct (H 0 r0 eq_refl) as (x0 & y0 & E0 & P0). rewrite Nat.add_0_r in P0. cbn [put_rows].
    rewrite E0, P0. assert (L0 : r0 < length ms) by (apply nth_error_Some; congruence).
    destruct (IH (b + 1) (set_nth ms r0 y0) N) as (ms' & R & L & O & W).
    { intros j r Hr. destruct (H (S j) r Hr) as (x & y & E & P). exists x, y. rewrite set_nth_get.
      replace (r =? r0) with false by (symmetry; apply Nat.eqb_neq; intros ->; apply N0; eapply nth_error_In; eauto).
      split; auto. now replace (b + 1 + j) with (b + S j) by lia. }
    exists ms'. split; auto. split; [rewrite L; apply set_nth_length|]. split.
    + intros r Hr. rewrite O by (intros I; apply Hr; now right). rewrite set_nth_get. destruct (Nat.eqb_spec r r0); auto. subst. exfalso. apply Hr. now left.
    + intros [|j] r x Hr Hx.
      * injection Hr as <-. rewrite Nat.add_0_r. exists y0. assert (x0 = x) by congruence. subst x0. split; auto.
        rewrite O by auto. rewrite set_nth_get, Nat.eqb_refl, E0. reflexivity.
      * cbn [nth_error] in Hr. assert (Nr : r <> r0) by (intros ->; apply N0; eapply nth_error_In; eauto).
        destruct (W j r x Hr) as (y & P & E). { rewrite set_nth_get. now replace (r =? r0) with false by (symmetry; now apply Nat.eqb_neq). }
        exists y. split; auto. now replace (b + S j) with (b + 1 + j) by lia.
Qed.

(** A measurement set whose arrays, in the columns to write, have all channels and correlations; [rows] are rows of it *)
Definition fits u ms (rows : list nat) : Prop :=
  u_start u + u_chan u <= u_orig u /\
  forall r, In r rows -> exists x, nth_error ms r = Some x /\ shaped (u_orig u) (u_corr u) (t_data x (col_data (u_cols u))) /\
    shaped (u_orig u) (u_corr u) (t_flag x (col_flags (u_cols u))) /\ shaped (u_orig u) (u_corr u) (t_spectrum x (col_weights (u_cols u))).
(** A buffer that has the fields to write, for a stored time slot *)
Definition complete u buf : Prop :=
  let size := u_bl u * u_chan u * u_corr u in
  (f_data (u_fields u) = true -> length (b_data buf) = size) /\ (f_flags (u_fields u) = true -> length (b_flags buf) = size) /\
  (f_weights (u_fields u) = true -> length (b_weights buf) = size) /\
  NoDup (b_rows buf) /\ length (b_rows buf) = u_bl u.
(** What becomes of a row with the values of baseline [b] of a buffer *)
Definition row_updated u buf b (x y : ms_row D) : Prop :=
  let new {A} (cube : list A) (bad d : A) c p :=
    if u_dysco u && value (u_chan u) (u_corr u) (b_flags buf) b c p false then bad else value (u_chan u) (u_corr u) cube b c p d in
  let w := u_fields u in
  replaced (u_orig u) (u_corr u) (u_start u) (u_chan u) (f_data w) (new (b_data buf) nan zero) zero
    (t_data x (col_data (u_cols u))) (t_data y (col_data (u_cols u))) /\
  replaced (u_orig u) (u_corr u) (u_start u) (u_chan u) (f_weights w) (new (b_weights buf) 0%Qc 0%Qc) 0%Qc
    (t_spectrum x (col_weights (u_cols u))) (t_spectrum y (col_weights (u_cols u))) /\
  replaced (u_orig u) (u_corr u) (u_start u) (u_chan u) (f_flags w) (fun c p => value (u_chan u) (u_corr u) (b_flags buf) b c p false) false
    (t_flag x (col_flags (u_cols u))) (t_flag y (col_flags (u_cols u))) /\
  (forall n, n <> col_data (u_cols u) -> t_data y n = t_data x n) /\ (forall n, n <> col_flags (u_cols u) -> t_flag y n = t_flag x n) /\
  (forall n, n <> col_weights (u_cols u) -> t_spectrum y n = t_spectrum x n) /\ t_weight y = t_weight x /\
  (t_flag_row y = true <-> t_flag_row x = true /\ (f_flags w = true -> forall c p, c < u_chan u -> p < u_corr u ->
                                                     value (u_chan u) (u_corr u) (b_flags buf) b c p false = true)).

Lemma put_column_same {A} n (v : A) f : put_column n v f n = v.
Proof. unfold put_column. now rewrite String.eqb_refl. Qed.
Lemma put_column_other {A} n m (v : A) f : m <> n -> put_column n v f m = f m.
Proof. intros H. unfold put_column. apply String.eqb_neq in H. now rewrite H. Qed.

(** Putting one field in the rows of the buffer *)
Lemma put_field_ok {A} u w (l : list A) change put rows ms :
  (w = true -> length l = u_bl u * u_chan u * u_corr u) -> NoDup rows ->
  (w = true -> forall b r, nth_error rows b = Some r -> exists x y, nth_error ms r = Some x /\ put (plane u (change l) b) x = Ok y) ->
  (forall r, In r rows -> nth_error ms r <> None) ->
  exists ms', put_field u w l change put rows ms = Ok ms' /\ length ms' = length ms /\ (forall r, ~ In r rows -> nth_error ms' r = nth_error ms r) /\
    (forall b r x, nth_error rows b = Some r -> nth_error ms r = Some x ->
       exists y, nth_error ms' r = Some y /\ if w then put (plane u (change l) b) x = Ok y else y = x).
Proof.
  intros L N H I. unfold put_field. destruct w.
  - unfold cube. rewrite L, Nat.eqb_refl by auto. destruct (put_rows_ok u put (change l) rows 0 ms N (H eq_refl)) as (ms' & R & L' & O & W).
    exists ms'. split; auto. split; auto. split; auto. intros b r x Hr Hx. destruct (W b r x Hr Hx) as (y & P & E). exists y. auto.
  - exists ms. split; auto. split; auto. split; auto. intros b r x Hr Hx. exists x. auto.
Qed.

(** C85: the fields of a buffer that are written go to the selected channels of its rows, each baseline to its own row.  Nothing else of
    these rows changes, except FLAG_ROW, and no other row. *)
Theorem C85_update : forall u buf ms, fits u ms (b_rows buf) -> complete u buf ->
  exists ms', update nan u buf ms = Ok ms' /\ length ms' = length ms /\
    (forall r, ~ In r (b_rows buf) -> nth_error ms' r = nth_error ms r) /\
    (forall b r x, nth_error (b_rows buf) b = Some r -> nth_error ms r = Some x -> exists y, nth_error ms' r = Some y /\ row_updated u buf b x y).
Proof.
  intros u buf ms [Hs F] (Ld & Lf & Lw & N & Lr). unfold update. set (rows := b_rows buf) in *. set (w := u_fields u) in *.
  assert (Hb : forall b r, nth_error rows b = Some r -> b < u_bl u) by (intros b r H; rewrite <- Lr; apply nth_error_Some; congruence).
  assert (Hin : forall b r, nth_error rows b = Some r -> In r rows) by (intros b r H; eapply nth_error_In; eauto).
  set (cols := u_cols u) in *.
  destruct (put_field_ok u (f_flags w) (b_flags buf) (fun l => l) (put_flags_row u) rows ms Lf N) as (m1 & R1 & L1 & O1 & W1).
  { intros Hw b r Hr. destruct (F r (Hin b r Hr)) as (x & E & _ & Sf & _). exists x. unfold put_flags_row. fold cols.
    destruct (put_slice_ok u (t_flag x (col_flags cols)) (plane u (b_flags buf) b) false Hs Sf) as (cell & P & _).
    { apply plane_shape; eauto. }
    rewrite P. eauto. }
  { intros r Hr. destruct (F r Hr) as (x & E & _). congruence. }
  rewrite R1.
  assert (G1 : forall b r x, nth_error rows b = Some r -> nth_error ms r = Some x -> exists y, nth_error m1 r = Some y /\
    t_data y = t_data x /\ t_spectrum y = t_spectrum x /\ t_weight y = t_weight x /\
    replaced (u_orig u) (u_corr u) (u_start u) (u_chan u) (f_flags w) (fun c p => value (u_chan u) (u_corr u) (b_flags buf) b c p false) false
      (t_flag x (col_flags cols)) (t_flag y (col_flags cols)) /\ (forall n, n <> col_flags cols -> t_flag y n = t_flag x n) /\
    (t_flag_row y = true <-> t_flag_row x = true /\ (f_flags w = true -> forall c p, c < u_chan u -> p < u_corr u ->
                                                     value (u_chan u) (u_corr u) (b_flags buf) b c p false = true))).
  { intros b r x Hr Hx. destruct (W1 b r x Hr Hx) as (y & E & P). exists y. split; auto. destruct (F r (Hin b r Hr)) as (x' & E' & _ & Sf & _).
    assert (x' = x) by congruence. subst x'. destruct (f_flags w) eqn:Ew.
    - unfold put_flags_row in P. fold cols in P.
      destruct (put_slice_ok u (t_flag x (col_flags cols)) (plane u (b_flags buf) b) false Hs Sf) as (cell & Pc & Q). { apply plane_shape; eauto. }
      rewrite Pc in P. injection P as <-. cbn [t_data t_spectrum t_weight t_flag t_flag_row]. split; auto. split; auto. split; auto. split; [|split].
      + rewrite put_column_same. eapply replaced_ext; [|exact Q]. cbn beta. intros c p Hc Hp. now apply plane_get.
      + intros n Hn. now apply put_column_other.
      + pose proof (plane_clear u (b_flags buf) b (Lf eq_refl) (Hb b r Hr)) as K. destruct (existsb _ _).
        * split; [discriminate|]. intros [_ A]. destruct (proj1 K eq_refl) as (c & p & Hc & Hp & V). rewrite (A eq_refl c p Hc Hp) in V. discriminate.
        * split; [|tauto]. intros Hy. split; auto. intros _ c p Hc Hp. destruct (value _ _ _ _ _ _ _) eqn:V; auto.
          destruct K as [_ K]. exfalso. assert (false = true) by (apply K; eauto). discriminate.
    - subst y. split; auto. split; auto. split; auto. split; [now apply replaced_not|]. split; auto. split; [|tauto]. intros Hy. split; auto. discriminate. }
  set (masked := fun (A : Type) (bad : A) (l : list A) => if u_dysco u then mask bad (b_flags buf) l else l).
  assert (Lm : forall A (bad : A) l, length (masked A bad l) = length l) by (intros A bad l; subst masked; cbn; destruct (u_dysco u); auto; apply mask_length).
  assert (Vm : forall A (bad d : A) l b c p, length l = u_bl u * u_chan u * u_corr u -> b < u_bl u -> c < u_chan u -> p < u_corr u ->
    value (u_chan u) (u_corr u) (masked A bad l) b c p d =
    if u_dysco u && value (u_chan u) (u_corr u) (b_flags buf) b c p false then bad else value (u_chan u) (u_corr u) l b c p d).
  { intros A bad d l b c p L B C P. subst masked. cbn. destruct (u_dysco u); cbn [andb]; auto. unfold value. apply mask_nth. rewrite L. now apply below_cube. }
  destruct (put_field_ok u (f_data w) (b_data buf) (masked D nan) (put_data_row u) rows m1 Ld N) as (m2 & R2 & L2 & O2 & W2).
  { intros Hw b r Hr. destruct (F r (Hin b r Hr)) as (x0 & E0 & Sd & _). destruct (G1 b r x0 Hr E0) as (x & E & Gd & _). exists x. unfold put_data_row. fold cols.
    destruct (u_orig u =? u_chan u); eauto. destruct (put_slice_ok u (t_data x (col_data cols)) (plane u (masked D nan (b_data buf)) b) zero Hs) as (cell & P & _).
    { now rewrite Gd. } { apply plane_shape; eauto. rewrite Lm. auto. }
    rewrite P. eauto. }
  { intros r Hr. apply In_nth_error in Hr as (b & Hr). destruct (F r (Hin b r Hr)) as (x0 & E0 & _). destruct (G1 b r x0 Hr E0) as (x & E & _). congruence. }
  change (fun l : list D => if u_dysco u then mask nan (b_flags buf) l else l) with (masked D nan). rewrite R2.
  assert (G2 : forall b r x, nth_error rows b = Some r -> nth_error m1 r = Some x -> shaped (u_orig u) (u_corr u) (t_data x (col_data cols)) ->
    exists y, nth_error m2 r = Some y /\
    t_flag y = t_flag x /\ t_flag_row y = t_flag_row x /\ t_spectrum y = t_spectrum x /\ t_weight y = t_weight x /\
    replaced (u_orig u) (u_corr u) (u_start u) (u_chan u) (f_data w)
      (fun c p => if u_dysco u && value (u_chan u) (u_corr u) (b_flags buf) b c p false then nan else value (u_chan u) (u_corr u) (b_data buf) b c p zero) zero
      (t_data x (col_data cols)) (t_data y (col_data cols)) /\ (forall n, n <> col_data cols -> t_data y n = t_data x n)).
  { intros b r x Hr Hx Sd. destruct (W2 b r x Hr Hx) as (y & E & P). exists y. split; auto. destruct (f_data w) eqn:Ew.
    - unfold put_data_row in P. fold cols in P.
      assert (Sp : shaped (u_chan u) (u_corr u) (plane u (masked D nan (b_data buf)) b)). { apply plane_shape; eauto. rewrite Lm. auto. }
      assert (Q : exists cell, (if u_orig u =? u_chan u then Ok (plane u (masked D nan (b_data buf)) b) else
                                  put_slice u (t_data x (col_data cols)) (plane u (masked D nan (b_data buf)) b)) = Ok cell /\
        replaced (u_orig u) (u_corr u) (u_start u) (u_chan u) true (fun c p => stored (plane u (masked D nan (b_data buf)) b) c p zero) zero
          (t_data x (col_data cols)) cell).
      { destruct (Nat.eqb_spec (u_orig u) (u_chan u)). { eexists. split; [reflexivity|]. now apply replaced_all. } now apply put_slice_ok. }
      destruct Q as (cell & Pc & Q). rewrite Pc in P. injection P as <-. cbn [t_data t_spectrum t_weight t_flag t_flag_row].
      split; auto. split; auto. split; auto. split; auto. split; [|intros n Hn; now apply put_column_other].
      rewrite put_column_same. eapply replaced_ext; [|exact Q]. cbn beta. intros c p Hc Hp. unfold stored. rewrite plane_get by auto. apply Vm; eauto.
    - subst y. split; auto. split; auto. split; auto. split; auto. split; auto. now apply replaced_not. }
  destruct (put_field_ok u (f_weights w) (b_weights buf) (masked Qc 0%Qc) (put_weights_row u) rows m2 Lw N) as (m3 & R3 & L3 & O3 & W3).
  { intros Hw b r Hr. destruct (F r (Hin b r Hr)) as (x0 & E0 & Sd & _ & Sw). destruct (G1 b r x0 Hr E0) as (x1 & E1 & Gd & Gs & _).
    destruct (G2 b r x1 Hr E1) as (x & E & _ & _ & Gs' & _). { now rewrite Gd. }
    exists x. unfold put_weights_row. fold cols.
    destruct (put_slice_ok u (t_spectrum x (col_weights cols)) (plane u (masked Qc 0%Qc (b_weights buf)) b) 0%Qc Hs) as (cell & P & _).
    { now rewrite Gs', Gs. } { apply plane_shape; eauto. rewrite Lm. auto. }
    rewrite P. eauto. }
  { intros r Hr. apply In_nth_error in Hr as (b & Hr). destruct (F r (Hin b r Hr)) as (x0 & E0 & Sd & _). destruct (G1 b r x0 Hr E0) as (x1 & E1 & Gd & _).
    destruct (G2 b r x1 Hr E1) as (x & E & _). { now rewrite Gd. } congruence. }
  change (fun l : list Qc => if u_dysco u then mask 0%Qc (b_flags buf) l else l) with (masked Qc 0%Qc). rewrite R3.
  exists m3. split; auto. split; [congruence|]. split. { intros r Hr. now rewrite O3, O2, O1. }
  intros b r x Hr Hx. destruct (F r (Hin b r Hr)) as (x' & E' & Sd & _ & Sw). assert (x' = x) by congruence. subst x'.
  destruct (G1 b r x Hr Hx) as (y1 & E1 & A1 & A2 & A3 & A4 & A5 & A6). destruct (G2 b r y1 Hr E1) as (y2 & E2 & B1 & B2 & B3 & B4 & B5 & B6). { now rewrite A1. }
  destruct (W3 b r y2 Hr E2) as (y3 & E3 & P). exists y3. split; auto. unfold row_updated. fold cols. fold w. cbv zeta.
  assert (Q : t_data y3 = t_data y2 /\ t_flag y3 = t_flag y2 /\ t_flag_row y3 = t_flag_row y2 /\ t_weight y3 = t_weight y2 /\
    (forall n, n <> col_weights cols -> t_spectrum y3 n = t_spectrum y2 n) /\
    replaced (u_orig u) (u_corr u) (u_start u) (u_chan u) (f_weights w)
      (fun c p => if u_dysco u && value (u_chan u) (u_corr u) (b_flags buf) b c p false then 0%Qc else value (u_chan u) (u_corr u) (b_weights buf) b c p 0%Qc) 0%Qc
      (t_spectrum y2 (col_weights cols)) (t_spectrum y3 (col_weights cols))).
  { destruct (f_weights w) eqn:Ew.
    - unfold put_weights_row in P. fold cols in P.
      destruct (put_slice_ok u (t_spectrum y2 (col_weights cols)) (plane u (masked Qc 0%Qc (b_weights buf)) b) 0%Qc Hs) as (cell & Pc & Q).
      { now rewrite B3, A2. } { apply plane_shape; eauto. rewrite Lm. auto. }
      rewrite Pc in P. injection P as <-. cbn [t_data t_spectrum t_weight t_flag t_flag_row]. split; auto. split; auto. split; auto. split; auto.
      split; [intros n Hn; now apply put_column_other|]. rewrite put_column_same. eapply replaced_ext; [|exact Q]. cbn beta. intros c p Hc Hp.
      unfold stored. rewrite plane_get by auto. apply Vm; eauto.
    - subst y3. split; auto. split; auto. split; auto. split; auto. split; auto. apply replaced_not. now rewrite B3, A2. }
  destruct Q as (Q1 & Q2 & Q3 & Q4 & Q5 & Q6). rewrite Q1, Q2, Q3, Q4, B1, B2, B4, A3. rewrite B3, A2 in Q6. rewrite A1 in B5.
  split; auto. split; auto. split; auto. split. { intros n Hn. now rewrite B6, A1. } split; auto. split. { intros n Hn. now rewrite Q5, B3, A2. } auto.
Qed.

(** A time slot that the reader inserted has no rows: nothing is written *)
Theorem C85_inserted : forall u buf ms, b_rows buf = [] ->
  (f_data (u_fields u) = true -> length (b_data buf) = u_bl u * u_chan u * u_corr u) ->
  (f_flags (u_fields u) = true -> length (b_flags buf) = u_bl u * u_chan u * u_corr u) ->
  (f_weights (u_fields u) = true -> length (b_weights buf) = u_bl u * u_chan u * u_corr u) -> update nan u buf ms = Ok ms.
Proof.
  intros u buf ms E Hd Hf Hw. unfold update, put_field, cube. rewrite E.
  destruct (f_flags _); [rewrite Hf by auto; rewrite Nat.eqb_refl|]; cbn [put_rows];
  (destruct (f_data _); [rewrite Hd by auto; rewrite Nat.eqb_refl|]; cbn [put_rows]);
  (destruct (f_weights _); [rewrite Hw by auto; rewrite Nat.eqb_refl|]; cbn [put_rows]); reflexivity.
Qed.

(** A whole run.  Buffers have different rows; those without are inserted time slots. *)
Definition stored_or_inserted u buf : Prop :=
  complete u buf \/
  b_rows buf = [] /\ (f_data (u_fields u) = true -> length (b_data buf) = u_bl u * u_chan u * u_corr u) /\
  (f_flags (u_fields u) = true -> length (b_flags buf) = u_bl u * u_chan u * u_corr u) /\
  (f_weights (u_fields u) = true -> length (b_weights buf) = u_bl u * u_chan u * u_corr u).
Theorem C85_run : forall u bufs ms, NoDup (flat_map b_rows bufs) -> fits u ms (flat_map b_rows bufs) -> Forall (stored_or_inserted u) bufs ->
  exists ms', update_all nan u bufs ms = Ok ms' /\ length ms' = length ms /\
    (forall r, ~ In r (flat_map b_rows bufs) -> nth_error ms' r = nth_error ms r) /\
    (forall buf b r x, In buf bufs -> nth_error (b_rows buf) b = Some r -> nth_error ms r = Some x ->
       exists y, nth_error ms' r = Some y /\ row_updated u buf b x y).
Proof.
  intros u. induction bufs as [|buf bufs IH]; intros ms N F C.
  - exists ms. split; auto. split; auto. split; auto. intros buf b r x [].
  - apply Forall_cons_iff in C as [C0 C]. cbn [flat_map] in N, F.
    assert (N1 : NoDup (b_rows buf) /\ NoDup (flat_map b_rows bufs) /\ forall r, In r (b_rows buf) -> ~ In r (flat_map b_rows bufs)).
    { clear - N. induction (b_rows buf) as [|r l IHl]; cbn in *. { split; [constructor|auto]. }
      apply NoDup_cons_iff in N as [N0 N]. destruct (IHl N) as (A & B & E). rewrite in_app_iff in N0. split; [constructor; tauto|]. split; auto.
      intros r' [Er|Hr]; [subst; tauto|auto]. }
    destruct N1 as (N1 & N2 & N3). destruct F as [Hs F].
    assert (U : exists m1, update nan u buf ms = Ok m1 /\ length m1 = length ms /\ (forall r, ~ In r (b_rows buf) -> nth_error m1 r = nth_error ms r) /\
      (forall b r x, nth_error (b_rows buf) b = Some r -> nth_error ms r = Some x -> exists y, nth_error m1 r = Some y /\ row_updated u buf b x y)).
    { destruct C0 as [C0|(E & C0)].
      - apply C85_update; auto. split; auto. intros r Hr. apply F. rewrite in_app_iff. auto.
      - exists ms. split; [apply C85_inserted; tauto|]. split; auto. split; auto. rewrite E. intros [|b]; discriminate. }
    destruct U as (m1 & U & L1 & O1 & W1). cbn [update_all]. rewrite U.
    destruct (IH m1 N2) as (ms' & R & L & O & W); auto.
    { split; auto. intros r Hr. rewrite O1 by (intros H; now apply (N3 r)). apply F. rewrite in_app_iff. auto. }
    exists ms'. split; auto. split; [congruence|]. cbn [flat_map]. split.
    + intros r Hr. rewrite in_app_iff in Hr. rewrite O by tauto. apply O1. tauto.
    + intros buf' b r x [E|Hin] Hr Hx.
      * subst buf'. destruct (W1 b r x Hr Hx) as (y & E & Y). exists y. split; auto. rewrite O; auto. apply N3. eapply nth_error_In; eauto.
      * apply (W buf' b); auto. rewrite O1; auto. intros H. apply (N3 r H). apply in_flat_map. exists buf'. split; auto. eapply nth_error_In; eauto.
Qed.

(** * Reading what was written *)
Variables (finite : D -> bool) (re : D -> Qc).

(** A reader of the same columns and channels, that uses flags and weights per channel of the measurement set *)
Definition same_selection u (s : settings) : Prop :=
  n_bl s = u_bl u /\ start s = u_start u /\ n_chan s = u_chan u /\ n_corr s = u_corr u /\
  read_data s = true /\ read_flags s = true /\ read_weights s = true /\ use_flags s = true /\ auto_weight s = false /\
  missing_data s = false /\ has_spectrum s = true.
(** Its rows also have weights per correlation *)
Definition weighed u ms (rows : list nat) : Prop := forall r x, In r rows -> nth_error ms r = Some x -> length (t_weight x) = u_corr u.

Lemma slot_get c rows ms : (forall r, In r rows -> nth_error ms r <> None) ->
  length (slot c rows ms) = length rows /\
  forall b r x d, nth_error rows b = Some r -> nth_error ms r = Some x -> nth b (slot c rows ms) d = view c x.
Proof.
  induction rows as [|r0 rows IH]; intros H; [split; [reflexivity|]; intros [|b]; discriminate|].
  destruct IH as [L G]; [intros r Hr; apply H; now right|]. unfold slot in *. cbn [flat_map]. specialize (H r0 (or_introl eq_refl)).
  destruct (nth_error ms r0) as [x0|] eqn:E; [|contradiction]. cbn [app length]. split; [now rewrite L|].
  intros [|b] r x d Hr Hx; cbn [nth_error] in *; [|eapply G; eauto]. injection Hr as <-. cbn. congruence.
Qed.
Lemma slot_well_formed u s ms rows : fits u ms rows -> weighed u ms rows -> same_selection u s -> length rows = u_bl u ->
  well_formed D s (u_orig u) (slot (u_cols u) rows ms).
Proof.
  intros [Hs F] We (S1 & S2 & S3 & S4 & _) L. unfold well_formed. rewrite S1, S2, S3, S4. split; auto.
  destruct (slot_get (u_cols u) rows ms) as [Ls G]. { intros r Hr. destruct (F r Hr) as (x & E & _). congruence. }
  split; [congruence|]. apply Forall_forall. intros v Hv. unfold slot in Hv. apply in_flat_map in Hv as (r & Hr & Hv).
  destruct (F r Hr) as (x & E & A & B & C). rewrite E in Hv. destruct Hv as [<-|[]]. cbn. split; auto. split; auto. split; auto. now apply (We r).
Qed.
Lemma read_some s n_all rows counts : well_formed D s n_all rows -> missing_data s = false -> read_data s = true -> read_flags s = true ->
  read_weights s = true -> auto_weight s = false -> exists out counts', read_cells zero finite re s (Some rows) counts = Ok (out, counts').
Proof.
  intros (_ & L & _) H1 H2 H3 H4 H5. unfold read_cells, get_weights. rewrite L, Nat.eqb_refl, H1, H2, H3, H4, H5. cbn [negb].
  destruct (get_flags _ _ _ _ _ _). eauto.
Qed.
Lemma cube_eq {A} nb nc np (a b : list A) d : length a = nb * nc * np -> length b = nb * nc * np ->
  (forall i c p, i < nb -> c < nc -> p < np -> value nc np a i c p d = value nc np b i c p d) -> a = b.
Proof.
  intros La Lb H. apply nth_ext with (d := d) (d' := d); [congruence|]. intros n Hn. rewrite La in Hn.
  assert (0 < np) by (destruct np; [rewrite Nat.mul_0_r in Hn|]; lia). assert (0 < nc) by (destruct nc; [rewrite Nat.mul_0_r in Hn|]; lia).
  pose proof (Nat.div_mod n np ltac:(lia)) as E1. pose proof (Nat.mod_upper_bound n np ltac:(lia)) as B1.
  pose proof (Nat.div_mod (n / np) nc ltac:(lia)) as E2. pose proof (Nat.mod_upper_bound (n / np) nc ltac:(lia)) as B2.
  assert (B3 : n / np / nc < nb). { apply Nat.div_lt_upper_bound; [lia|]. apply Nat.div_lt_upper_bound; lia. }
  specialize (H (n / np / nc) (n / np mod nc) (n mod np) B3 B2 B1). unfold value in H.
  replace ((n / np / nc * nc + n / np mod nc) * np + n mod np) with n in H by lia. exact H.
Qed.
Lemma any_ext n f g : (forall k, k < n -> f k = g k) -> any n f = any n g.
Proof.
  intros H. unfold any. destruct (existsb g (seq 0 n)) eqn:E.
  - apply existsb_exists in E as (k & Hk & E). apply existsb_exists. exists k. split; auto. apply in_seq in Hk. rewrite H; auto. lia.
  - destruct (existsb f (seq 0 n)) eqn:E'; auto. apply existsb_exists in E' as (k & Hk & E'). rewrite <- E. symmetry. apply existsb_exists. exists k.
    split; auto. apply in_seq in Hk. rewrite <- H; auto. lia.
Qed.

(** What is read from the updated rows: the data and weights that were written, or else those that were there; a sample has a flag if it was
    written with one, or else had one, for one of the correlations, and if it is not finite *)
Theorem C85_reread : forall u s buf ms ms' counts, fits u ms (b_rows buf) -> weighed u ms (b_rows buf) -> complete u buf -> same_selection u s ->
  u_dysco u = false -> update nan u buf ms = Ok ms' ->
  exists out counts', read_cells zero finite re s (Some (slot (u_cols u) (b_rows buf) ms')) counts = Ok (out, counts') /\
    length (c_data out) = u_bl u * u_chan u * u_corr u /\ length (c_flags out) = u_bl u * u_chan u * u_corr u /\
    length (c_weights out) = u_bl u * u_chan u * u_corr u /\
    forall b r x c p, nth_error (b_rows buf) b = Some r -> nth_error ms r = Some x -> c < u_chan u -> p < u_corr u ->
      value (u_chan u) (u_corr u) (c_data out) b c p zero =
        (if f_data (u_fields u) then value (u_chan u) (u_corr u) (b_data buf) b c p zero
         else stored (t_data x (col_data (u_cols u))) (u_start u + c) p zero) /\
      value (u_chan u) (u_corr u) (c_weights out) b c p 0%Qc =
        (if f_weights (u_fields u) then value (u_chan u) (u_corr u) (b_weights buf) b c p 0%Qc
         else stored (t_spectrum x (col_weights (u_cols u))) (u_start u + c) p 0%Qc) /\
      value (u_chan u) (u_corr u) (c_flags out) b c p false =
        any (u_corr u) (fun k => (if f_flags (u_fields u) then value (u_chan u) (u_corr u) (b_flags buf) b c k false
                                  else seen (t_flag_row x) (t_flag x (col_flags (u_cols u))) (u_start u + c) k) ||
                                 negb (finite (value (u_chan u) (u_corr u) (c_data out) b c k zero))).
Proof.
  intros u s buf ms ms' counts F We C S Hdy U. destruct (C85_update u buf ms F C) as (ms1 & U1 & L1 & O1 & W1). rewrite U in U1. injection U1 as <-.
  assert (Lr : length (b_rows buf) = u_bl u) by apply C.
  assert (Fx : forall r, In r (b_rows buf) -> exists b x y, nth_error (b_rows buf) b = Some r /\ nth_error ms r = Some x /\ nth_error ms' r = Some y /\ row_updated u buf b x y).
  { intros r Hr. apply In_nth_error in Hr as (b & Hr). destruct (proj2 F r) as (x & E & _); [eapply nth_error_In; eauto|].
    destruct (W1 b r x Hr E) as (y & E' & R). exists b, x, y. auto. }
  assert (F' : fits u ms' (b_rows buf)).
  { split; [apply F|]. intros r Hr. destruct (Fx r Hr) as (b & x & y & E & Ex & Ey & R). exists y. split; auto.
    destruct R as ((R1 & _) & (R2 & _) & (R3 & _) & _). auto. }
  assert (We' : weighed u ms' (b_rows buf)).
  { intros r y0 Hr Hy. destruct (Fx r Hr) as (b & x & y & E & Ex & Ey & R). assert (y0 = y) by congruence. subst y0.
    destruct R as (_ & _ & _ & _ & _ & _ & Rw & _). rewrite Rw. eapply We; eauto. }
  pose proof (slot_well_formed u s ms' (b_rows buf) F' We' S Lr) as Wf.
  destruct S as (S1 & S2 & S3 & S4 & S5 & S6 & S7 & S8 & S9 & S10 & S11).
  destruct (read_some s (u_orig u) _ counts Wf S10 S5 S6 S7 S9) as (out & counts' & R). exists out, counts'. split; auto.
  destruct (C41_stored D zero finite re s (u_orig u) _ counts out counts' Wf S10 S5 S6 R) as (Ld & Lf & V).
  destruct (C59_stored D zero finite re s (u_orig u) _ counts out counts' Wf S7 S9 R) as (Lw & Vw).
  rewrite S1, S3, S4 in Ld, Lf, Lw, V, Vw. split; auto. split; auto. split; auto.
  intros b r x c p Hr Hx Hc Hp. assert (Hb : b < u_bl u) by (rewrite <- Lr; apply nth_error_Some; congruence).
  destruct (W1 b r x Hr Hx) as (y & Hy & ((Rd0 & Rd) & (Rw0 & Rw) & (Rf0 & Rf) & _ & _ & _ & _ & Rr)).
  destruct (slot_get (u_cols u) (b_rows buf) ms') as [_ G]. { intros r' Hr'. destruct (Fx r' Hr') as (? & ? & ? & ? & ? & ? & _). congruence. }
  pose proof (G b r y (no_row D) Hr Hy) as Gv. rewrite Hdy in Rd, Rw. cbn [andb] in Rd, Rw.
  assert (Hso : u_start u + c < u_orig u) by (pose proof (proj1 F) as Hle; clear - Hle Hc; lia).
  assert (Bd : (u_start u <=? u_start u + c) = true /\ (u_start u + c <? u_start u + u_chan u) = true /\ u_start u + c - u_start u = c) by (clear - Hc; lia).
  destruct Bd as (Bd1 & Bd2 & Bd3).
  assert (Vd : forall k, k < u_corr u -> value (u_chan u) (u_corr u) (c_data out) b c k zero = stored (t_data y (col_data (u_cols u))) (u_start u + c) k zero).
  { intros k Hk. destruct (V b c k Hb Hc Hk) as [V1 _]. rewrite V1, Gv, S2. reflexivity. }
  split; [|split].
  - rewrite Vd, Rd, Bd1, Bd2, Bd3, !andb_true_r by auto. reflexivity.
  - rewrite Vw by auto. unfold ms_weight. rewrite S11, Gv, S2. cbn [view r_spectrum]. rewrite Rw, Bd1, Bd2, Bd3, !andb_true_r by auto. reflexivity.
  - destruct (V b c p Hb Hc Hp) as [_ V2]. rewrite V2. apply any_ext. intros k Hk. rewrite Vd by auto. rewrite S8, Gv, S2. cbn [view r_flag r_flag_row r_data andb].
    f_equal. rewrite Rf, Bd1, Bd2, Bd3, !andb_true_r by auto. unfold seen. destruct (f_flags (u_fields u)).
    + destruct (t_flag_row y) eqn:E; auto. destruct (proj1 Rr eq_refl) as [_ A]. cbn [orb]. symmetry. now apply A.
    + f_equal. destruct (t_flag_row y), (t_flag_row x); auto; destruct Rr as [R1 R2]; [destruct (R1 eq_refl); discriminate|].
      assert (false = true) by (apply R2; split; auto; discriminate). discriminate.
Qed.

(** All fields written: exactly the buffer is read again, if its flags are the same for the correlations of a sample and what is not finite
    is flagged (which is what the reader itself makes) *)
Theorem C85_round_trip : forall u s buf ms ms' counts, fits u ms (b_rows buf) -> weighed u ms (b_rows buf) -> complete u buf -> same_selection u s ->
  u_dysco u = false -> f_data (u_fields u) = true -> f_flags (u_fields u) = true -> f_weights (u_fields u) = true ->
  uniform (u_bl u) (u_chan u) (u_corr u) (b_flags buf) ->
  (forall b c p, b < u_bl u -> c < u_chan u -> p < u_corr u -> finite (value (u_chan u) (u_corr u) (b_data buf) b c p zero) = true \/
     value (u_chan u) (u_corr u) (b_flags buf) b c p false = true) ->
  update nan u buf ms = Ok ms' ->
  exists counts', read_cells zero finite re s (Some (slot (u_cols u) (b_rows buf) ms')) counts =
    Ok (MkCells (b_data buf) (b_flags buf) (b_weights buf), counts').
Proof.
  intros u s buf ms ms' counts F We C S Hdy Wd Wf Ww Un Fi U.
  destruct (C85_reread u s buf ms ms' counts F We C S Hdy U) as (out & counts' & R & Ld & Lf & Lw & V). exists counts'. rewrite R. do 2 f_equal.
  rewrite Wd, Wf, Ww in V. destruct C as (Cd & Cf & Cw & N & Lr).
  assert (G : forall b, b < u_bl u -> exists r x, nth_error (b_rows buf) b = Some r /\ nth_error ms r = Some x).
  { intros b Hb. destruct (nth_error (b_rows buf) b) as [r|] eqn:E; [|apply nth_error_None in E; clear - E Lr Hb; lia]. destruct (proj2 F r) as (x & Ex & _).
    { eapply nth_error_In; eauto. } eauto. }
  destruct out as [od ofl ow]. cbn [c_data c_flags c_weights] in *.
  assert (Ed : od = b_data buf). { apply cube_eq with (nb := u_bl u) (nc := u_chan u) (np := u_corr u) (d := zero); auto. intros b c p Hb Hc Hp.
    destruct (G b Hb) as (r & x & Hr & Hx). now apply (V b r x c p). }
  f_equal; auto.
  - apply cube_eq with (nb := u_bl u) (nc := u_chan u) (np := u_corr u) (d := false); auto. intros b c p Hb Hc Hp.
    destruct (G b Hb) as (r & x & Hr & Hx). destruct (V b r x c p Hr Hx Hc Hp) as (_ & _ & Vf). rewrite Vf, Ed. clear Vf.
    destruct (value (u_chan u) (u_corr u) (b_flags buf) b c p false) eqn:E.
    + unfold any. apply existsb_exists. exists p. split; [apply in_seq; clear - Hp; lia|]. now rewrite E.
    + destruct (any _ _) eqn:A; auto. apply existsb_exists in A as (k & Hk & A). apply in_seq in Hk.
      assert (Ek : value (u_chan u) (u_corr u) (b_flags buf) b c k false = false) by (transitivity (value (u_chan u) (u_corr u) (b_flags buf) b c p false); [apply Un; auto; clear - Hk; lia|exact E]).
      rewrite Ek in A. destruct (Fi b c k Hb Hc ltac:(clear - Hk; lia)) as [A'|A']; [rewrite A' in A; discriminate|congruence].
  - apply cube_eq with (nb := u_bl u) (nc := u_chan u) (np := u_corr u) (d := 0%Qc); auto. intros b c p Hb Hc Hp.
    destruct (G b Hb) as (r & x & Hr & Hx). now apply (V b r x c p).
Qed.

(** Nothing changed: writing back what was read, whichever fields, gives the same when read again *)
Theorem C85_no_change : forall u s rows ms out counts counts0 ms', fits u ms rows -> weighed u ms rows -> same_selection u s -> NoDup rows -> length rows = u_bl u ->
  u_dysco u = false -> read_cells zero finite re s (Some (slot (u_cols u) rows ms)) counts0 = Ok (out, counts) ->
  update nan u (MkBuffer rows (c_data out) (c_flags out) (c_weights out)) ms = Ok ms' ->
  exists counts', read_cells zero finite re s (Some (slot (u_cols u) rows ms')) counts0 = Ok (out, counts').
Proof.
  intros u s rows ms out counts counts0 ms' F We S N Lr Hdy R0 U.
  pose proof (slot_well_formed u s ms rows F We S Lr) as Wf. pose proof S as (S1 & S2 & S3 & S4 & S5 & S6 & S7 & S8 & S9 & S10 & S11).
  destruct (C41_stored D zero finite re s (u_orig u) _ counts0 out counts Wf S10 S5 S6 R0) as (Ld & Lf & V).
  destruct (C59_stored D zero finite re s (u_orig u) _ counts0 out counts Wf S7 S9 R0) as (Lw & Vw).
  rewrite S1, S3, S4 in Ld, Lf, Lw, V, Vw. set (buf := MkBuffer rows (c_data out) (c_flags out) (c_weights out)) in *.
  assert (C : complete u buf) by (unfold complete; cbn; auto).
  destruct (C85_reread u s buf ms ms' counts0 F We C S Hdy U) as (out' & counts' & R & Ld' & Lf' & Lw' & V'). cbn [buf b_rows b_data b_flags b_weights] in *.
  exists counts'. rewrite R. do 2 f_equal.
  assert (G : forall b, b < u_bl u -> exists r x, nth_error rows b = Some r /\ nth_error ms r = Some x /\ nth b (slot (u_cols u) rows ms) (no_row D) = view (u_cols u) x).
  { intros b Hb. destruct (nth_error rows b) as [r|] eqn:E; [|apply nth_error_None in E; clear - E Lr Hb; lia]. destruct (proj2 F r) as (x & Ex & _).
    { eapply nth_error_In; eauto. } exists r, x. split; auto. split; auto. destruct (slot_get (u_cols u) rows ms) as [_ Gs].
    { intros r' Hr'. destruct (proj2 F r' Hr') as (x' & Ex' & _). congruence. } now apply Gs with r. }
  destruct out as [od ofl ow], out' as [od' ofl' ow']. cbn [c_data c_flags c_weights] in *.
  assert (Ed : od' = od). { apply cube_eq with (nb := u_bl u) (nc := u_chan u) (np := u_corr u) (d := zero); auto. intros b c p Hb Hc Hp.
    destruct (G b Hb) as (r & x & Hr & Hx & Hv). destruct (V' b r x c p Hr Hx Hc Hp) as (V1 & _). rewrite V1. destruct (f_data _); auto.
    destruct (V b c p Hb Hc Hp) as [V2 _]. rewrite V2, Hv, S2. reflexivity. }
  f_equal; auto.
  - apply cube_eq with (nb := u_bl u) (nc := u_chan u) (np := u_corr u) (d := false); auto. intros b c p Hb Hc Hp.
    destruct (G b Hb) as (r & x & Hr & Hx & Hv). destruct (V' b r x c p Hr Hx Hc Hp) as (_ & _ & V1). rewrite V1, Ed.
    assert (Vf : forall k, k < u_corr u -> value (u_chan u) (u_corr u) ofl b c k false =
      any (u_corr u) (fun k => seen (t_flag_row x) (t_flag x (col_flags (u_cols u))) (u_start u + c) k || negb (finite (value (u_chan u) (u_corr u) od b c k zero)))).
    { intros k Hk. destruct (V b c k Hb Hc Hk) as [_ V2]. rewrite V2. apply any_ext. intros j Hj. destruct (V b c j Hb Hc Hj) as [V3 _]. rewrite V3, Hv, S2, S8. reflexivity. }
    rewrite (Vf p Hp). set (g := fun k => seen (t_flag_row x) (t_flag x (col_flags (u_cols u))) (u_start u + c) k || negb (finite (value (u_chan u) (u_corr u) od b c k zero))) in *.
    destruct (f_flags (u_fields u)); [|reflexivity]. transitivity (any (u_corr u) (fun k => any (u_corr u) g || negb (finite (value (u_chan u) (u_corr u) od b c k zero)))).
    { apply any_ext. intros k Hk. now rewrite Vf. }
    destruct (any (u_corr u) g) eqn:E.
    + unfold any. apply existsb_exists. exists p. split; [apply in_seq; clear - Hp; lia|]. reflexivity.
    + destruct (any (u_corr u) (fun k => false || _)) eqn:A; auto. apply existsb_exists in A as (k & Hk & A). cbn [orb] in A. rewrite <- E. symmetry.
      unfold any. apply existsb_exists. exists k. split; auto. subst g. cbn beta. rewrite A. apply orb_true_r.
  - apply cube_eq with (nb := u_bl u) (nc := u_chan u) (np := u_corr u) (d := 0%Qc); auto. intros b c p Hb Hc Hp.
    destruct (G b Hb) as (r & x & Hr & Hx & Hv). destruct (V' b r x c p Hr Hx Hc Hp) as (_ & V1 & _). rewrite V1. destruct (f_weights _); auto.
    rewrite Vw by auto. unfold ms_weight. rewrite S11, Hv, S2. reflexivity.
Qed.
End Update.
Print Assumptions C85_update.
Print Assumptions C85_inserted.
Print Assumptions C85_run.
Print Assumptions C85_reread.
Print Assumptions C85_round_trip.
Print Assumptions C85_no_change.

(** * Which fields and columns *)

(** The updater is refused if the meta data changed, if the measurement set has baseline-dependent averaging, or if the weights would go to the
    column with weights per correlation.  Otherwise it takes the columns of the input that are not given.  What it writes is what it asked the
    reader for, except if the input takes its weights from that column. *)
Theorem C85_fields : forall given base meta bda info, let w := fields_to_write given base in
  (update_info given w meta bda info = Throw <-> meta = true \/ bda = true \/ col_weights given = "WEIGHT"%string) /\
  forall cols w', update_info given w meta bda info = Ok (cols, w') ->
    col_data cols = (if String.eqb (col_data given) "" then col_data info else col_data given) /\
    col_flags cols = (if String.eqb (col_flags given) "" then col_flags info else col_flags given) /\
    col_weights cols = (if String.eqb (col_weights given) "" then
                          if String.eqb (col_weights info) "WEIGHT" then "WEIGHT_SPECTRUM"%string else col_weights info else col_weights given) /\
    (~ (col_weights given = ""%string /\ col_weights info = "WEIGHT"%string) -> w' = w).
Proof.
  intros given base meta bda info w. unfold update_info. destruct meta; cbn [orb]. { split; [tauto|discriminate]. }
  destruct bda. { split; [tauto|discriminate]. }
  destruct (String.eqb_spec (col_weights given) "") as [E|E]; [rewrite E; destruct (String.eqb_spec (col_weights info) "WEIGHT") as [E'|E']|].
  - cbn [String.eqb]. split. { split; [discriminate|]. intros [H|[H|H]]; discriminate. } intros cols w' H. injection H as <- <-. cbn. tauto.
  - destruct (String.eqb_spec (col_weights info) "WEIGHT"); [contradiction|]. split. { split; [discriminate|]. intros [H|[H|H]]; discriminate. }
    intros cols w' H. injection H as <- <-. cbn. tauto.
  - destruct (String.eqb_spec (col_weights given) "WEIGHT") as [E'|E'].
    + split; [tauto|discriminate].
    + split. { split; [discriminate|]. intros [H|[H|H]]; try discriminate. contradiction. } intros cols w' H. injection H as <- <-. cbn. tauto.
Qed.
Print Assumptions C85_fields.

(** * Examples and what goes wrong *)

(** One row of three channels and one correlation.  Visibilities are numbers; [None] is not a number. *)
Definition data1 : string -> list (list (option nat)) := fun _ => [[Some 1]; [Some 2]; [Some 3]].
Definition flag1 : string -> list (list bool) := fun _ => [[false]; [true]; [false]].
Definition row1 (flag_row : bool) : ms_row (option nat) := MkMsRow data1 flag1 flag_row [1%Qc] (fun _ => [[1%Qc]; [1%Qc]; [1%Qc]]).
Definition names1 : columns := MkColumns "DATA" "FLAG" "WEIGHT_SPECTRUM".
Definition up1 (w : fields) (c : columns) (dysco : bool) : updater := MkUpdater 3 1 2 1 1 w c dysco.
Definition buf1 : buffer (option nat) := MkBuffer [1] [Some 7; None] [false; true] [0%Qc; 1%Qc].
Lemma fits1 w c dysco f : fits (option nat) (up1 w c dysco) [row1 true; row1 f] [1].
Proof. split; [cbn; lia|]. intros r [<-|[]]. exists (row1 f). split; auto. cbn. repeat split; repeat constructor. Qed.
Lemma complete1 w c dysco : complete (option nat) (up1 w c dysco) buf1.
Proof. unfold complete. cbn. repeat split; auto. repeat constructor; auto. Qed.
(** Channels 1 and 2 of row 1 are written; its FLAG_ROW is cleared *)
Example update1 : exists y, update None (up1 (MkFields true true true false) names1 false) buf1 [row1 true; row1 true] = Ok [row1 true; y] /\
  t_data y "DATA"%string = [[Some 1]; [Some 7]; [None]] /\ t_flag y "FLAG"%string = [[false]; [false]; [true]] /\ t_flag_row y = false /\
  t_data y "MODEL_DATA"%string = data1 "MODEL_DATA"%string.
Proof. eexists. split; [reflexivity|]. repeat split; reflexivity. Qed.
Definition set1 : settings := MkSettings 1 [0] [1] 1 2 [1%Qc; 1%Qc] 1%Qc 1 true true true true false false true.
(** It can be read again: the buffer has uniform flags, and what is not finite is flagged *)
Example round_trip1 : same_selection (up1 (MkFields true true true false) names1 false) set1 /\ uniform 1 2 1 (b_flags buf1) /\
  exists y n, update None (up1 (MkFields true true true false) names1 false) buf1 [row1 true; row1 true] = Ok [row1 true; y] /\
  read_cells (Some 0) (fun x => match x with Some _ => true | None => false end) (fun _ => 0%Qc) set1
    (Some (slot names1 [1] [row1 true; y])) [0] = Ok (MkCells (b_data buf1) (b_flags buf1) (b_weights buf1), n).
Proof.
  split; [repeat split|]. split. { intros b c p q Hb Hc Hp Hq. now replace q with p by lia. }
  eexists. eexists. split; [reflexivity|]. vm_compute. reflexivity.
Qed.
(** Read, written back with only the flags, and read again *)
Example no_change1 : weighed (option nat) (up1 (MkFields false true false false) names1 false) [row1 true; row1 false] [1] /\
  exists out n y, let fin := (fun x : option nat => match x with Some _ => true | None => false end) in
  read_cells (Some 0) fin (fun _ => 0%Qc) set1 (Some (slot names1 [1] [row1 true; row1 false])) [0] = Ok (out, n) /\
  c_flags out = [true; false] /\
  update None (up1 (MkFields false true false false) names1 false) (MkBuffer [1] (c_data out) (c_flags out) (c_weights out)) [row1 true; row1 false] =
    Ok [row1 true; y].
Proof.
  split. { intros r x [<-|[]] H. injection H as <-. reflexivity. }
  do 3 eexists. cbv zeta. split; [reflexivity|]. split; reflexivity.
Qed.
(** With dysco a flagged visibility becomes not a number, and its weight zero *)
Example dysco1 : exists y, update None (up1 (MkFields true true true false) names1 true) (MkBuffer [1] [Some 7; Some 8] [true; false] [1%Qc; 1%Qc])
    [row1 true; row1 false] = Ok [row1 true; y] /\ t_data y "DATA"%string = [[Some 1]; [None]; [Some 8]] /\
  t_spectrum y "WEIGHT_SPECTRUM"%string = [[1%Qc]; [0%Qc]; [1%Qc]].
Proof. eexists. split; [reflexivity|]. split; reflexivity. Qed.
(** Flags changed, and a column is given for the weights *)
Example fields1 : let given := MkColumns "" "" "NEW_WEIGHTS" in let w := fields_to_write given (MkFields false true false false) in
  w = MkFields false true true false /\ update_info given w false false names1 = Ok (MkColumns "DATA" "FLAG" "NEW_WEIGHTS", w).
Proof. split; reflexivity. Qed.
(** A run with an inserted time slot *)
Example run1 : NoDup (flat_map b_rows [buf1; MkBuffer [] [Some 0; Some 0] [true; true] [0%Qc; 0%Qc]]) /\
  stored_or_inserted (option nat) (up1 (MkFields true true true false) names1 false) (MkBuffer [] [Some 0; Some 0] [true; true] [0%Qc; 0%Qc]) /\
  exists y, update_all None (up1 (MkFields true true true false) names1 false) [buf1; MkBuffer [] [Some 0; Some 0] [true; true] [0%Qc; 0%Qc]]
    [row1 true; row1 true] = Ok [row1 true; y].
Proof. split; [cbn; repeat constructor; auto|]. split; [right; cbn; auto|]. eexists. reflexivity. Qed.

(** FLAG_ROW is cleared when a selected channel has no flag.  A channel outside the selection that was only flagged by FLAG_ROW is then no
    longer flagged, although the step does not touch that channel otherwise. *)
Theorem C85_unselected_refuted : exists u buf ms ms' x y c, fits (option nat) u ms (b_rows buf) /\ complete (option nat) u buf /\
  update None u buf ms = Ok ms' /\ nth_error ms 1 = Some x /\ nth_error ms' 1 = Some y /\ ~ (u_start u <= c < u_start u + u_chan u) /\
  seen (t_flag_row x) (t_flag x "FLAG"%string) c 0 = true /\ seen (t_flag_row y) (t_flag y "FLAG"%string) c 0 = false.
Proof.
  exists (up1 (MkFields false true false false) names1 false), buf1, [row1 true; row1 true]. do 3 eexists. exists 0.
  split; [apply fits1|]. split; [apply complete1|]. split; [reflexivity|]. split; [reflexivity|]. split; [reflexivity|]. cbn. repeat split; auto. lia.
Qed.
(** Also if the flags are written to another column than the flags that are in use: those lose FLAG_ROW *)
Theorem C85_column_refuted : exists u buf ms ms' x y c, fits (option nat) u ms (b_rows buf) /\ complete (option nat) u buf /\
  col_flags (u_cols u) <> "FLAG"%string /\ update None u buf ms = Ok ms' /\ nth_error ms 1 = Some x /\ nth_error ms' 1 = Some y /\
  seen (t_flag_row x) (t_flag x "FLAG"%string) c 0 = true /\ seen (t_flag_row y) (t_flag y "FLAG"%string) c 0 = false.
Proof.
  exists (up1 (MkFields false true false false) (MkColumns "DATA" "NEW_FLAG" "WEIGHT_SPECTRUM") false), buf1, [row1 true; row1 true]. do 3 eexists. exists 2.
  split; [apply fits1|]. split; [apply complete1|]. split; [discriminate|]. split; [reflexivity|]. split; [reflexivity|]. split; [reflexivity|].
  cbn. split; reflexivity.
Qed.
(** With msin.weightcolumn=WEIGHT and only changed flags, the fields to write are extended with the weights, and by setting them again with the
    name of the data column filled in also with the data, after the fields to read have been determined.  Both cubes are then made from memory
    that is not there. *)
Theorem C85_weight_column_refuted : exists given base info cols w u buf ms, let w0 := fields_to_write given base in
  w0 = MkFields false true false false /\ required_fields w0 = MkFields false true false false /\
  update_info given w0 false false info = Ok (cols, w) /\ w = MkFields true true true false /\
  u = up1 w cols false /\ fits (option nat) u ms (b_rows buf) /\
  length (b_flags buf) = u_bl u * u_chan u * u_corr u /\ b_data buf = [] /\ b_weights buf = [] /\ update None u buf ms = Undefined.
Proof.
  exists (MkColumns "" "" ""), (MkFields false true false false), (MkColumns "DATA" "FLAG" "WEIGHT"). do 3 eexists.
  exists (MkBuffer [1] [] [true; true] []), [row1 true; row1 true]. cbv zeta. split; [reflexivity|]. split; [reflexivity|]. split; [reflexivity|].
  split; [reflexivity|]. split; [reflexivity|]. split; [apply fits1|]. repeat split; reflexivity.
Qed.
(** With storage manager dysco, flagged visibilities are to be replaced by NaN before compression.  The step does not ask for the flags: if only
    the data changed and no other step needs the flags, none are read, and the flagged values are written as they are. *)
Theorem C85_dysco_refuted : exists u buf ms ms' x y, u_dysco u = true /\ required_fields (u_fields u) = MkFields true false false false /\
  b_flags buf = [] /\ fits (option nat) u ms (b_rows buf) /\ complete (option nat) u buf /\ update None u buf ms = Ok ms' /\
  nth_error ms 1 = Some x /\ nth_error ms' 1 = Some y /\ seen (t_flag_row y) (t_flag y "FLAG"%string) 1 0 = true /\
  stored (t_data y "DATA"%string) 1 0 None = Some 7.
Proof.
  exists (up1 (MkFields true false false false) names1 true), (MkBuffer [1] [Some 7; Some 8] [] []), [row1 true; row1 false]. do 3 eexists.
  split; [reflexivity|]. split; [reflexivity|]. split; [reflexivity|]. split; [apply fits1|]. split.
  { unfold complete. cbn. repeat split; auto; try discriminate. repeat constructor; auto. }
  split; [reflexivity|]. split; [reflexivity|]. split; [reflexivity|]. split; reflexivity.
Qed.
Print Assumptions C85_unselected_refuted.
Print Assumptions C85_column_refuted.
Print Assumptions C85_weight_column_refuted.
Print Assumptions C85_dysco_refuted.
