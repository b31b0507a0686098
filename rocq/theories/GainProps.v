(** C70: an iteration of the scalar, diagonal and full-Jones solvers gives every antenna the solution that fits best. *)
From Coq Require Import QArith Qcanon List Bool Arith ZArith Lia Permutation.
From Verif Require Import QcUtil InfoModel AverageModel SolveDataModel SolveDataSpec SolveDataProofs Cplx GainModel GainSpec GainProofs GainFit.
Import ListNotations.
Open Scope nat_scope.

(** * From the loops to the fit *)
Lemma msum_app l1 l2 : msum (l1 ++ l2) = madd (msum l1) (msum l2).
Proof. unfold msum. induction l1 as [|x l1 IH]; cbn [app fold_right]; [now rewrite madd_0|]. now rewrite IH, madd_assoc. Qed.
Lemma msum_without (f : nat -> mat) d l : NoDup l -> In d l -> msum (map f l) = madd (f d) (msum (map f (filter (fun d' => negb (d' =? d)) l))).
Proof.
  induction l as [|x l IH]; [intros _ []|]. intros N [->|I]; inversion N as [|? ? N1 N2]; subst; cbn [map filter]; unfold msum; cbn [fold_right].
  - rewrite Nat.eqb_refl. cbn [negb]. f_equal. f_equal. f_equal. symmetry. apply forallb_filter_id || idtac. clear - N1. induction l as [|y l IH]; [reflexivity|]. cbn [filter].
    destruct (Nat.eqb_spec y d) as [->|]; [elim N1; now left|]. cbn [negb]. f_equal. apply IH. intros I. apply N1. now right.
  - destruct (Nat.eqb_spec x d) as [->|]; [now elim N1|]. cbn [negb map fold_right]. fold (msum (map f l)). rewrite (IH N2 I). unfold msum. rewrite !madd_assoc. f_equal. apply madd_comm.
Qed.
Lemma fold_msub (f : nat -> mat) l x : fold_left (fun r d => msub r (f d)) l x = msub x (msum (map f l)).
Proof.
  revert x. induction l as [|d l IH]; intros x; cbn [fold_left map]; [apply mat_eq; cbn; ring|]. rewrite IH. unfold msum. cbn [fold_right]. apply mat_eq; cbn; ring.
Qed.

Section Instance.
Context {S A R : Type}.
Variable jones_of : S -> mat.
Variable apply : mat -> S -> S -> mat.
Variables (a0 : A) (aadd : A -> A -> A) (contribution_1 contribution_2 : mat -> mat -> S -> A) (divide : A -> R).
Variables (s0 : S) (r0 : R).
Hypothesis aadd_assoc : forall a b c, aadd a (aadd b c) = aadd (aadd a b) c.
Hypothesis aadd_comm : forall a b, aadd a b = aadd b a.
Hypothesis aadd_0 : forall a, aadd a0 a = a.
Hypothesis apply_spec : forall m s1 s2, apply m s1 s2 = seen (jones_of s1) m (jones_of s2).
(** What a pair (D, C) adds *)
Variable contrib : mat * mat -> A.
Hypothesis contribution_1_spec : forall r m s, contribution_1 r m s = contrib (r, mmul (jones_of s) (mherm m)).
Hypothesis contribution_2_spec : forall r m s, contribution_2 r m s = contrib (mherm r, mmul (jones_of s) m).

Variables (n_antennas n_sub : nat) (n_sol : list nat).
Variable sols : list S.
Definition current (a s : nat) : mat := jones_of (nth (a * n_sub + s) sols s0).
(** The pairs to be fitted for an antenna and a solution of a direction *)
Definition pairs (b : list (@visibility mat unit)) (d a s : nat) : list (mat * mat) :=
  flat_map (fun v => if nth d (vis_solutions v) 0 =? s then
      if fst (vis_antennas v) =? a then [(rest current (length n_sol) v d, mmul (current (snd (vis_antennas v)) s) (mherm (nth d (vis_models v) mzero)))]
      else if snd (vis_antennas v) =? a then [(mherm (rest current (length n_sol) v d), mmul (current (fst (vis_antennas v)) s) (nth d (vis_models v) mzero))]
      else [] else []) b.
Lemma misfit_error b d a s x : misfit current (length n_sol) b d a s x = error (pairs b d a s) x.
Proof.
  unfold misfit, error, pairs. induction b as [|v b IH]; [reflexivity|]. cbn [map flat_map]. rewrite map_app, qsum_app, qsum_cons, IH. f_equal. clear. unfold misfit_of.
  destruct (nth d (vis_solutions v) 0 =? s); [|reflexivity]. destruct (fst (vis_antennas v) =? a); [|destruct (snd (vis_antennas v) =? a); [|reflexivity]]; cbn [map fst snd].
  - rewrite qsum_cons, qsum_nil, Qcplus_0_r. f_equal. f_equal. unfold seen. rewrite mherm_mul, mherm_herm. symmetry. apply mmul_assoc.
  - rewrite qsum_cons, qsum_nil, Qcplus_0_r. rewrite <- mnorm_herm. f_equal. rewrite mherm_sub. f_equal. unfold seen. now rewrite mherm_mul, mherm_herm.
Qed.
Lemma predict_expected d v : predict apply n_sub mzero s0 sols d v = expected current v d.
Proof. unfold predict, expected. apply apply_spec. Qed.
Lemma residual_rest d v : d < length n_sol -> residual madd msub apply n_sub n_sol mzero s0 sols d v = rest current (length n_sol) v d.
Proof.
  intros H. unfold residual, rest. rewrite fold_msub. rewrite predict_expected.
  rewrite (map_ext _ (expected current v)) by (intros; apply predict_expected).
  rewrite (msum_without _ d) by (try apply seq_NoDup; apply in_seq; lia). apply mat_eq; cbn; ring.
Qed.
Lemma contributions b d a s : d < length n_sol -> Forall (fun v => fst (vis_antennas v) <> snd (vis_antennas v)) b ->
  asum a0 aadd (map (contribution madd msub apply a0 aadd contribution_1 contribution_2 n_sub n_sol mzero s0 sols d a s) b) = asum a0 aadd (map contrib (pairs b d a s)).
Proof.
  intros Hd. induction 1 as [|v b N _ IH]; [reflexivity|]. unfold pairs in *. cbn [map flat_map]. rewrite map_app. rewrite (asum_app a0 aadd) by auto. rewrite <- IH.
  unfold asum at 1. cbn [fold_right]. f_equal. clear IH. unfold contribution, solution_of.
  destruct (nth d (vis_solutions v) 0 =? s); [|reflexivity]. rewrite residual_rest by auto.
  destruct (Nat.eqb_spec (fst (vis_antennas v)) a) as [E|E], (Nat.eqb_spec (snd (vis_antennas v)) a) as [E'|E']; try congruence; unfold asum; cbn [map fold_right].
  - rewrite contribution_1_spec. reflexivity.
  - rewrite aadd_0, contribution_2_spec. symmetry. rewrite aadd_comm. apply aadd_0.
  - apply aadd_0.
Qed.

Lemma iteration_fit b chunks next : fits_block n_antennas n_sol b -> list_sum n_sol <= n_sub -> (Z.of_nat n_antennas * Z.of_nat n_sub < 2 ^ 32)%Z ->
  length sols = n_antennas * n_sub -> length next = n_antennas * n_sub -> (forall d l, Permutation (concat (chunks d l)) l) ->
  exists next', perform_iteration madd msub apply a0 aadd contribution_1 contribution_2 divide n_antennas n_sub n_sol chunks b sols next = Ok next' /\ length next' = n_antennas * n_sub /\
  forall d a k, d < length n_sol -> a < n_antennas -> k < nth d n_sol 0 ->
    nth (a * n_sub + (first_solution n_sol d + k)) next' r0 = divide (asum a0 aadd (map contrib (pairs b d a (first_solution n_sol d + k)))).
Proof.
  intros [F1 F2] H1 H2 H3 H4 H5.
  destruct (iteration_spec madd msub apply a0 aadd contribution_1 contribution_2 divide n_antennas n_sub n_sol chunks mzero s0 r0) with (sols := sols) (b := b) (next := next) as (next' & E1 & E2 & E3); auto.
  { apply Forall_forall. intros v I. rewrite Forall_forall in F1. destruct (F1 v I) as (Q1 & Q2 & _ & Q3 & Q4 & Q5). repeat split; auto; apply Q5; auto. }
  exists next'. split; [exact E1|]. split; [exact E2|]. intros d a k Hd Ha Hk. rewrite E3 by auto. f_equal. apply contributions; auto.
  apply Forall_forall. intros v I. rewrite Forall_forall in F1. now destruct (F1 v I) as (_ & _ & ? & _).
Qed.
End Instance.

(** * The sums of the three solvers *)
Definition scalar_jones (s : cplx) : mat := mdiag s s.
Definition diagonal_jones (s : cplx * cplx) : mat := mdiag (fst s) (snd s).
Definition full_jones (s : mat) : mat := s.

Definition scalar_contrib (p : mat * mat) : cplx * Qc := (mtrace (mmul (fst p) (snd p)), mnorm (snd p)).
Lemma scalar_sum l : asum (c0, 0%Qc) scalar_add (map scalar_contrib l) = (mtrace (numerator l), re (mtrace (denominator l))).
Proof.
  unfold numerator, denominator. induction l as [|[d c] l IH]; [reflexivity|]. unfold asum, msum in *. cbn [map fold_right]. rewrite IH. unfold scalar_add, scalar_contrib. cbn [fst snd]. f_equal.
  - apply cplx_eq; cbn; ring.
  - unfold mnorm, cnorm. cbn. ring.
Qed.
Definition diagonal_contrib (p : mat * mat) : (cplx * cplx) * (Qc * Qc) := let q := mmul (fst p) (snd p) in ((m0 q, m3 q), column_norms (snd p)).
Lemma diagonal_sum l : asum ((c0, c0), (0%Qc, 0%Qc)) diagonal_add (map diagonal_contrib l) = ((m0 (numerator l), m3 (numerator l)), (re (m0 (denominator l)), re (m3 (denominator l)))).
Proof.
  unfold numerator, denominator. induction l as [|[d c] l IH]; [reflexivity|]. unfold asum, msum in *. cbn [map fold_right]. rewrite IH. unfold diagonal_add, diagonal_contrib, column_norms. cbn [fst snd].
  f_equal; f_equal; try (apply cplx_eq; cbn; ring); unfold cnorm; cbn; ring.
Qed.
Definition full_contrib (p : mat * mat) : mat * mat := (mmul (fst p) (snd p), mmul (mherm (snd p)) (snd p)).
Lemma full_sum l : asum (mzero, mzero) full_add (map full_contrib l) = (numerator l, denominator l).
Proof.
  unfold numerator, denominator. induction l as [|[d c] l IH]; [reflexivity|]. unfold asum, msum in *. cbn [map fold_right]. rewrite IH. reflexivity.
Qed.

(** * The best fit of the three solvers *)
Lemma quotient_spec n d q : quotient n d = Some q -> n = cscale d q /\ d <> 0%Qc.
Proof. unfold quotient. destruct (Qc_eq_dec d 0) as [|N]; [discriminate|]. intros E. injection E as <-. split; [|exact N]. apply cplx_eq; cbn; field; exact N. Qed.
Lemma quotient_none n d : quotient n d = None -> d = 0%Qc.
Proof. unfold quotient. destruct (Qc_eq_dec d 0) as [E|]; [auto|discriminate]. Qed.

Lemma scalar_best l y x : scalar_divide (mtrace (numerator l), re (mtrace (denominator l))) = Some y -> x <> y -> (error l (scalar_jones y) < error l (scalar_jones x))%Qc.
Proof.
  unfold scalar_divide. cbn [fst snd]. intros E N. apply quotient_spec in E as [E Hd]. destruct (diag_real l) as [R0 R3].
  rewrite (pythagoras l (scalar_jones y) (scalar_jones x)).
  - apply lt_add, nonneg_pos; [apply spread_nonneg|]. intros Q. apply spread_0 in Q. apply N. clear E.
    assert (Q0 := f_equal m0 Q). assert (Q3 := f_equal m3 Q). clear Q. unfold scalar_jones in *. cbn in Q0, Q3, Hd.
    set (D := denominator l) in *. clearbody D. set (z := csub x y) in *.
    assert (Z : cscale (re (m0 D) + re (m3 D)) z = c0).
    { apply (f_equal2 cadd Q0) in Q3. apply (f_equal re) in Q3 as A1. apply (f_equal im) in Q3 as A2. cbn in A1, A2. rewrite R0, R3 in A1, A2. subst z. apply cplx_eq; cbn; [rewrite <- A1 at 1|rewrite <- A2 at 1]; cbn; ring. }
    assert (z = c0). { replace z with (cscale (/ (re (m0 D) + re (m3 D)))%Qc (cscale (re (m0 D) + re (m3 D))%Qc z)) by (apply cplx_eq; cbn; field; exact Hd). rewrite Z. apply cplx_eq; cbn; ring. }
    replace x with (cadd y z) by (unfold z; ring). rewrite H. ring.
  - apply (f_equal re) in E as E1. apply (f_equal im) in E as E2. clear E Hd. set (D := denominator l) in *. set (M := numerator l) in *. clearbody D M.
    destruct x as [x1 x2], y as [y1 y2], D as [[d0 e0] [d1 e1] [d2 e2] [d3 e3]], M as [[p0 q0] [p1 q1] [p2 q2] [p3 q3]]. cbn in *. subst.
    transitivity ((p0 + p3 - (d0 + d3) * y1) * (x1 - y1) + (q0 + q3 - (d0 + d3) * y2) * (x2 - y2))%Qc; [ring|]. rewrite E1, E2. ring.
Qed.
Lemma scalar_flat l x x' : scalar_divide (mtrace (numerator l), re (mtrace (denominator l))) = None -> error l (scalar_jones x) = error l (scalar_jones x').
Proof.
  unfold scalar_divide. cbn [fst snd]. intros E. apply quotient_none in E. destruct (diag_real l) as [R0 R3]. apply spread_flat. rewrite spread_den. set (D := denominator l) in *. clearbody D.
  destruct D as [[d0 e0] [d1 e1] [d2 e2] [d3 e3]], x as [x1 x2], x' as [y1 y2]. cbn in *. subst. transitivity ((d0 + d3) * ((x1 - y1) * (x1 - y1) + (x2 - y2) * (x2 - y2)))%Qc; [ring|]. rewrite E. ring.
Qed.

Lemma full_best l y x : full_divide (numerator l, denominator l) = Some y -> x <> y -> (error l y < error l x)%Qc.
Proof.
  unfold full_divide. cbn [fst snd]. destruct (minvert (denominator l)) as [i|] eqn:I; [|discriminate]. intros E N. injection E as <-. apply minvert_spec in I as [I1 I2].
  assert (Y : mmul (mmul (numerator l) i) (denominator l) = numerator l) by (now rewrite <- mmul_assoc, I2, mmul_1_r).
  set (y := mmul (numerator l) i) in *. rewrite (pythagoras l y x).
  - apply lt_add, nonneg_pos; [apply spread_nonneg|]. intros Q. apply spread_0 in Q. apply N.
    assert (msub x y = mzero). { rewrite <- (mmul_1_r (msub x y)), <- I1, mmul_assoc, Q. apply mmul_0_l. }
    rewrite <- (msub_add x y), H. rewrite madd_comm. apply madd_0.
  - rewrite Y. set (M := numerator l). replace (msub M M) with mzero by (apply mat_eq; cbn; ring). rewrite mmul_0_l. reflexivity.
Qed.
Lemma full_flat l : full_divide (numerator l, denominator l) = None -> exists z, z <> mzero /\ forall x, error l (madd x z) = error l x.
Proof.
  unfold full_divide. cbn [fst snd]. destruct (minvert (denominator l)) as [i|] eqn:I; [discriminate|]. intros _. unfold minvert in I. destruct (Qc_eq_dec (cnorm (mdet (denominator l))) 0) as [E|]; [|discriminate].
  apply cnorm_0 in E. clear I.
  assert (Z : exists z, z <> mzero /\ mmul z (denominator l) = mzero).
  { set (D := denominator l) in *. clearbody D. unfold mdet in E.
    assert (dec : forall a : cplx, {a = c0} + {a <> c0}). { intros a. destruct (Qc_eq_dec (cnorm a) 0) as [Q|Q]; [left; now apply cnorm_0|right; intros ->; now apply Q]. }
    assert (E' : csub (cmul (m2 D) (m1 D)) (cmul (m0 D) (m3 D)) = c0) by (transitivity (copp (csub (cmul (m0 D) (m3 D)) (cmul (m1 D) (m2 D)))); [ring|rewrite E; reflexivity]).
    destruct (dec (m3 D)) as [H3|H3]; [|exists (Mat (m3 D) (copp (m1 D)) c0 c0); split; [intros Q; apply H3; exact (f_equal m0 Q)|apply mat_eq; cbn; try ring; rewrite <- E; ring]].
    destruct (dec (m1 D)) as [H1|H1]; [|exists (Mat (m3 D) (copp (m1 D)) c0 c0); split; [|apply mat_eq; cbn; try ring; rewrite <- E; ring]].
    2:{ intros Q. apply H1. assert (copp (m1 D) = c0) by (exact (f_equal m1 Q)). replace (m1 D) with (copp (copp (m1 D))) by ring. rewrite H. reflexivity. }
    destruct (dec (m2 D)) as [H2|H2]; [|exists (Mat (m2 D) (copp (m0 D)) c0 c0); split; [intros Q; apply H2; exact (f_equal m0 Q)|apply mat_eq; cbn; try ring; rewrite <- E'; ring]].
    destruct (dec (m0 D)) as [H0|H0]; [|exists (Mat (m2 D) (copp (m0 D)) c0 c0); split; [|apply mat_eq; cbn; try ring; rewrite <- E'; ring]].
    2:{ intros Q. apply H0. assert (copp (m0 D) = c0) by (exact (f_equal m1 Q)). replace (m0 D) with (copp (copp (m0 D))) by ring. rewrite H. reflexivity. }
    exists (Mat c1 c0 c0 c0). split; [intros Q; apply (f_equal (fun m => this (re (m0 m)))) in Q; discriminate|]. apply mat_eq; cbn; rewrite ?H0, ?H1, ?H2, ?H3; ring. }
  destruct Z as (z & Nz & Z). exists z. split; [exact Nz|]. intros x. apply spread_flat. replace (msub (madd x z) x) with z by (apply mat_eq; cbn; ring). rewrite spread_den, Z, mmul_0_l. reflexivity.
Qed.
(** The number, if there is one *)
Definition val (o : option cplx) (x : cplx) : cplx := match o with Some y => y | None => x end.
Lemma cscale_0 d z : d <> 0%Qc -> cscale d z = c0 -> z = c0.
Proof. intros N H. replace z with (cscale (/ d)%Qc (cscale d z)) by (apply cplx_eq; cbn; field; exact N). rewrite H. apply cplx_eq; cbn; ring. Qed.
Lemma diagonal_best l x0 x1 : let o := diagonal_divide ((m0 (numerator l), m3 (numerator l)), (re (m0 (denominator l)), re (m3 (denominator l)))) in
  let y0 := val (fst o) x0 in let y1 := val (snd o) x1 in
  (x0, x1) <> (y0, y1) -> (error l (mdiag y0 y1) < error l (mdiag x0 x1))%Qc.
Proof.
  intros o y0 y1 N. destruct (diag_real l) as [R0 R3].
  assert (Z0 : csub x0 y0 = c0 \/ (re (m0 (denominator l)) <> 0%Qc /\ m0 (numerator l) = cscale (re (m0 (denominator l))) y0)).
  { unfold y0, o, diagonal_divide. cbn [fst snd]. destruct (quotient (m0 (numerator l)) (re (m0 (denominator l)))) as [q|] eqn:Q; cbn [val]; [|left; ring]. apply quotient_spec in Q. tauto. }
  assert (Z1 : csub x1 y1 = c0 \/ (re (m3 (denominator l)) <> 0%Qc /\ m3 (numerator l) = cscale (re (m3 (denominator l))) y1)).
  { unfold y1, o, diagonal_divide. cbn [fst snd]. destruct (quotient (m3 (numerator l)) (re (m3 (denominator l)))) as [q|] eqn:Q; cbn [val]; [|left; ring]. apply quotient_spec in Q. tauto. }
  clearbody y0 y1. clear o. rewrite (pythagoras l (mdiag y0 y1) (mdiag x0 x1)).
  - apply lt_add, nonneg_pos; [apply spread_nonneg|]. intros Q. apply spread_0 in Q. apply N.
    assert (Q0 : cscale (re (m0 (denominator l))) (csub x0 y0) = c0).
    { apply (f_equal m0) in Q. apply (f_equal re) in Q as A1. apply (f_equal im) in Q as A2. cbn in A1, A2. rewrite R0 in A1, A2. apply cplx_eq; cbn; [rewrite <- A1 at 1|rewrite <- A2 at 1]; ring. }
    assert (Q3 : cscale (re (m3 (denominator l))) (csub x1 y1) = c0).
    { apply (f_equal m3) in Q. apply (f_equal re) in Q as A1. apply (f_equal im) in Q as A2. cbn in A1, A2. rewrite R3 in A1, A2. apply cplx_eq; cbn; [rewrite <- A1 at 1|rewrite <- A2 at 1]; ring. }
    assert (X0 : csub x0 y0 = c0) by (destruct Z0 as [Z0|[Z0 _]]; [auto|now apply cscale_0 in Q0]).
    assert (X1 : csub x1 y1 = c0) by (destruct Z1 as [Z1|[Z1 _]]; [auto|now apply cscale_0 in Q3]).
    replace x0 with (cadd y0 (csub x0 y0)) by ring. replace x1 with (cadd y1 (csub x1 y1)) by ring. rewrite X0, X1. f_equal; ring.
  - set (D := denominator l) in *. set (M := numerator l) in *. clearbody D M.
    assert (G : forall r n x y : cplx, im r = 0%Qc -> csub x y = c0 \/ (re r <> 0%Qc /\ n = cscale (re r) y) -> cmul (csub n (cmul y r)) (conj (csub x y)) = c0).
    { intros r n x y Hr [H|[_ H]]; [rewrite H, conj_0; ring|]. replace (cscale (re r) y) with (cmul y r) in H; [rewrite H; ring|]. apply cplx_eq; cbn; rewrite Hr; ring. }
    pose proof (G _ _ _ _ R0 Z0) as G0. pose proof (G _ _ _ _ R3 Z1) as G1. apply (f_equal re) in G0, G1. cbn in G0, G1. cbn. 
    transitivity (((re (m0 M) - (re y0 * re (m0 D) - im y0 * im (m0 D))) * (re x0 - re y0) - (im (m0 M) - (re y0 * im (m0 D) + im y0 * re (m0 D))) * - (im x0 - im y0)) +
                  ((re (m3 M) - (re y1 * re (m3 D) - im y1 * im (m3 D))) * (re x1 - re y1) - (im (m3 M) - (re y1 * im (m3 D) + im y1 * re (m3 D))) * - (im x1 - im y1)))%Qc; [ring|]. rewrite G0, G1. ring.
Qed.
Lemma diagonal_flat l : let o := diagonal_divide ((m0 (numerator l), m3 (numerator l)), (re (m0 (denominator l)), re (m3 (denominator l)))) in
  (fst o = None -> forall x0 x0' x1, error l (mdiag x0 x1) = error l (mdiag x0' x1)) /\ (snd o = None -> forall x0 x1 x1', error l (mdiag x0 x1) = error l (mdiag x0 x1')).
Proof.
  intros o. destruct (diag_real l) as [R0 R3]. split; intros H; unfold o, diagonal_divide in H; cbn [fst snd] in H; apply quotient_none in H; intros; apply spread_flat; rewrite spread_den;
    set (D := denominator l) in *; clearbody D; destruct D as [[d0 e0] [d1 e1] [d2 e2] [d3 e3]], x0, x1; [destruct x0'|destruct x1']; cbn in *; subst; ring.
Qed.

(** * C70: the best fit *)
(** For any block of visibilities, numbers of antennas, directions and solutions, current solutions and threads: an iteration of the scalar solver is defined, and gives every
    antenna and solution of every direction the one complex gain with the smallest misfit, where the data without the other directions is compared with the model with the
    current solutions of the other antennas.  It gives NaN only if the misfit does not depend on the gain. *)
Theorem C70_scalar : forall n_antennas n_sub n_sol chunks b sols next,
  fits_block n_antennas n_sol b -> list_sum n_sol <= n_sub -> (Z.of_nat n_antennas * Z.of_nat n_sub < 2 ^ 32)%Z ->
  length sols = n_antennas * n_sub -> length next = n_antennas * n_sub -> (forall d l, Permutation (concat (chunks d l)) l) ->
  exists next', scalar_iteration n_antennas n_sub n_sol chunks b sols next = Ok next' /\ length next' = n_antennas * n_sub /\
  forall d a k, d < length n_sol -> a < n_antennas -> k < nth d n_sol 0 ->
    let s := first_solution n_sol d + k in
    let cost x := misfit (fun a s => scalar_jones (nth (a * n_sub + s) sols c0)) (length n_sol) b d a s (scalar_jones x) in
    match nth (a * n_sub + s) next' None with
    | Some y => forall x, x <> y -> (cost y < cost x)%Qc
    | None => forall x x', cost x = cost x'
    end.
Proof.
  intros n_antennas n_sub n_sol chunks b sols next F H1 H2 H3 H4 H5.
  destruct (iteration_fit scalar_jones scalar_apply (c0, 0%Qc) scalar_add scalar_1 scalar_2 scalar_divide c0 None) with (contrib := scalar_contrib) (n_antennas := n_antennas) (n_sub := n_sub) (n_sol := n_sol)
    (sols := sols) (b := b) (chunks := chunks) (next := next) as (next' & E1 & E2 & E3); auto.
  - intros [] [] []; unfold scalar_add; cbn [fst snd]; f_equal; ring.
  - intros [] []; unfold scalar_add; cbn [fst snd]; f_equal; ring.
  - intros []; unfold scalar_add; cbn [fst snd]; f_equal; ring.
  - intros m s1 s2. unfold scalar_apply, seen, scalar_jones, mscale, mdiag. apply mat_eq; cbn; rewrite ?conj_0; ring.
  - intros r m s. unfold scalar_1, scalar_contrib. cbn [fst snd]. replace (mmul (scalar_jones s) (mherm m)) with (mscale (mherm m) s) by (apply mat_eq; cbn; ring). reflexivity.
  - intros r m s. unfold scalar_2, scalar_contrib. cbn [fst snd]. replace (mmul (scalar_jones s) m) with (mscale m s) by (apply mat_eq; cbn; ring). reflexivity.
  - exists next'. split; [exact E1|]. split; [exact E2|]. intros d a k Hd Ha Hk s cost. unfold s. rewrite E3 by auto. fold s. rewrite scalar_sum.
    assert (C : forall x, cost x = error (pairs scalar_jones c0 n_sub n_sol sols b d a s) (scalar_jones x)) by (intros; unfold cost; now rewrite <- misfit_error).
    destruct (scalar_divide _) as [y|] eqn:Q.
    + intros x N. rewrite !C. now apply scalar_best.
    + intros x x'. rewrite !C. now apply scalar_flat.
Qed.
Print Assumptions C70_scalar.

(** The same for the diagonal solver: each polarization that is a number is the best one, whatever the other is, and each that is NaN does not matter. *)
Theorem C70_diagonal : forall n_antennas n_sub n_sol chunks b sols next,
  fits_block n_antennas n_sol b -> list_sum n_sol <= n_sub -> (Z.of_nat n_antennas * Z.of_nat n_sub < 2 ^ 32)%Z ->
  length sols = n_antennas * n_sub -> length next = n_antennas * n_sub -> (forall d l, Permutation (concat (chunks d l)) l) ->
  exists next', diagonal_iteration n_antennas n_sub n_sol chunks b sols next = Ok next' /\ length next' = n_antennas * n_sub /\
  forall d a k, d < length n_sol -> a < n_antennas -> k < nth d n_sol 0 ->
    let s := first_solution n_sol d + k in
    let cost x := misfit (fun a s => diagonal_jones (nth (a * n_sub + s) sols (c0, c0))) (length n_sol) b d a s (diagonal_jones x) in
    let y := nth (a * n_sub + s) next' (None, None) in
    (forall x0 x1, (x0, x1) <> (val (fst y) x0, val (snd y) x1) -> (cost (val (fst y) x0, val (snd y) x1) < cost (x0, x1))%Qc) /\
    (fst y = None -> forall x0 x0' x1, cost (x0, x1) = cost (x0', x1)) /\ (snd y = None -> forall x0 x1 x1', cost (x0, x1) = cost (x0, x1')).
Proof.
  intros n_antennas n_sub n_sol chunks b sols next F H1 H2 H3 H4 H5.
  destruct (iteration_fit diagonal_jones diagonal_apply ((c0, c0), (0%Qc, 0%Qc)) diagonal_add diagonal_1 diagonal_2 diagonal_divide (c0, c0) (None, None)) with (contrib := diagonal_contrib) (n_antennas := n_antennas) (n_sub := n_sub) (n_sol := n_sol)
    (sols := sols) (b := b) (chunks := chunks) (next := next) as (next' & E1 & E2 & E3); auto.
  - intros [[] []] [[] []] [[] []]; unfold diagonal_add; cbn [fst snd]; f_equal; f_equal; ring.
  - intros [[] []] [[] []]; unfold diagonal_add; cbn [fst snd]; f_equal; f_equal; ring.
  - intros [[] []]; unfold diagonal_add; cbn [fst snd]; f_equal; f_equal; ring.
  - exists next'. split; [exact E1|]. split; [exact E2|]. intros d a k Hd Ha Hk s cost y.
    assert (C : forall x, cost x = error (pairs diagonal_jones (c0, c0) n_sub n_sol sols b d a s) (mdiag (fst x) (snd x))) by (intros; unfold cost; rewrite <- misfit_error; reflexivity).
    assert (Y : y = diagonal_divide ((m0 (numerator (pairs diagonal_jones (c0, c0) n_sub n_sol sols b d a s)), m3 (numerator (pairs diagonal_jones (c0, c0) n_sub n_sol sols b d a s))),
      (re (m0 (denominator (pairs diagonal_jones (c0, c0) n_sub n_sol sols b d a s))), re (m3 (denominator (pairs diagonal_jones (c0, c0) n_sub n_sol sols b d a s)))))).
    { unfold y, s. rewrite E3 by auto. f_equal. apply diagonal_sum. }
    clearbody y. subst y. set (l := pairs _ _ _ _ _ _ _ _ _) in *. clearbody l. pose proof (diagonal_flat l) as [G1 G2]. split; [|split].
    + intros x0 x1 N. rewrite !C. cbn [fst snd]. apply diagonal_best. exact N.
    + intros Q x0 x0' x1. rewrite !C. now apply G1.
    + intros Q x0 x1 x1'. rewrite !C. now apply G2.
Qed.
Print Assumptions C70_diagonal.

(** The same for the full-Jones solver.  It gives NaN only if the misfit does not determine the solution: something can be added to any solution without a change. *)
Theorem C70_full : forall n_antennas n_sub n_sol chunks b sols next,
  fits_block n_antennas n_sol b -> list_sum n_sol <= n_sub -> (Z.of_nat n_antennas * Z.of_nat n_sub < 2 ^ 32)%Z ->
  length sols = n_antennas * n_sub -> length next = n_antennas * n_sub -> (forall d l, Permutation (concat (chunks d l)) l) ->
  exists next', full_iteration n_antennas n_sub n_sol chunks b sols next = Ok next' /\ length next' = n_antennas * n_sub /\
  forall d a k, d < length n_sol -> a < n_antennas -> k < nth d n_sol 0 ->
    let s := first_solution n_sol d + k in
    let cost x := misfit (fun a s => nth (a * n_sub + s) sols mzero) (length n_sol) b d a s x in
    match nth (a * n_sub + s) next' None with
    | Some y => forall x, x <> y -> (cost y < cost x)%Qc
    | None => exists z, z <> mzero /\ forall x, cost (madd x z) = cost x
    end.
Proof.
  intros n_antennas n_sub n_sol chunks b sols next F H1 H2 H3 H4 H5.
  destruct (iteration_fit full_jones full_apply (mzero, mzero) full_add full_1 full_2 full_divide mzero None) with (contrib := full_contrib) (n_antennas := n_antennas) (n_sub := n_sub) (n_sol := n_sol)
    (sols := sols) (b := b) (chunks := chunks) (next := next) as (next' & E1 & E2 & E3); auto.
  - intros [] [] []; unfold full_add; cbn [fst snd]; now rewrite !madd_assoc.
  - intros [] []; unfold full_add; cbn [fst snd]. f_equal; apply madd_comm.
  - intros []; unfold full_add; cbn [fst snd]; now rewrite !madd_0.
  - intros m s1 s2. unfold full_apply, seen, full_jones. apply mmul_assoc.
  - exists next'. split; [exact E1|]. split; [exact E2|]. intros d a k Hd Ha Hk s cost. unfold s. rewrite E3 by auto. fold s. rewrite full_sum.
    assert (C : forall x, cost x = error (pairs full_jones mzero n_sub n_sol sols b d a s) x) by (intros; unfold cost; rewrite <- misfit_error; reflexivity).
    destruct (full_divide _) as [y|] eqn:Q.
    + intros x N. rewrite !C. now apply full_best.
    + apply full_flat in Q as (z & Nz & Q). exists z. split; [exact Nz|]. intros x. now rewrite !C.
Qed.
Print Assumptions C70_full.

(** * C70: the true solutions stay *)
Lemma misfit_nonneg j n b d a s x : (0 <= misfit j n b d a s x)%Qc.
Proof.
  unfold misfit. apply qsum_nonneg. intros q I. apply in_map_iff in I as (v & <- & _). unfold misfit_of.
  destruct (_ =? s); [|apply Qcle_refl]. destruct (_ =? a); [apply mnorm_nonneg|]. destruct (_ =? a); [apply mnorm_nonneg|apply Qcle_refl].
Qed.
Lemma misfit_exact j n b d a s : d < n -> Forall (fun v => vis_data v = msum (map (expected j v) (seq 0 n))) b -> misfit j n b d a s (j a s) = 0%Qc.
Proof.
  intros Hd H. unfold misfit. apply qsum_map_0. intros v I. rewrite Forall_forall in H. specialize (H v I).
  assert (R : rest j n v d = expected j v d).
  { unfold rest. rewrite H, (msum_without _ d) by (try apply seq_NoDup; apply in_seq; lia). apply mat_eq; cbn; ring. }
  assert (Z : forall m, mnorm (msub m m) = 0%Qc) by (intros; replace (msub m m) with mzero by (apply mat_eq; cbn; ring); reflexivity).
  unfold misfit_of. cbv zeta. rewrite R. unfold expected. cbv zeta. destruct (Nat.eqb_spec (nth d (vis_solutions v) 0) s) as [->|]; [|reflexivity].
  destruct (Nat.eqb_spec (fst (vis_antennas v)) a) as [->|]; [apply Z|]. destruct (Nat.eqb_spec (snd (vis_antennas v)) a) as [->|]; [apply Z|reflexivity].
Qed.
Lemma cplx_dec (a b : cplx) : {a = b} + {a <> b}.
Proof. destruct (Qc_eq_dec (re a) (re b)) as [E|E]; [|right; congruence]. destruct (Qc_eq_dec (im a) (im b)) as [E'|E']; [left; now apply cplx_eq|right; congruence]. Qed.
Lemma mat_dec (a b : mat) : {a = b} + {a <> b}.
Proof.
  destruct (cplx_dec (m0 a) (m0 b)); [|right; congruence]. destruct (cplx_dec (m1 a) (m1 b)); [|right; congruence].
  destruct (cplx_dec (m2 a) (m2 b)); [|right; congruence]. destruct (cplx_dec (m3 a) (m3 b)); [left; now apply mat_eq|right; congruence].
Qed.
(** If the data is exactly what the current solutions give, an iteration of each of the solvers keeps every solution, or says that it does not matter. *)
Theorem C70_fixed : forall n_antennas n_sub n_sol chunks b,
  fits_block n_antennas n_sol b -> list_sum n_sol <= n_sub -> (Z.of_nat n_antennas * Z.of_nat n_sub < 2 ^ 32)%Z -> (forall d l, Permutation (concat (chunks d l)) l) ->
  (forall sols next, length sols = n_antennas * n_sub -> length next = n_antennas * n_sub ->
    Forall (fun v => vis_data v = msum (map (expected (fun a s => scalar_jones (nth (a * n_sub + s) sols c0)) v) (seq 0 (length n_sol)))) b ->
    exists next', scalar_iteration n_antennas n_sub n_sol chunks b sols next = Ok next' /\
    forall d a k, d < length n_sol -> a < n_antennas -> k < nth d n_sol 0 -> let i := a * n_sub + (first_solution n_sol d + k) in
      nth i next' None = Some (nth i sols c0) \/ nth i next' None = None) /\
  (forall sols next, length sols = n_antennas * n_sub -> length next = n_antennas * n_sub ->
    Forall (fun v => vis_data v = msum (map (expected (fun a s => diagonal_jones (nth (a * n_sub + s) sols (c0, c0))) v) (seq 0 (length n_sol)))) b ->
    exists next', diagonal_iteration n_antennas n_sub n_sol chunks b sols next = Ok next' /\
    forall d a k, d < length n_sol -> a < n_antennas -> k < nth d n_sol 0 -> let i := a * n_sub + (first_solution n_sol d + k) in
      val (fst (nth i next' (None, None))) (fst (nth i sols (c0, c0))) = fst (nth i sols (c0, c0)) /\
      val (snd (nth i next' (None, None))) (snd (nth i sols (c0, c0))) = snd (nth i sols (c0, c0))) /\
  (forall sols next, length sols = n_antennas * n_sub -> length next = n_antennas * n_sub ->
    Forall (fun v => vis_data v = msum (map (expected (fun a s => nth (a * n_sub + s) sols mzero) v) (seq 0 (length n_sol)))) b ->
    exists next', full_iteration n_antennas n_sub n_sol chunks b sols next = Ok next' /\
    forall d a k, d < length n_sol -> a < n_antennas -> k < nth d n_sol 0 -> let i := a * n_sub + (first_solution n_sol d + k) in
      nth i next' None = Some (nth i sols mzero) \/ nth i next' None = None).
Proof.
  intros n_antennas n_sub n_sol chunks b F H1 H2 H5. split; [|split]; intros sols next H3 H4 Hb.
  - destruct (C70_scalar n_antennas n_sub n_sol chunks b sols next) as (next' & E1 & _ & E2); auto. exists next'. split; [exact E1|]. intros d a k Hd Ha Hk i. specialize (E2 d a k Hd Ha Hk). cbv zeta in E2. fold i in E2.
    destruct (nth i next' None) as [y|]; [left|now right]. f_equal. destruct (cplx_dec (nth i sols c0) y) as [|N]; [auto|]. exfalso. specialize (E2 _ N).
    pose proof (misfit_exact _ _ b d a (first_solution n_sol d + k) Hd Hb) as Z. cbv beta in Z. fold i in Z. rewrite Z in E2. eapply Qclt_not_le; [exact E2|]. apply misfit_nonneg.
  - destruct (C70_diagonal n_antennas n_sub n_sol chunks b sols next) as (next' & E1 & _ & E2); auto. exists next'. split; [exact E1|]. intros d a k Hd Ha Hk i. specialize (E2 d a k Hd Ha Hk). cbv zeta in E2. fold i in E2.
    destruct E2 as [E2 _]. set (x := nth i sols (c0, c0)) in *. specialize (E2 (fst x) (snd x)).
    set (y := (val (fst (nth i next' (None, None))) (fst x), val (snd (nth i next' (None, None))) (snd x))) in *.
    assert (y = x). { destruct (cplx_dec (fst y) (fst x)) as [Q1|Q1]; [destruct (cplx_dec (snd y) (snd x)) as [Q2|Q2]; [destruct x, y; cbn in *; congruence|]|]; exfalso;
      (assert (N : (fst x, snd x) <> y) by (intros Q; rewrite <- Q in *; cbn in *; congruence)); specialize (E2 N);
      pose proof (misfit_exact _ _ b d a (first_solution n_sol d + k) Hd Hb) as Z; cbv beta in Z; fold i in Z; fold x in Z; replace (diagonal_jones (fst x, snd x)) with (diagonal_jones x) in E2 by reflexivity;
      rewrite Z in E2; (eapply Qclt_not_le; [exact E2|]); apply misfit_nonneg. }
    split; [now rewrite <- H at 2|now rewrite <- H at 2].
  - destruct (C70_full n_antennas n_sub n_sol chunks b sols next) as (next' & E1 & _ & E2); auto. exists next'. split; [exact E1|]. intros d a k Hd Ha Hk i. specialize (E2 d a k Hd Ha Hk). cbv zeta in E2. fold i in E2.
    destruct (nth i next' None) as [y|]; [left|now right]. f_equal. destruct (mat_dec (nth i sols mzero) y) as [|N]; [auto|]. exfalso. specialize (E2 _ N).
    pose proof (misfit_exact _ _ b d a (first_solution n_sol d + k) Hd Hb) as Z. cbv beta in Z. fold i in Z. rewrite Z in E2. eapply Qclt_not_le; [exact E2|]. apply misfit_nonneg.
Qed.
Print Assumptions C70_fixed.

(** A case: three antennas, two directions with one and two solutions, and the threads get one visibility each, in opposite order. *)
Definition real (z : Z) : cplx := C (Q2Qc (inject_Z z)) (Q2Qc 0).
Definition shown (o : option cplx) : option (Q * Q) := option_map (fun c => (this (re c), this (im c))) o.
Definition case_model (i : Z) : list mat := [Mat (real i) (real 1) (real 0) (real 2); Mat (real 1) (real 0) (real i) (real 3)].
Definition case_sols : list cplx := map real [1; 2; 1; 2; 1; 3; 1; 2; 2]%Z.
Definition case_vis (a1 a2 : nat) (i : Z) (s : nat) : @visibility mat unit :=
  let v := Visibility mzero (a1, a2) (case_model i) [0; s] [] in
  Visibility (msum (map (expected (fun a s => scalar_jones (nth (a * 3 + s) case_sols c0)) v) [0; 1])) (a1, a2) (case_model i) [0; s] [].
Definition case_block : list (@visibility mat unit) := [case_vis 0 1 1 1; case_vis 0 2 2 1; case_vis 1 2 3 1; case_vis 0 1 4 2; case_vis 1 2 5 2].
Definition case_chunks (d : nat) (l : list (mat * @visibility mat unit)) : list (list (mat * @visibility mat unit)) := rev (map (fun x => [x]) l).
Example C70_fits : fits_block 3 [1; 2] case_block /\ list_sum [1; 2] <= 3 /\ length case_sols = 3 * 3 /\ (forall d l, Permutation (concat (case_chunks d l)) l).
Proof.
  split; [|repeat split; try (cbn; lia)].
  - split; [|eexists _, _; split; [reflexivity|]; intros [|[|]] H; cbn in *; lia]. repeat constructor; cbn; try lia; destruct d as [|[|]]; cbn in *; lia.
  - intros d l. unfold case_chunks. induction l as [|x l IH]; [constructor|]. cbn [map rev]. rewrite concat_app. cbn [concat]. rewrite app_nil_r. rewrite IH. symmetry. apply Permutation_cons_append.
Qed.
Example C70_scalar_case : exists next', scalar_iteration 3 3 [1; 2] case_chunks case_block case_sols (repeat None 9) = Ok next' /\ map shown next' = map (fun x => shown (Some x)) case_sols.
Proof. eexists. split; [vm_compute; reflexivity|]. vm_compute. reflexivity. Qed.
(** From other solutions, where antenna 2 has no data for the last solution: the new ones are different, and antenna 2 has NaN there. *)
Example C70_scalar_other : exists next', scalar_iteration 3 3 [1; 2] case_chunks (firstn 4 case_block) (map real [1; 1; 1; 1; 1; 1; 1; 1; 1]%Z) (repeat None 9) = Ok next' /\
  nth 8 (map shown next') (Some (0, 0))%Q = None /\ nth 4 (map shown next') None <> None /\ nth 4 (map shown next') None <> Some (1, 0)%Q.
Proof. eexists. split; [vm_compute; reflexivity|]. vm_compute. repeat split; discriminate. Qed.
(** The same data for the other two solvers *)
Example C70_diagonal_case : exists next', diagonal_iteration 3 3 [1; 2] case_chunks case_block (map (fun x => (x, x)) case_sols) (repeat (None, None) 9) = Ok next' /\
  map (fun x => (shown (fst x), shown (snd x))) next' = map (fun x => (shown (Some x), shown (Some x))) case_sols.
Proof. eexists. split; [vm_compute; reflexivity|]. vm_compute. reflexivity. Qed.
Example C70_full_case : exists next', full_iteration 3 3 [1; 2] case_chunks case_block (map (fun x => mdiag x x) case_sols) (repeat None 9) = Ok next' /\
  map (option_map (fun m => (this (re (m0 m)), this (re (m1 m)), this (re (m2 m)), this (re (m3 m))))) next' = map (fun x => Some (this (re x), 0, 0, this (re x)))%Q case_sols.
Proof. eexists. split; [vm_compute; reflexivity|]. vm_compute. reflexivity. Qed.

(** * What does not hold *)
(** If the first visibility of a block does not have the lowest solution number, which is possible for BDA data (C69_first_refuted), the solver writes outside its arrays:
    the difference of the numbers is negative and wraps. *)
Theorem C70_first_refuted : exists b sols next, Forall (fun v : @visibility mat unit => fst (vis_antennas v) < 2 /\ snd (vis_antennas v) < 2 /\ length (vis_models v) = 1 /\ nth 0 (vis_solutions v) 2 < 2) b /\ b <> [] /\
  length sols = 2 * 2 /\ length next = 2 * 2 /\ scalar_iteration 2 2 [2] (fun _ l => [l]) b sols next = Undefined.
Proof.
  exists [Visibility mzero (0, 1) [mzero] [1] []; Visibility mzero (0, 1) [mzero] [0] []], (repeat c1 4), (repeat None 4).
  split; [repeat constructor|]. split; [discriminate|]. split; [reflexivity|]. split; [reflexivity|]. vm_compute. reflexivity.
Qed.
Print Assumptions C70_first_refuted.
(** A channel block without visibilities: the solver reads the solution number of the first one. *)
Theorem C70_empty_refuted : exists sols next, length sols = 2 /\ length next = 2 /\ scalar_iteration 2 1 [1] (fun _ l => [l]) [] sols next = Undefined.
Proof. exists [c1; c1], [None; None]. repeat split. Qed.
Print Assumptions C70_empty_refuted.
