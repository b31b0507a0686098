(** Proofs for the loop of the solvers. *)
From Coq Require Import QArith Qcanon List Bool Arith NArith ZArith Lia Reals Lra Qreals.
From Verif Require Import QcUtil AverageModel Cplx IterateModel IterateSpec.
Import ListNotations.
Open Scope nat_scope.

(** * Running mean and variance *)
Definition squares (m : Qc) (l : list Qc) : Qc := qsum (map (fun x => ((x - m) * (x - m))%Qc) l).
Lemma squares_expand m l : squares m l = (qsum (map (fun x => x * x) l) - (1 + 1) * m * qsum l + qn (length l) * m * m)%Qc.
Proof.
  unfold squares. induction l as [|x l IH]; [cbn [map length]; rewrite qn_0, !qsum_nil; ring|]. cbn [map length]. rewrite !qsum_cons, IH, qn_S. ring.
Qed.
Lemma qn_S_neq0 n : qn (S n) <> 0%Qc. Proof. apply qn_neq0. lia. Qed.
Definition good (st : stall) (l : list Qc) : Prop := count st = length l /\ mean st = mean_of l /\ var st = squares (mean_of l) l.
Lemma good_snoc st l x : l <> [] -> good st l ->
  let n := S (count st) in let d1 := (x - mean st)%Qc in let m := (mean st + d1 / qn n)%Qc in let d2 := (x - m)%Qc in
  good (Stall n m (var st + d1 * d2)%Qc) (l ++ [x]).
Proof.
  intros Hl (E1 & E2 & E3) n d1 m d2. assert (N : qn (length l) <> 0%Qc) by (apply qn_neq0; destruct l; [easy|cbn; lia]).
  assert (L : length (l ++ [x]) = S (length l)) by (rewrite app_length; cbn; lia).
  assert (N' : qn (S (length l)) <> 0%Qc) by (apply qn_neq0; lia).
  assert (M : m = mean_of (l ++ [x])).
  { unfold m, d1, n, mean_of. rewrite E1, E2, L, qsum_app, qsum_cons, qsum_nil. unfold mean_of. rewrite qn_S in *. field. split; auto. }
  split; [cbn [count]; unfold n; lia|]. split; [exact M|]. cbn [var]. rewrite E3, <- M. rewrite !squares_expand, map_app, !qsum_app, L. cbn [map]. rewrite !qsum_cons, !qsum_nil.
  unfold d2, m, d1, n. rewrite E1, E2. unfold mean_of. rewrite qn_S in *. field. split; auto.
Qed.
Lemma good_one x : good (Stall 1 x 0%Qc) [x].
Proof. split; [reflexivity|]. assert (mean_of [x] = x) by (unfold mean_of; cbn [length]; rewrite qsum_cons, qsum_nil, qn_S, qn_0; field; discriminate). split; cbn [mean var]; [auto|]. rewrite H. unfold squares. cbn. ring. Qed.
Definition good_or_first (st : option stall) (l : list Qc) : Prop := match l with [] => True | _ => match st with Some st => good st l | None => False end end.
Lemma detect_spec sigma st l x : good_or_first st l -> exists st', detect_stall sigma st (S (length l)) (l ++ [x]) =
  Ok (Some st', if S (length l) <? 30 then false else below_root (mean_of (l ++ [x])) sigma (variance_of (l ++ [x]))) /\ good st' (l ++ [x]).
Proof.
  intros G. unfold detect_stall. replace (S (length l) - 1) with (length l) by lia. rewrite nth_error_app2, Nat.sub_diag by lia. cbn [nth_error].
  assert (F : forall st', good st' (l ++ [x]) -> mean st' = mean_of (l ++ [x]) /\ (var st' / qn (count st'))%Qc = variance_of (l ++ [x])).
  { intros st' (E1 & E2 & E3). split; [auto|]. unfold variance_of. now rewrite E1, E3. }
  destruct l as [|y l].
  - cbn [length Nat.eqb app]. eexists. split; [reflexivity|apply good_one].
  - cbn [good_or_first] in G. destruct st as [st|]; [|destruct G]. replace (S (length (y :: l)) =? 1) with false by reflexivity. cbn [length]. eexists.
    pose proof (good_snoc st (y :: l) x ltac:(discriminate) G) as G'. cbv zeta in G'. split; [|exact G']. destruct (F _ G') as [F1 F2]. rewrite <- F1, <- F2. reflexivity.
Qed.

(** * Below the root *)
Lemma below_root_nonneg m s v : (0 <= m)%Qc -> (0 <= s)%Qc -> below_root m s v = qltb (m * m) (s * s * v).
Proof.
  intros Hm Hs. unfold below_root. apply qleb_true in Hs as ->. apply Qcle_not_lt in Hm. destruct (qltb_spec m 0); [now elim Hm|]. reflexivity.
Qed.
Lemma qsum_squares l : (forall x, In x l -> 0 <= x)%Qc -> (qsum (map (fun x => x * x) l) <= qsum l * qsum l)%Qc.
Proof.
  induction l as [|x l IH]; intros H; [cbn; apply Qcle_refl|]. cbn [map]. rewrite !qsum_cons. assert (Hx : (0 <= x)%Qc) by (apply H; now left). assert (Hl : (0 <= qsum l)%Qc) by (apply qsum_nonneg; intros; apply H; now right).
  specialize (IH ltac:(intros; apply H; now right)). assert (P : (0 <= x * qsum l)%Qc). { replace 0%Qc with (0 * qsum l)%Qc by ring. now apply Qcmult_le_compat_r. }
  replace ((x + qsum l) * (x + qsum l))%Qc with (x * x + qsum l * qsum l + (x * qsum l + x * qsum l))%Qc by ring. qclra.
Qed.
(** The variance of numbers that are not negative is at most n - 1 times the square of the mean *)
Lemma variance_bound l : l <> [] -> (forall x, In x l -> 0 <= x)%Qc -> (variance_of l <= (qn (length l) - 1) * (mean_of l * mean_of l))%Qc.
Proof.
  intros Hl H. assert (P : (0 < qn (length l))%Qc) by (apply qn_pos; destruct l; [easy|cbn; lia]). assert (N : qn (length l) <> 0%Qc) by (intros E; rewrite E in P; discriminate P).
  pose proof (qsum_squares l H) as Q.
  assert (E : variance_of l = (qsum (map (fun x => x * x) l) / qn (length l) - mean_of l * mean_of l)%Qc).
  { unfold variance_of. fold (squares (mean_of l) l). rewrite squares_expand. unfold mean_of. field. auto. }
  rewrite E. assert (Q' : (qsum (map (fun x => x * x) l) / qn (length l) <= qsum l * qsum l / qn (length l))%Qc).
  { unfold Qcdiv. apply Qcmult_le_compat_r; [exact Q|]. apply Qclt_le_weak, qc_inv_pos, P. }
  replace (qsum l * qsum l / qn (length l))%Qc with (qn (length l) * (mean_of l * mean_of l))%Qc in Q' by (unfold mean_of; field; auto).
  replace ((qn (length l) - 1) * (mean_of l * mean_of l))%Qc with (qn (length l) * (mean_of l * mean_of l) - mean_of l * mean_of l)%Qc by ring. qclra.
Qed.
Lemma no_stall sigma l : l <> [] -> (forall x, In x l -> 0 <= x)%Qc -> (0 <= sigma)%Qc -> (sigma * sigma * (qn (length l) - 1) <= 1)%Qc -> below_root (mean_of l) sigma (variance_of l) = false.
Proof.
  intros Hl H Hs B. assert (P : (0 < qn (length l))%Qc) by (apply qn_pos; destruct l; [easy|cbn; lia]).
  assert (M : (0 <= mean_of l)%Qc). { unfold mean_of, Qcdiv. replace 0%Qc with (0 * / qn (length l))%Qc by ring. apply Qcmult_le_compat_r; [now apply qsum_nonneg|]. now apply Qclt_le_weak, qc_inv_pos. }
  rewrite below_root_nonneg by auto. apply qltb_false. pose proof (variance_bound l Hl H) as V.
  assert (S2 : (0 <= sigma * sigma)%Qc) by apply qc_square_nonneg. assert (M2 : (0 <= mean_of l * mean_of l)%Qc) by apply qc_square_nonneg.
  eapply Qcle_trans.
  - assert (V' : (variance_of l * (sigma * sigma) <= (qn (length l) - 1) * (mean_of l * mean_of l) * (sigma * sigma))%Qc) by (now apply Qcmult_le_compat_r). rewrite Qcmult_comm. exact V'.
  - replace ((qn (length l) - 1) * (mean_of l * mean_of l) * (sigma * sigma))%Qc with (sigma * sigma * (qn (length l) - 1) * (mean_of l * mean_of l))%Qc by ring.
    replace (mean_of l * mean_of l)%Qc with (1 * (mean_of l * mean_of l))%Qc at 2 by ring. now apply Qcmult_le_compat_r.
Qed.
(** The test without a root is the test with a root *)
Lemma below_root_real m s v : (0 <= v)%Qc -> (below_root m s v = true <-> (Q2R m < Q2R s * sqrt (Q2R v))%R).
Proof.
  intros Hv. assert (TL : forall a b : Qc, (a < b)%Qc <-> (Q2R a < Q2R b)%R) by (intros; split; [apply Qlt_Rlt|apply Rlt_Qlt]).
  assert (TE : forall a b : Qc, (a <= b)%Qc <-> (Q2R a <= Q2R b)%R) by (intros; split; [apply Qle_Rle|apply Rle_Qle]).
  assert (TM : forall a b : Qc, Q2R (a * b)%Qc = (Q2R a * Q2R b)%R) by (intros; rewrite <- Q2R_mult; apply Qeq_eqR, this_mult).
  assert (T0 : Q2R 0%Qc = 0%R) by (unfold Q2R; cbn; lra || (unfold Q2R; simpl; field)).
  assert (V : (0 <= Q2R v)%R) by (rewrite <- T0; now apply TE). set (r := sqrt (Q2R v)). assert (R0 : (0 <= r)%R) by apply sqrt_pos. assert (RR : (r * r = Q2R v)%R) by (now apply sqrt_sqrt).
  assert (SV : Q2R (s * s * v)%Qc = ((Q2R s * r) * (Q2R s * r))%R) by (rewrite !TM, <- RR; ring).
  unfold below_root. destruct (qleb_spec 0 s) as [Hs|Hs].
  - apply TE in Hs. rewrite T0 in Hs. rewrite orb_true_iff, !qltb_true, !TL, (TM m m), SV, T0. assert (0 <= Q2R s * r)%R by (now apply Rmult_le_pos). set (y := (Q2R s * r)%R) in *. clearbody y.
    split.
    + intros [A|A]; [lra|]. destruct (Rlt_le_dec (Q2R m) y) as [|A']; [auto|]. exfalso. assert (y * y <= Q2R m * Q2R m)%R by (apply Rmult_le_compat; lra). lra.
    + intros A. destruct (Rlt_le_dec (Q2R m) 0) as [|B]; [now left|right]. apply Rle_lt_trans with (Q2R m * y)%R; [apply Rmult_le_compat_l; lra|]. apply Rmult_lt_compat_r; lra.
  - assert (Hs' : (Q2R s < 0)%R). { rewrite <- T0. apply TL. now apply Qcnot_le_lt. }
    rewrite andb_true_iff, !qltb_true, !TL, (TM m m), SV, T0. assert (Q2R s * r <= 0)%R. { rewrite <- (Rmult_0_l r). apply Rmult_le_compat_r; lra. } set (y := (Q2R s * r)%R) in *. clearbody y.
    split.
    + intros [A B]. destruct (Rlt_le_dec (Q2R m) y) as [|A']; [auto|]. exfalso. assert ((- Q2R m) * (- Q2R m) <= (- y) * (- y))%R by (apply Rmult_le_compat; lra). lra.
    + intros A. split; [lra|]. assert ((- y) * (- y) < (- Q2R m) * (- Q2R m))%R; [|lra]. apply Rle_lt_trans with ((- y) * (- Q2R m))%R; [apply Rmult_le_compat_l; lra|]. apply Rmult_lt_compat_r; lra.
Qed.
