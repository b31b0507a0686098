(** C64: removing Stokes parameters. *)
From Coq Require Import List Bool Arith QArith Qcanon Lia.
From Verif Require Import QcUtil AverageModel AdderModel InfoModel StokesModel StokesSpec.
Import ListNotations.
Open Scope nat_scope.

Lemma cplx_eq a b : re a = re b -> im a = im b -> a = b.
Proof. destruct a, b. cbn. intros -> ->. reflexivity. Qed.

(** One sample with whatever is before and behind it *)
Definition one (s : settings) (j : jones) : jones :=
  let '(a, b, c, d) := j in
  let '(a, d) := if modify_i s then let n := cscale half (csub a d) in (n, cneg n) else (a, d) in
  let '(a, d) := if modify_q s then let n := cscale half (cadd a d) in (n, n) else (a, d) in
  let '(b, c) := if modify_u s then let n := cscale half (csub b c) in (n, cneg n) else (b, c) in
  let '(b, c) := if modify_v s then let n := cscale half (cadd b c) in (n, n) else (b, c) in
  (a, b, c, d).
Lemma half_val : this half = (1 # 2)%Q.
Proof. reflexivity. Qed.
Lemma one_removed s j : removed (modify_i s) (modify_q s) (modify_u s) (modify_v s) j (one s j).
Proof.
  assert (HH : (half + half = 1)%Qc) by (apply qc_eq; reflexivity).
  assert (H2 : forall x : Qc, (x * half + x * half = x)%Qc).
  { intros x. rewrite <- Qcmult_plus_distr_r, HH. apply Qcmult_1_r. }
  destruct j as [[[a b] c] d]. destruct s as [i q u v]. unfold one, removed; cbn [modify_i modify_q modify_u modify_v].
  assert (E0 : forall x y : Qc, ((x - y) * half + - ((x - y) * half) = 0)%Qc) by (intros; ring).
  assert (E1 : forall x y : Qc, ((x - y) * half - - ((x - y) * half) = x - y)%Qc).
  { intros x y. transitivity ((x - y) * half + (x - y) * half)%Qc; [ring|apply H2]. }
  assert (E2 : forall x y : Qc, ((x + y) * half - (x + y) * half = 0)%Qc) by (intros; ring).
  assert (E3 : forall x y : Qc, ((x + y) * half + (x + y) * half = x + y)%Qc) by (intros; apply H2).
  assert (E4 : forall x : Qc, (x + - x = 0)%Qc) by (intros; ring).
  assert (E5 : forall x : Qc, (0 * x = 0)%Qc) by (intros; ring).
  destruct i, q, u, v; cbn; repeat split; apply cplx_eq; cbn;
    rewrite ?E4, ?E5, ?E0, ?E1, ?E2, ?E3; rewrite ?E4, ?E5; try reflexivity; try ring.
Qed.

Lemma nth_pre (p l : list cplx) k : nth_error (p ++ l) (length p + k) = nth_error l k.
Proof. rewrite nth_error_app2 by lia. f_equal. lia. Qed.
Lemma set_nth_pre (p l : list cplx) k x : set_nth (p ++ l) (length p + k) x = p ++ set_nth l k x.
Proof. induction p as [|a p IH]; [reflexivity|]. cbn. now rewrite IH. Qed.

Lemma pass_one s p j q : pass s (length p) (p ++ flat [j] ++ q) = Ok (p ++ flat [one s j] ++ q).
Proof.
  assert (C : forall f g p (a b c d : cplx) q, change f g 0 3 (length p) (p ++ [a; b; c; d] ++ q) =
            Ok (p ++ [cscale half (f a d); b; c; g (cscale half (f a d))] ++ q)).
  { intros. unfold change. rewrite !nth_pre. cbn [nth_error app]. rewrite !set_nth_pre. reflexivity. }
  assert (D : forall f g p (a b c d : cplx) q, change f g 1 2 (length p) (p ++ [a; b; c; d] ++ q) =
            Ok (p ++ [a; cscale half (f b c); g (cscale half (f b c)); d] ++ q)).
  { intros. unfold change. rewrite !nth_pre. cbn [nth_error app]. rewrite !set_nth_pre. reflexivity. }
  destruct j as [[[a b] c] d]. destruct s as [mi mq mu mv]. unfold pass, one. cbn [modify_i modify_q modify_u modify_v].
  cbn [flat flat_map]. rewrite !app_nil_r. unfold make_i_zero, make_q_zero, make_u_zero, make_v_zero.
  destruct mi; [rewrite C|]; (destruct mq; cbn [next]; [rewrite C|]); (destruct mu; cbn [next]; [rewrite D|]);
    (destruct mv; cbn [next]; [rewrite D|]); reflexivity.
Qed.
Lemma loop_all s : forall l n p q, 4 * length l <= n -> q = [] ->
  loop n s (length p) (p ++ flat l ++ q) = Ok (p ++ flat (map (one s) l) ++ q).
Proof.
  intros l n p q Hn ->. revert n p Hn. induction l as [|j l IH]; intros n p Hn.
  - destruct n; cbn [loop flat flat_map map app]; [reflexivity|].
    rewrite app_nil_r. rewrite Nat.ltb_irrefl. reflexivity.
  - destruct n as [|n]; [cbn in Hn; lia|]. cbn [loop].
    assert (F : flat (j :: l) = flat [j] ++ flat l) by (cbn [flat flat_map]; now rewrite app_nil_r).
    assert (L1 : length (flat [j]) = 4) by (destruct j as [[[a b] c] d]; reflexivity).
    assert (L2 : length (flat [one s j]) = 4) by (destruct (one s j) as [[[a b] c] d]; reflexivity).
    replace (length p <? length (p ++ flat (j :: l) ++ [])) with true.
    2:{ symmetry. apply Nat.ltb_lt. rewrite F, !app_length, L1. lia. }
    rewrite F, <- app_assoc, pass_one. cbn [next].
    replace (length p + 4) with (length (p ++ flat [one s j])) by (rewrite app_length, L2; lia).
    rewrite (app_assoc p). rewrite IH by (cbn in Hn; lia). cbn [map].
    replace (flat (one s j :: map (one s) l)) with (flat [one s j] ++ flat (map (one s) l)) by (cbn [flat flat_map]; now rewrite app_nil_r).
    now rewrite <- !app_assoc.
Qed.

(** * C64 *)
(** With four correlations, for any number of samples and every choice: each sample keeps its place, the chosen Stokes parameters become zero and
    the others stay what they were. *)
Theorem C64_removed s l : exists l', process s (flat l) = Ok (flat l') /\
  Forall2 (removed (modify_i s) (modify_q s) (modify_u s) (modify_v s)) l l'.
Proof.
  exists (map (one s) l). split.
  - unfold process. assert (L : length (flat l) = 4 * length l).
    { induction l as [|[[[a b] c] d] l IH]; [reflexivity|]. change (length (flat ((a, b, c, d) :: l))) with (4 + length (flat l)). rewrite IH. cbn [length]. lia. }
    rewrite <- (app_nil_r (flat l)) at 2. change (flat l ++ []) with ([] ++ flat l ++ []).
    rewrite (loop_all s l _ []) by (rewrite ?L; auto with arith). cbn [app]. now rewrite app_nil_r.
  - induction l as [|j l IH]; constructor; [apply one_removed|exact IH].
Qed.
Print Assumptions C64_removed.
(** A real number.  Not in the code. *)
Definition r (n : nat) : cplx := {| re := qn n; im := 0%Qc |}.
Example C64_removed_case :
  match process {| modify_i := false; modify_q := true; modify_u := false; modify_v := true |} (flat [(r 1, r 2, r 4, r 3); (r 8, r 0, r 2, r 4)])
  with Ok v => map (fun c => this (re c)) v | _ => [] end = [2; 3; 3; 2; 6; 1; 1; 6]%Q.
Proof. vm_compute. reflexivity. Qed.

(** Other numbers of correlations are not refused.  With two correlations, xx of one channel is combined with yy of the next: neither has its
    I unchanged, *)
Theorem C64_two_refuted : exists s l l', modify_i s = false /\ modify_q s = true /\
  process s (flat2 l) = Ok (flat2 l') /\ ~ Forall2 (fun '(a, b) '(a', b') => plus a' b' = plus a b) l l'.
Proof.
  exists {| modify_i := false; modify_q := true; modify_u := false; modify_v := false |}, [(r 1, r 3); (r 5, r 7)].
  exists [(cscale half (cadd (r 1) (r 7)), r 3); (r 5, cscale half (cadd (r 1) (r 7)))].
  split; [reflexivity|]. split; [reflexivity|]. split; [reflexivity|].
  intros H. inversion H as [|? ? ? ? H1 _]. apply (f_equal re) in H1. cbn in H1. vm_compute in H1. discriminate H1.
Qed.
Print Assumptions C64_two_refuted.
(** and with an odd number of samples the visibility behind the last one is read and written. *)
Theorem C64_outside_refuted : exists s l, process s (flat2 l) = Undefined.
Proof.
  exists {| modify_i := false; modify_q := true; modify_u := false; modify_v := false |}, [(r 1, r 3)]. reflexivity.
Qed.
Print Assumptions C64_outside_refuted.
