From Coq Require Import List Bool Arith Lia QArith Qcanon.
From Coq Require Import ZifyBool ZifyNat.
From Verif Require Import QcUtil AverageModel SolveDataModel GainModel ResampleModel ResampleSpec.
Import ListNotations.
Open Scope nat_scope.

Lemma collect_from_ok {X} (P : nat -> X -> Prop) f : forall n i, (forall k, i <= k < i + n -> exists x, f k = Ok x /\ P k x) ->
  exists l, collect_from f n i = Ok l /\ length l = n /\ forall k, k < n -> exists x, nth_error l k = Some x /\ P (i + k) x.
Proof.
  induction n as [|n IH]; intros i H.
  - exists []. repeat split. intros k Hk. lia.
  - destruct (H i) as (x & E & Px); [lia|]. destruct (IH (S i)) as (l & El & Ll & Hl).
    { intros k Hk. apply H. lia. }
    exists (x :: l). cbn. rewrite E. cbn. rewrite El. cbn. repeat split; [now rewrite Ll|]. intros [|k] Hk.
    + exists x. split; [reflexivity|]. now rewrite Nat.add_0_r.
    + destruct (Hl k) as (y & Ey & Py); [lia|]. exists y. split; [exact Ey|]. now replace (i + S k) with (S i + k) by lia.
Qed.
Lemma collect_ok {X} (P : nat -> X -> Prop) f n : (forall k, k < n -> exists x, f k = Ok x /\ P k x) ->
  exists l, collect f n = Ok l /\ length l = n /\ forall k, k < n -> exists x, nth_error l k = Some x /\ P k x.
Proof. intros H. apply (collect_from_ok P f n 0). intros k Hk. apply H. lia. Qed.

Lemma concat_get {X} (m : nat) : forall (l : list (list X)) i x p, Forall (fun y => length y = m) l -> nth_error l i = Some x -> p < m ->
  nth_error (concat l) (i * m + p) = nth_error x p.
Proof.
  induction l as [|y l IH]; intros i x p F E Hp; [now destruct i|]. inversion F as [|? ? F1 F2]; subst. destruct i as [|i]; cbn [concat].
  - cbn in E. injection E as ->. rewrite nth_error_app1; [reflexivity|lia].
  - cbn in E. rewrite nth_error_app2 by lia. replace (S i * length y + p - length y) with (i * length y + p) by lia. now apply IH.
Qed.
Lemma concat_length {X} (m : nat) (l : list (list X)) : Forall (fun y => length y = m) l -> length (concat l) = length l * m.
Proof. induction 1 as [|y l E F IH]; [reflexivity|]. cbn. rewrite app_length. lia. Qed.
Lemma forall_get {X} (P : X -> Prop) (l : list X) : (forall k, k < length l -> exists x, nth_error l k = Some x /\ P x) -> Forall P l.
Proof.
  intros H. apply Forall_forall. intros x I. apply In_nth_error in I as [k E].
  destruct (H k) as (y & E' & Py); [apply nth_error_Some; congruence|]. congruence.
Qed.

(** * Numbers *)
Lemma list_max_in l : l <> [] -> In (list_max l) l.
Proof.
  induction l as [|x l IH]; [easy|]. intros _. destruct l as [|y l]; [cbn; left; lia|].
  change (list_max (x :: y :: l)) with (Nat.max x (list_max (y :: l))). destruct (Nat.max_spec x (list_max (y :: l))) as [[_ E]|[_ E]]; rewrite E.
  - right. apply IH. easy.
  - now left.
Qed.
Lemma existsb_mod l m : existsb (fun n => negb (m mod n =? 0)) l = false -> forall n, In n l -> m mod n = 0.
Proof.
  intros E n I. destruct (Nat.eqb_spec (m mod n) 0) as [|N]; [assumption|]. exfalso.
  assert (T : existsb (fun n => negb (m mod n =? 0)) l = true); [|congruence].
  apply existsb_exists. exists n. split; [assumption|]. apply negb_true_iff. now apply Nat.eqb_neq.
Qed.
Lemma existsb_zero l : existsb (fun n => n =? 0) l = false -> forall n, In n l -> 0 < n.
Proof.
  intros E n I. destruct (Nat.eqb_spec n 0) as [->|N]; [|lia]. exfalso.
  assert (T : existsb (fun n => n =? 0) l = true); [|congruence]. apply existsb_exists. now exists 0.
Qed.
Lemma no_zero l : (forall n, In n l -> 0 < n) -> existsb (fun n => n =? 0) l = false.
Proof.
  intros H. destruct (existsb _ l) eqn:E; [|reflexivity]. apply existsb_exists in E as (n & I & Z). apply H in I. apply Nat.eqb_eq in Z. lia.
Qed.

(** What [n_substeps] gives *)
Lemma n_substeps_ok sub si : sub <> [] -> (forall n, In n sub -> 0 < n /\ Nat.divide n si) -> 0 < si ->
  exists s, n_substeps sub si = Ok s /\ 0 < s /\ Nat.divide s si /\ forall n, In n sub -> Nat.divide n s.
Proof.
  intros N H P. unfold n_substeps. destruct sub as [|x q] eqn:Q; [easy|]. rewrite <- Q in *. clear Q x q.
  replace (length sub =? 0) with false; [|symmetry; apply Nat.eqb_neq; now destruct sub].
  rewrite no_zero by (intros n I; now apply H). destruct (existsb _ sub) eqn:E.
  - exists si. repeat split; [assumption|apply Nat.divide_refl|intros n I; now apply H].
  - exists (list_max sub). pose proof (list_max_in sub N) as I. repeat split; [now apply H|now apply H|].
    intros n J. apply Nat.mod_divide; [apply H in J; lia|]. now apply (existsb_mod sub).
Qed.

(** The substep that a slot is in has the same part as the slot *)
Lemma same_part n s r o : 0 < n -> 0 < r -> Nat.divide n s -> o < s * r -> 0 < s ->
  o / r / (s / n) = o * n / (s * r) /\ o / r * n / s = o * n / (s * r) /\ o * n / (s * r) < n.
Proof.
  intros Hn Hr [q ->] Ho Hs. assert (Hq : 0 < q) by (destruct q; lia). rewrite Nat.div_mul by lia.
  assert (E : o * n / (q * n * r) = o / (q * r)).
  { replace (q * n * r) with (q * r * n) by lia. rewrite Nat.div_mul_cancel_r by lia. reflexivity. }
  rewrite E. split; [|split].
  - rewrite Nat.div_div by lia. now rewrite (Nat.mul_comm r q).
  - rewrite Nat.div_mul_cancel_r by lia. rewrite Nat.div_div by lia. now rewrite (Nat.mul_comm r q).
  - apply Nat.div_lt_upper_bound; [lia|]. lia.
Qed.
Lemma in_part_iff size n o j : 0 < size -> in_part size n o j <-> j = o * n / size.
Proof.
  intros H. unfold in_part. split.
  - intros [A B]. apply (Nat.div_unique (o * n) size j (o * n - j * size)); lia.
  - intros ->. pose proof (Nat.div_mod (o * n) size ltac:(lia)) as E. pose proof (Nat.mod_upper_bound (o * n) size ltac:(lia)). lia.
Qed.

Lemma sum_firstn_S l d n : nth_error l d = Some n -> list_sum (firstn (S d) l) = list_sum (firstn d l) + n.
Proof.
  revert d. induction l as [|x l IH]; intros [|d] E; try (cbn in E; easy).
  - cbn in E. injection E as ->. cbn. lia.
  - cbn [nth_error] in E. apply IH in E. change (x + list_sum (firstn (S d) l) = x + list_sum (firstn d l) + n). lia.
Qed.
Lemma sum_firstn_le l d : list_sum (firstn d l) <= list_sum l.
Proof. rewrite <- (firstn_skipn d l) at 2. rewrite list_sum_app. lia. Qed.

Section Upsample.
Context {G : Type}.
Variables (sub : list nat) (steps n_ant n_pol n_blocks : nat) (solutions : list (list (list G))).
Hypothesis (positive : forall n, In n sub -> 0 < n) (divides : forall n, In n sub -> Nat.divide n steps) (some : 0 < steps).
Hypothesis shape : Forall (fun s => length s = n_blocks /\ Forall (fun b => length b = n_ant * list_sum sub * n_pol) s) solutions.
Hypothesis nonempty : solutions <> [].

Lemma shape_get k s b cb : nth_error solutions k = Some s -> nth_error s cb = Some b -> length b = n_ant * list_sum sub * n_pol.
Proof.
  intros Es Eb. rewrite Forall_forall in shape. destruct (shape s) as [_ F]; [now apply nth_error_In in Es|].
  rewrite Forall_forall in F. apply F. now apply nth_error_In in Eb.
Qed.
Lemma upsample_ok : exists up, upsample sub steps n_ant n_pol solutions = Ok up /\ length up = length solutions * steps /\
  (Forall (fun s => length s = n_blocks /\ Forall (fun b => length b = n_ant * (length sub * n_pol)) s) up) /\
  forall w cb a d p n, w < length up -> cb < n_blocks -> a < n_ant -> nth_error sub d = Some n -> p < n_pol ->
    exists s b x s' b', nth_error up w = Some s /\ nth_error s cb = Some b /\ nth_error b (at3 (length sub) n_pol a d p) = Some x /\
      nth_error solutions (w / steps) = Some s' /\ nth_error s' cb = Some b' /\
      nth_error b' (at3 (list_sum sub) n_pol a (list_sum (firstn d sub) + w mod steps / (steps / n)) p) = Some x.
Proof.
  unfold upsample. destruct solutions as [|first l] eqn:Q; [easy|]. cbn [get nth_error bind]. rewrite <- Q in *.
  assert (L : length first = n_blocks). { subst. inversion shape. tauto. }
  rewrite L. clear Q L first l.
  pose (Vp := fun w cb a d p (x : G) => exists n s' b', nth_error sub d = Some n /\
      nth_error solutions (w / steps) = Some s' /\ nth_error s' cb = Some b' /\
      nth_error b' (at3 (list_sum sub) n_pol a (list_sum (firstn d sub) + w mod steps / (steps / n)) p) = Some x).
  pose (Vd := fun w cb a d (l : list G) => length l = n_pol /\ forall p, p < n_pol -> exists x, nth_error l p = Some x /\ Vp w cb a d p x).
  pose (Va := fun w cb a (l : list G) => length l = length sub * n_pol /\ forall d p, d < length sub -> p < n_pol -> exists x, nth_error l (d * n_pol + p) = Some x /\ Vp w cb a d p x).
  pose (Vb := fun w cb (l : list G) => length l = n_ant * (length sub * n_pol) /\ forall a d p, a < n_ant -> d < length sub -> p < n_pol ->
      exists x, nth_error l (a * (length sub * n_pol) + (d * n_pol + p)) = Some x /\ Vp w cb a d p x).
  destruct (collect_ok (fun w s => length s = n_blocks /\ forall cb, cb < n_blocks -> exists b, nth_error s cb = Some b /\ Vb w cb b)
    (fun time =>
    collect (fun block =>
      let! l := collect (fun antenna =>
        let! l := collect (fun direction =>
          collect (fun pol =>
            let! o := map_resampled sub steps time antenna direction pol n_pol in
            let! s := get solutions (fst o) in let! s := get s block in get s (snd o)) n_pol) (length sub) in
        Ok (concat l)) n_ant in
      Ok (concat l)) n_blocks) (length solutions * steps)) as (up & Eu & Lu & Hu).
  { intros w Hw.
    assert (Hk : w / steps < length solutions) by (apply Nat.div_lt_upper_bound; lia).
    destruct (nth_error solutions (w / steps)) as [s|] eqn:Es; [|apply nth_error_None in Es; lia].
    assert (Ls : length s = n_blocks). { rewrite Forall_forall in shape. apply shape. now apply nth_error_In in Es. }
    apply (collect_ok (Vb w)). intros cb Hcb.
    destruct (nth_error s cb) as [b|] eqn:Eb; [|apply nth_error_None in Eb; lia].
    pose proof (shape_get _ _ _ _ Es Eb) as Lb.
    match goal with |- context [bind (collect ?f n_ant) _] => destruct (collect_ok (Va w cb) f n_ant) as (la & Ea & Lla & Hla) end.
    { intros a Ha.
      match goal with |- context [bind (collect ?f (length sub)) _] => destruct (collect_ok (Vd w cb a) f (length sub)) as (ld & Ed & Lld & Hld) end.
      { intros d Hd. destruct (nth_error sub d) as [n|] eqn:En; [|apply nth_error_None in En; lia].
        pose proof (nth_error_In _ _ En) as In. pose proof (positive n In) as Pn. destruct (divides n In) as [q Eq].
        assert (Hq : 0 < q) by (destruct q; lia).
        assert (Esn : steps / n = q) by (rewrite Eq; now apply Nat.div_mul; lia).
        apply (collect_ok (Vp w cb a d)). intros p Hp. unfold map_resampled.
        replace (steps =? 0) with false by (symmetry; apply Nat.eqb_neq; lia). unfold get at 1. rewrite En. cbn [bind].
        replace (n =? 0) with false by (symmetry; apply Nat.eqb_neq; lia).
        replace (steps / n =? 0) with false by (symmetry; apply Nat.eqb_neq; lia). cbn [orb bind fst snd].
        unfold get. rewrite Es. cbn [bind]. rewrite Eb. cbn [bind].
        assert (B : a * list_sum sub * n_pol + (list_sum (firstn d sub) + w mod steps / (steps / n)) * n_pol + p =
                    at3 (list_sum sub) n_pol a (list_sum (firstn d sub) + w mod steps / (steps / n)) p) by (unfold at3; lia).
        rewrite B.
        assert (Sm : list_sum (firstn d sub) + w mod steps / (steps / n) < list_sum sub).
        { pose proof (sum_firstn_le sub (S d)) as M. rewrite (sum_firstn_S _ _ _ En) in M.
          assert (w mod steps / (steps / n) < n); [|lia]. rewrite Esn. apply Nat.div_lt_upper_bound; [lia|]. rewrite <- Eq. apply Nat.mod_upper_bound. lia. }
        assert (Lt : at3 (list_sum sub) n_pol a (list_sum (firstn d sub) + w mod steps / (steps / n)) p < length b).
        { rewrite Lb. unfold at3. set (s0 := list_sum (firstn d sub) + w mod steps / (steps / n)) in *. clearbody s0.
          assert (a * list_sum sub + s0 < n_ant * list_sum sub) by (clear - Ha Sm; nia). clear - H Hp. nia. }
        destruct (nth_error b _) as [x|] eqn:Ex; [|apply nth_error_None in Ex; lia].
        exists x. split; [reflexivity|]. exists n, s, b. repeat split; assumption. }
      rewrite Ed. cbn [bind].
      assert (F : Forall (fun y : list G => length y = n_pol) ld).
      { apply forall_get. intros k0 Hk0. destruct (Hld k0) as (y & Ey & Ly & _); [lia|]. now exists y. }
      exists (concat ld). split; [reflexivity|]. split; [rewrite (concat_length n_pol) by assumption; lia|].
      intros d p Hd Hp. destruct (Hld d Hd) as (y & Ey & Ly & Hy). destruct (Hy p Hp) as (x & Ex & Px). exists x. split; [|assumption].
      now rewrite (concat_get n_pol ld d y p). }
    rewrite Ea. cbn [bind].
    assert (F : Forall (fun y : list G => length y = length sub * n_pol) la).
    { apply forall_get. intros k0 Hk0. destruct (Hla k0) as (y & Ey & Ly & _); [lia|]. now exists y. }
    exists (concat la). split; [reflexivity|]. split; [rewrite (concat_length (length sub * n_pol)) by assumption; lia|].
    intros a d p Ha Hd Hp. destruct (Hla a Ha) as (y & Ey & Ly & Hy). destruct (Hy d p Hd Hp) as (x & Ex & Px). exists x. split; [|assumption].
    rewrite (concat_get (length sub * n_pol) la a y); try assumption. clear - Hd Hp. nia. }
  exists up. split; [exact Eu|]. split; [exact Lu|]. split.
  - apply forall_get. intros k Hk. destruct (Hu k) as (s & Es & Ls & Hs); [lia|]. exists s. split; [assumption|]. split; [assumption|].
    apply forall_get. intros cb Hcb. destruct (Hs cb) as (b & Eb & Lb & _); [lia|]. now exists b.
  - intros w cb a d p n Hw Hcb Ha En Hp. destruct (Hu w) as (s & Es & Ls & Hs); [lia|]. destruct (Hs cb Hcb) as (b & Eb & Lb & Hb).
    assert (Hd : d < length sub) by (apply nth_error_Some; congruence).
    destruct (Hb a d p Ha Hd Hp) as (x & Ex & n' & s' & b' & En' & Es' & Eb' & Ex'). assert (n' = n) by congruence. subst n'.
    exists s, b, x, s', b'. repeat split; try assumption.
    unfold at3. rewrite <- Ex. f_equal. lia.
Qed.
End Upsample.
