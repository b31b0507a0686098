From Coq Require Import List Bool Arith ZArith Ascii String Lia.
From Verif Require Import StrModel StrProofs NumParseModel NumParseSpec.
Import ListNotations.
Open Scope nat_scope.

Lemma blank_spaces s : blank s <-> spaces s.
Proof.
  unfold blank, spaces. rewrite !Forall_forall. split; intros H c Hc; specialize (H c Hc).
  - cbn in H. repeat destruct H as [<-|H]; try destruct H; reflexivity.
  - destruct c as [[] [] [] [] [] [] [] []]; vm_compute in H; try discriminate; cbn; auto 10.
Qed.

Lemma digit_value_iff hex c : forall z, digit_value hex c = Some z <-> exists d, z = Z.of_nat d /\ (if hex then hex_digit c d else dec_digit c d).
Proof.
  intros z. split.
  - intros H. assert (Hz : (0 <= z < 16)%Z).
    { unfold digit_value, isdigit in H. destruct hex, c as [[] [] [] [] [] [] [] []]; vm_compute in H; try discriminate; injection H as <-; lia. }
    exists (Z.to_nat z). split; [lia|].
    destruct hex, c as [[] [] [] [] [] [] [] []]; vm_compute in H; try discriminate; injection H as <-; cbn; unfold hex_digit, dec_digit; cbn; auto.
  - intros (d & -> & H).
    destruct hex.
    + destruct H as [H|H]; do 16 (destruct d as [|d]; [injection H as <-; reflexivity|]); destruct d; discriminate.
    + unfold dec_digit in H. do 10 (destruct d as [|d]; [injection H as <-; reflexivity|]). cbn in H. destruct d; discriminate.
Qed.

Section Digits.
Variable hex : bool.
Definition base_of : Z := if hex then 16 else 10.
Definition digit_of : ascii -> nat -> Prop := if hex then hex_digit else dec_digit.

Lemma dv_iff c z : digit_value hex c = Some z <-> exists d, z = Z.of_nat d /\ digit_of c d.
Proof. rewrite digit_value_iff. unfold digit_of. destruct hex; reflexivity. Qed.

Lemma digit_loop_spec : forall s acc n v m, digit_loop hex acc n s = (v, m) ->
  exists k w, k <= List.length s /\ m = n + k /\ positional base_of digit_of (firstn k s) w /\ v = (acc * base_of ^ Z.of_nat k + w)%Z.
Proof.
  induction s as [|c s IH]; intros acc n v m H; cbn [digit_loop] in H.
  - injection H as <- <-. exists 0, 0%Z. split; [auto|]. split; [lia|]. split; [constructor|]. cbn [Z.of_nat]. rewrite Z.pow_0_r. ring.
  - destruct (digit_value hex c) as [d|] eqn:E.
    + apply IH in H as (k & w & Hk & -> & Hp & ->). apply dv_iff in E as (e & -> & He).
      exists (S k), (Z.of_nat e * base_of ^ Z.of_nat k + w)%Z. split; [cbn; lia|]. split; [lia|]. split.
      * cbn [firstn]. assert (Hl : List.length (firstn k s) = k) by (rewrite firstn_length; lia).
        pose proof (pos_cons base_of digit_of c e (firstn k s) w He Hp) as Hx. rewrite Hl in Hx. exact Hx.
      * fold base_of. rewrite Nat2Z.inj_succ, Z.pow_succ_r by lia. ring.
    + injection H as <- <-. exists 0, 0%Z. split; [cbn; lia|]. split; [lia|]. split; [constructor|]. cbn [Z.of_nat]. rewrite Z.pow_0_r. ring.
Qed.

Lemma digit_loop_all : forall s w, positional base_of digit_of s w -> forall acc n,
  digit_loop hex acc n s = ((acc * base_of ^ Z.of_nat (List.length s) + w)%Z, n + List.length s).
Proof.
  induction 1 as [|c d r v Hd _ IH]; intros acc n; cbn [digit_loop List.length].
  - f_equal; [cbn [Z.of_nat]; rewrite Z.pow_0_r; ring|lia].
  - assert (E : digit_value hex c = Some (Z.of_nat d)) by (apply dv_iff; eauto). rewrite E, IH. fold base_of.
    f_equal; [|lia]. rewrite Nat2Z.inj_succ, Z.pow_succ_r by lia. ring.
Qed.

Lemma digit_not_space c d : digit_of c d -> isspace c = false.
Proof.
  intros H. assert (E : digit_value hex c = Some (Z.of_nat d)) by (apply dv_iff; eauto).
  destruct hex, c as [[] [] [] [] [] [] [] []]; vm_compute in E; try discriminate; reflexivity.
Qed.

Lemma digit_loop_space : forall l b acc n, spaces b -> digit_loop hex acc n (l ++ b) = digit_loop hex acc n l.
Proof.
  induction l as [|c l IH]; intros b acc n Hb.
  - destruct b as [|x b]; [reflexivity|]. cbn [app digit_loop]. apply Forall_cons_iff in Hb as [Hx _].
    destruct (digit_value hex x) as [d|] eqn:E; [|reflexivity]. apply dv_iff in E as (d' & _ & Hd). apply digit_not_space in Hd. congruence.
  - cbn [app digit_loop]. destruct (digit_value hex c); auto.
Qed.

Lemma positional_last s w : positional base_of digit_of s w -> s <> [] ->
  isspace (at_ s 0) = false /\ isspace (at_ s (List.length s - 1)) = false.
Proof.
  intros H Hn. assert (G : forall i, i < List.length s -> isspace (at_ s i) = false).
  { clear Hn. induction H as [|c d r v Hd _ IH]; intros i Hi; [cbn in Hi; lia|]. destruct i; [exact (digit_not_space _ _ Hd)|]. apply IH. cbn in Hi. lia. }
  assert (0 < List.length s) by (destruct s; [congruence|cbn; lia]). split; apply G; lia.
Qed.
End Digits.

Lemma strto10_space l b : l <> [] -> spaces b -> strto10 (l ++ b) = strto10 l.
Proof.
  intros Hl Hb. destruct l as [|c l]; [congruence|]. cbn [app strto10]. rewrite !digit_loop_space by exact Hb.
  change (c :: l ++ b) with ((c :: l) ++ b). rewrite digit_loop_space by exact Hb. reflexivity.
Qed.

Lemma strto10_denotes l v : strto10 l = (v, List.length l) -> l <> [] -> denotes l v.
Proof.
  intros H Hl. destruct l as [|c l]; [congruence|]. cbn [strto10 List.length] in H.
  destruct (Ascii.eqb_spec c "-") as [->|H1].
  - destruct (digit_loop false 0 0 l) as [w n] eqn:E. destruct (Nat.eqb_spec n 0) as [->|Hn]; [discriminate|].
    injection H as <- Hn'. apply digit_loop_spec in E as (k & x & Hk & -> & Hp & ->). replace k with (List.length l) in Hp by lia. rewrite firstn_all in Hp.
    replace (0 * base_of false ^ Z.of_nat k + x)%Z with x by ring. apply den_minus; [|exact Hp]. intros ->. cbn in *. lia.
  - destruct (Ascii.eqb_spec c "+") as [->|H2].
    + destruct (digit_loop false 0 0 l) as [w n] eqn:E. destruct (Nat.eqb_spec n 0) as [->|Hn]; [discriminate|].
      injection H as <- Hn'. apply digit_loop_spec in E as (k & x & Hk & -> & Hp & ->). replace k with (List.length l) in Hp by lia. rewrite firstn_all in Hp.
      replace (0 * base_of false ^ Z.of_nat k + x)%Z with x by ring. apply den_plus; [|exact Hp]. intros ->. cbn in *. lia.
    + apply digit_loop_spec in H as (k & x & Hk & Ek & Hp & ->). replace k with (S (List.length l)) in Hp by lia.
      change (S (List.length l)) with (List.length (c :: l)) in Hp. rewrite firstn_all in Hp.
      replace (0 * base_of false ^ Z.of_nat k + x)%Z with x by ring. now apply den_dec.
Qed.

Lemma dec_not_sign c d : dec_digit c d -> Ascii.eqb c "-" = false /\ Ascii.eqb c "+" = false /\ Ascii.eqb c "x" = false /\ Ascii.eqb c "X" = false.
Proof.
  intros H. unfold dec_digit in H. do 10 (destruct d as [|d]; [injection H as <-; repeat split|]). cbn in H. destruct d; discriminate.
Qed.

Definition is_0x (l : list ascii) : bool :=
  (2 <? List.length l) && Ascii.eqb (at_ l 0) "0" && (Ascii.eqb (at_ l 1) "x" || Ascii.eqb (at_ l 1) "X").
Definition parse_core (l : list ascii) : Z * nat := if is_0x l then strto_hex l else strto10 l.

Lemma parse_core_denotes l v : parse_core l = (v, List.length l) -> l <> [] -> denotes l v.
Proof.
  unfold parse_core, is_0x. destruct (Nat.ltb_spec 2 (List.length l)); cbn [andb]; [|apply strto10_denotes].
  destruct (Ascii.eqb_spec (at_ l 0) "0") as [E0|]; cbn [andb]; [|apply strto10_denotes].
  destruct (Ascii.eqb (at_ l 1) "x" || Ascii.eqb (at_ l 1) "X") eqn:Ex; [|apply strto10_denotes].
  destruct l as [|c0 [|c1 l]]; cbn [List.length] in *; try lia. unfold at_ in E0, Ex. cbn [nth] in E0, Ex. subst c0. intros Hv _.
  unfold strto_hex in Hv. cbn [skipn] in Hv. destruct (digit_loop true 0 0 l) as [w n] eqn:E. destruct (Nat.eqb_spec n 0) as [->|Hn]; [discriminate|].
  injection Hv as <- Hn'. apply digit_loop_spec in E as (k & x & Hk & -> & Hp & ->). replace k with (List.length l) in Hp by lia. rewrite firstn_all in Hp.
  replace (0 * base_of true ^ Z.of_nat k + x)%Z with x by ring. apply den_hex; [|intros ->; cbn in *; lia|exact Hp].
  apply orb_true_iff in Ex as [Ex|Ex]; apply Ascii.eqb_eq in Ex; cbn; auto.
Qed.

Lemma denotes_parse_core l v : denotes l v -> parse_core l = (v, List.length l) /\ solid l.
Proof.
  intros H. destruct H as [s z Hn Hp|s z Hn Hp|s z Hn Hp|x s z Hx Hn Hp].
  - assert (Hs := positional_last false s z Hp Hn). split; [|split; [exact Hn|exact Hs]].
    assert (E : is_0x s = false).
    { unfold is_0x. destruct s as [|c0 [|c1 s]]; auto. inversion Hp as [|c d r v Hd Hp']; subst. inversion Hp' as [|c' d' r' v' Hd' Hp'']; subst.
      destruct (dec_not_sign _ _ Hd') as (_ & _ & E1 & E2). unfold at_. cbn [nth]. rewrite E1, E2. cbn [orb]. apply andb_false_r. }
    unfold parse_core. rewrite E. destruct s as [|c s]; [congruence|]. cbn [strto10]. inversion Hp as [|c' d r v Hd Hp']; subst.
    destruct (dec_not_sign _ _ Hd) as (E1 & E2 & _). rewrite E1, E2. rewrite (digit_loop_all false _ _ Hp). reflexivity.
  - assert (Hs := positional_last false s z Hp Hn). split.
    + unfold parse_core. assert (is_0x ("+"%char :: s) = false) as -> by (unfold is_0x; cbn; now rewrite andb_false_r).
      cbn [strto10]. cbn [Ascii.eqb Bool.eqb]. rewrite (digit_loop_all false _ _ Hp). cbn [Nat.add].
      destruct (Nat.eqb_spec (List.length s) 0) as [E|]; [destruct s; [congruence|cbn in E; lia]|]. cbn [List.length]. reflexivity.
    + split; [discriminate|]. split; [reflexivity|]. destruct Hs as [_ Hs]. cbn [List.length]. replace (S (List.length s) - 1) with (S (List.length s - 1)); [exact Hs|].
      destruct s; [congruence|cbn; lia].
  - assert (Hs := positional_last false s z Hp Hn). split.
    + unfold parse_core. assert (is_0x ("-"%char :: s) = false) as -> by (unfold is_0x; cbn; now rewrite andb_false_r).
      cbn [strto10]. cbn [Ascii.eqb Bool.eqb]. rewrite (digit_loop_all false _ _ Hp). cbn [Nat.add].
      destruct (Nat.eqb_spec (List.length s) 0) as [E|]; [destruct s; [congruence|cbn in E; lia]|]. cbn [List.length]. reflexivity.
    + split; [discriminate|]. split; [reflexivity|]. destruct Hs as [_ Hs]. cbn [List.length]. replace (S (List.length s) - 1) with (S (List.length s - 1)); [exact Hs|].
      destruct s; [congruence|cbn; lia].
  - assert (Hs := positional_last true s z Hp Hn). assert (0 < List.length s) by (destruct s; [congruence|cbn; lia]). split.
    + unfold parse_core. assert (is_0x ("0"%char :: x :: s) = true) as ->.
      { unfold is_0x. cbn [List.length]. destruct (Nat.ltb_spec 2 (S (S (List.length s)))); [|lia]. cbn [andb at_ nth]. destruct Hx as [<-|[<-|[]]]; reflexivity. }
      unfold strto_hex. cbn [skipn]. rewrite (digit_loop_all true _ _ Hp). cbn [Nat.add].
      destruct (Nat.eqb_spec (List.length s) 0) as [E|]; [lia|]. cbn [List.length]. reflexivity.
    + split; [discriminate|]. split; [reflexivity|]. destruct Hs as [_ Hs]. cbn [List.length]. replace (S (S (List.length s)) - 1) with (S (S (List.length s - 1))) by lia. exact Hs.
Qed.

(** What the functions compute on a trimmed text. *)
Lemma core_positions a t b : spaces a -> spaces b -> solid t ->
  let s := a ++ t ++ b in
  let st := lskipws s 0 (List.length s) in let en := rskipws s st (List.length s) in
  st = List.length a /\ en = List.length a + List.length t /\
  (if has_0x s st en then strto_hex (skipn st s) else strto10 (skipn st s)) = parse_core t /\ at_ s st = at_ t 0.
Proof.
  intros Ha Hb Ht s st en. destruct (trim_positions a t b Ha Hb Ht) as [E1 E2]. fold s in E1, E2.
  assert (Est : st = List.length a) by exact E1. assert (Een : en = List.length a + List.length t) by (unfold en; rewrite Est; exact E2).
  split; [exact Est|]. split; [exact Een|].
  assert (Ht0 : 0 < List.length t) by (destruct Ht as [Hn _]; destruct t; [congruence|cbn; lia]).
  assert (Ek : skipn st s = t ++ b) by (rewrite Est; unfold s; rewrite skipn_app, skipn_all, Nat.sub_diag; reflexivity).
  assert (Eat : at_ s st = at_ t 0) by (rewrite Est; unfold s; replace (List.length a) with (List.length a + 0) by lia; rewrite at_app2, at_app1 by lia; reflexivity).
  split; [|exact Eat]. rewrite Ek.
  assert (E0 : has_0x s st en = is_0x t).
  { unfold has_0x, is_0x. rewrite Eat. replace (st + 2 <? en) with (2 <? List.length t) by (rewrite Est, Een; destruct (Nat.ltb_spec 2 (List.length t)), (Nat.ltb_spec (List.length a + 2) (List.length a + List.length t)); auto; lia).
    destruct (Nat.ltb_spec 2 (List.length t)); cbn [andb]; [|reflexivity]. do 2 f_equal.
    - f_equal. rewrite Est. unfold s. replace (S (List.length a)) with (List.length a + 1) by lia. rewrite at_app2, at_app1 by lia. reflexivity.
    - f_equal. rewrite Est. unfold s. replace (S (List.length a)) with (List.length a + 1) by lia. rewrite at_app2, at_app1 by lia. reflexivity. }
  rewrite E0. unfold parse_core. destruct (is_0x t) eqn:Ex.
  - unfold strto_hex. unfold is_0x in Ex. destruct t as [|c0 [|c1 t]]; [discriminate..|]. cbn [app skipn]. now rewrite digit_loop_space by exact Hb.
  - apply strto10_space; [|exact Hb]. destruct t; [cbn in Ht0; lia|congruence].
Qed.

Theorem str_to_long_iff s z : str_to_long s = Some z <->
  (blank s /\ z = 0%Z) \/ (text_denotes s z /\ (- 2 ^ 63 <= z < 2 ^ 63)%Z).
Proof.
  split.
  - intros H. destruct (space_split s) as [Hs|(a & t & b & -> & Ha & Hb & Ht)].
    + left. split; [now apply blank_spaces|]. unfold str_to_long in H. cbn zeta in H. rewrite (spaces_positions s Hs) in H. rewrite skipn_all in H.
      assert (E : rskipws s (List.length s) (List.length s) = List.length s) by (apply rskipws_unique; intros; lia). rewrite E in H.
      assert (E0 : has_0x s (List.length s) (List.length s) = false) by (unfold has_0x; destruct (Nat.ltb_spec (List.length s + 2) (List.length s)); [lia|reflexivity]).
      rewrite E0 in H. cbn [strto10] in H. rewrite Nat.add_0_r, Nat.eqb_refl in H. cbn in H. congruence.
    + right. unfold str_to_long in H. cbn zeta in H. destruct (core_positions a t b Ha Hb Ht) as (E1 & E2 & E3 & E4). cbn zeta in E3. rewrite E3 in H. clear E3.
      destruct (parse_core t) as [v n] eqn:Ep. rewrite E2, E1 in H. destruct (Nat.eqb_spec (List.length a + n) (List.length a + List.length t)) as [En|]; [|discriminate].
      cbn [negb] in H. destruct ((v <? - 2 ^ 63)%Z || (2 ^ 63 - 1 <? v)%Z) eqn:Er; [discriminate|]. injection H as <-.
      apply orb_false_iff in Er as [Er1 Er2]. apply Z.ltb_ge in Er1, Er2. split; [|lia].
      exists a, t, b. split; [reflexivity|]. split; [now apply blank_spaces|]. split; [now apply blank_spaces|].
      apply parse_core_denotes; [|apply Ht]. rewrite Ep. f_equal. lia.
  - intros [[Hs ->]|[(a & t & b & -> & Ha & Hb & Hd) Hr]].
    + apply blank_spaces in Hs. unfold str_to_long. cbn zeta. rewrite (spaces_positions s Hs). rewrite skipn_all.
      assert (E : rskipws s (List.length s) (List.length s) = List.length s) by (apply rskipws_unique; intros; lia). rewrite E.
      assert (E0 : has_0x s (List.length s) (List.length s) = false) by (unfold has_0x; destruct (Nat.ltb_spec (List.length s + 2) (List.length s)); [lia|reflexivity]).
      rewrite E0. cbn [strto10]. rewrite Nat.add_0_r, Nat.eqb_refl. reflexivity.
    + apply blank_spaces in Ha, Hb. destruct (denotes_parse_core t z Hd) as [Ep Ht]. unfold str_to_long. cbn zeta.
      destruct (core_positions a t b Ha Hb Ht) as (E1 & E2 & E3 & E4). cbn zeta in E3. rewrite E3, Ep, E2, E1, Nat.eqb_refl. cbn [negb].
      assert ((z <? - 2 ^ 63)%Z = false) as -> by (apply Z.ltb_ge; lia). assert ((2 ^ 63 - 1 <? z)%Z = false) as -> by (apply Z.ltb_ge; lia). reflexivity.
Qed.

Lemma solid_minus a t b : spaces a -> solid t -> (no_minus (a ++ t ++ b) <-> at_ t 0 <> "-"%char).
Proof.
  intros Ha (Hn & H0 & _). destruct t as [|c t]; [congruence|]. unfold at_ in *. cbn [nth] in *. unfold no_minus. split.
  - intros H ->. apply (H a (t ++ b)); [now apply blank_spaces|reflexivity].
  - intros Hc a' b' Ha' E. apply blank_spaces in Ha'. revert a' Ha' E. induction a as [|x a IH]; intros a' Ha' E.
    + destruct a' as [|y a']; cbn in E; [congruence|]. injection E as -> _. apply Forall_cons_iff in Ha' as [Hy _]. congruence.
    + apply Forall_cons_iff in Ha as [Hx Ha]. destruct a' as [|y a']; cbn in E; [injection E as -> _; discriminate|].
      injection E as -> E. apply Forall_cons_iff in Ha' as [_ Ha']. exact (IH Ha a' Ha' E).
Qed.

Lemma spaces_no_minus s : spaces s -> no_minus s.
Proof.
  intros H a b _ ->. apply Forall_app in H as [_ H]. apply Forall_cons_iff in H as [H _]. discriminate.
Qed.

Theorem str_to_ulong_iff s z : str_to_ulong s = Some z <->
  no_minus s /\ ((blank s /\ z = 0%Z) \/ (text_denotes s z /\ (z < 2 ^ 64)%Z)).
Proof.
  destruct (space_split s) as [Hs|(a & t & b & -> & Ha & Hb & Ht)].
  - assert (E : rskipws s (List.length s) (List.length s) = List.length s) by (apply rskipws_unique; intros; lia).
    assert (E0 : has_0x s (List.length s) (List.length s) = false) by (unfold has_0x; destruct (Nat.ltb_spec (List.length s + 2) (List.length s)); [lia|reflexivity]).
    assert (Eat : at_ s (List.length s) = zero) by (unfold at_; apply nth_overflow; lia).
    assert (Er : str_to_ulong s = Some 0%Z).
    { unfold str_to_ulong. cbn zeta. rewrite (spaces_positions s Hs), skipn_all, E, E0, Eat. cbn [strto10]. rewrite Nat.add_0_r, Nat.eqb_refl. reflexivity. }
    rewrite Er. split.
    + intros [= <-]. split; [now apply spaces_no_minus|]. left. split; [now apply blank_spaces|reflexivity].
    + intros [_ [[_ ->]|[(a & t & b & -> & Ha & Hb & Hd) _]]]; [reflexivity|]. exfalso.
      destruct (denotes_parse_core t z Hd) as [_ (Hn & H0 & _)]. apply Forall_app in Hs as [_ Hs]. apply Forall_app in Hs as [Hs _].
      destruct t; [congruence|]. apply Forall_cons_iff in Hs as [Hs _]. unfold at_ in H0. cbn in H0. congruence.
  - rewrite (solid_minus a t b Ha Ht). unfold str_to_ulong. cbn zeta. destruct (core_positions a t b Ha Hb Ht) as (E1 & E2 & E3 & E4). cbn zeta in E3. rewrite E3, E4. clear E3.
    destruct (Ascii.eqb_spec (at_ t 0) "-") as [Em|Hm]; [split; [discriminate|intros [H _]; contradiction]|].
    destruct (parse_core t) as [v n] eqn:Ep. rewrite E2, E1.
    assert (Nb : ~ blank (a ++ t ++ b)).
    { intros H. apply blank_spaces in H. destruct Ht as (Hn & H0 & _). apply Forall_app in H as [_ H]. apply Forall_app in H as [H _].
      destruct t; [congruence|]. apply Forall_cons_iff in H as [H _]. unfold at_ in H0. cbn in H0. congruence. }
    split.
    + destruct (Nat.eqb_spec (List.length a + n) (List.length a + List.length t)) as [En|]; [|discriminate].
      cbn [negb]. destruct (Z.ltb_spec (2 ^ 64 - 1) v); [discriminate|]. intros [= <-]. split; [exact Hm|]. right. split; [|lia].
      exists a, t, b. split; [reflexivity|]. split; [now apply blank_spaces|]. split; [now apply blank_spaces|].
      apply parse_core_denotes; [|apply Ht]. rewrite Ep. f_equal. lia.
    + intros [_ [[H _]|[(a' & t' & b' & Es & Ha' & Hb' & Hd) Hr]]]; [contradiction|].
      apply blank_spaces in Ha', Hb'. destruct (denotes_parse_core t' z Hd) as [Ep' Ht'].
      destruct (core_positions a' t' b' Ha' Hb' Ht') as (F1 & F2 & F3 & F4). cbn zeta in F1, F2, F3. rewrite <- Es in F1, F2, F3.
      destruct (core_positions a t b Ha Hb Ht) as (_ & _ & G3 & _). cbn zeta in G3. rewrite G3, Ep, Ep' in F3. injection F3 as -> ->.
      rewrite E1 in F1. rewrite E2 in F2. rewrite <- F1 in F2.
      destruct (Nat.eqb_spec (List.length a + List.length t') (List.length a + List.length t)) as [_|Hx]; [|lia]. cbn [negb].
      assert ((2 ^ 64 - 1 <? z)%Z = false) as -> by (apply Z.ltb_ge; lia). reflexivity.
Qed.

Theorem text_denotes_unique s z z' : text_denotes s z -> text_denotes s z' -> z = z'.
Proof.
  intros (a & t & b & -> & Ha & Hb & Hd) (a' & t' & b' & Es & Ha' & Hb' & Hd').
  apply blank_spaces in Ha, Hb, Ha', Hb'. destruct (denotes_parse_core t z Hd) as [Ep Ht]. destruct (denotes_parse_core t' z' Hd') as [Ep' Ht'].
  destruct (core_positions a' t' b' Ha' Hb' Ht') as (_ & _ & F3 & _). cbn zeta in F3. rewrite <- Es in F3.
  destruct (core_positions a t b Ha Hb Ht) as (_ & _ & G3 & _). cbn zeta in G3. rewrite G3, Ep, Ep' in F3. congruence.
Qed.

Theorem signed_iff s : forall f lo hi,
  In (f, (lo, hi)) [(str_to_long s, (- 2 ^ 63, 2 ^ 63 - 1)); (str_to_int64 s, (- 2 ^ 63, 2 ^ 63 - 1)); (str_to_int s, (- 2 ^ 31, 2 ^ 31 - 1));
     (str_to_int32 s, (- 2 ^ 31, 2 ^ 31 - 1)); (str_to_int16 s, (- 2 ^ 15, 2 ^ 15 - 1))]%Z ->
  forall z, f = Some z <-> (blank s /\ z = 0%Z) \/ (text_denotes s z /\ (lo <= z <= hi)%Z).
Proof.
  assert (R : forall lo hi, (- 2 ^ 63 <= lo <= 0)%Z -> (0 <= hi < 2 ^ 63)%Z -> forall z,
    restrict lo hi (str_to_long s) = Some z <-> (blank s /\ z = 0%Z) \/ (text_denotes s z /\ (lo <= z <= hi)%Z)).
  { intros lo hi Hlo Hhi z. unfold restrict. split.
    - destruct (str_to_long s) as [v|] eqn:E; [|discriminate]. destruct ((v <? lo)%Z || (hi <? v)%Z) eqn:Er; [discriminate|]. intros [= <-].
      apply orb_false_iff in Er as [E1 E2]. apply Z.ltb_ge in E1, E2. apply str_to_long_iff in E as [?|[? _]]; auto.
    - intros H. assert (E : str_to_long s = Some z) by (apply str_to_long_iff; destruct H as [?|[? ?]]; [auto|right; split; auto; lia]).
      rewrite E. assert ((z <? lo)%Z = false) as -> by (apply Z.ltb_ge; destruct H as [[_ ->]|[_ ?]]; lia).
      assert ((hi <? z)%Z = false) as -> by (apply Z.ltb_ge; destruct H as [[_ ->]|[_ ?]]; lia). reflexivity. }
  intros f lo hi [E|[E|[E|[E|[E|[]]]]]] z; injection E as <- <- <-; unfold str_to_int64, str_to_int, str_to_int32, str_to_int16.
  1-2: rewrite str_to_long_iff; split; (intros [?|[? ?]]; [auto|right; split; auto; lia]).
  all: rewrite R by lia; cbn; reflexivity.
Qed.

Theorem unsigned_iff s : forall f hi,
  In (f, hi) [(str_to_ulong s, 2 ^ 64 - 1); (str_to_uint64 s, 2 ^ 64 - 1); (str_to_uint s, 2 ^ 32 - 1); (str_to_uint32 s, 2 ^ 32 - 1); (str_to_uint16 s, 2 ^ 16 - 1)]%Z ->
  forall z, f = Some z <-> no_minus s /\ ((blank s /\ z = 0%Z) \/ (text_denotes s z /\ (z <= hi)%Z)).
Proof.
  assert (R : forall hi, (0 <= hi < 2 ^ 64)%Z -> forall z,
    restrict_max hi (str_to_ulong s) = Some z <-> no_minus s /\ ((blank s /\ z = 0%Z) \/ (text_denotes s z /\ (z <= hi)%Z))).
  { intros hi Hhi z. unfold restrict_max. split.
    - destruct (str_to_ulong s) as [v|] eqn:E; [|discriminate]. destruct (Z.ltb_spec hi v); [discriminate|]. intros [= <-].
      apply str_to_ulong_iff in E as [Hm E]. split; [exact Hm|]. destruct E as [?|[? _]]; auto.
    - intros [Hm H]. assert (E : str_to_ulong s = Some z) by (apply str_to_ulong_iff; split; [exact Hm|]; destruct H as [?|[? ?]]; [auto|right; split; auto; lia]).
      rewrite E. assert ((hi <? z)%Z = false) as -> by (apply Z.ltb_ge; destruct H as [[_ ->]|[_ ?]]; lia). reflexivity. }
  intros f hi [E|[E|[E|[E|[E|[]]]]]] z; injection E as <- <-; unfold str_to_uint64, str_to_uint, str_to_uint32, str_to_uint16.
  1-2: rewrite str_to_ulong_iff; split; (intros [Hm [?|[? ?]]]; (split; [exact Hm|]); [auto|right; split; auto; lia]).
  all: rewrite R by lia; cbn; reflexivity.
Qed.
