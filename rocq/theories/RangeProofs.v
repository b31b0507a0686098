From Coq Require Import List Bool Arith ZArith Ascii String Lia.
From Verif Require Import StrModel StrProofs NumParseModel NumParseSpec NumParseProofs NumParseProps SplitSpec SplitProofs ReadProofs RangeModel RangeSpec.
Import ListNotations.
Open Scope nat_scope.

(** ** The character loops *)
Lemma fwd_loop_unique p s k : forall fuel i, List.length s - i <= fuel -> i <= k <= List.length s ->
  (forall j, i <= j < k -> p (at_ s j) = true) -> (k < List.length s -> p (at_ s k) = false) -> fwd_loop fuel p s i = k.
Proof.
  induction fuel; intros i Hf Hi H1 H2; cbn [fwd_loop]; [lia|].
  destruct (Nat.ltb_spec i (List.length s)); cbn [andb]; [|lia].
  destruct (Nat.eq_dec i k) as [->|Hn]; [rewrite H2 by lia; reflexivity|].
  rewrite H1 by lia. apply IHfuel; auto; [lia|lia|]. intros; apply H1; lia.
Qed.
Lemma fwd_unique p s i k : i <= k <= List.length s ->
  (forall j, i <= j < k -> p (at_ s j) = true) -> (k < List.length s -> p (at_ s k) = false) -> fwd p s i = k.
Proof. intros. apply fwd_loop_unique; auto. Qed.
Lemma bwd_unique p s k : forall i, k <= i -> (forall j, k <= j < i -> p (at_ s j) = true) -> (0 < k -> p (at_ s (k - 1)) = false) -> bwd p s i = k.
Proof.
  induction i; intros Hi H1 H2; cbn [bwd]; [lia|].
  destruct (Nat.eq_dec k (S i)) as [->|Hn].
  - specialize (H2 ltac:(lia)). replace (S i - 1) with i in H2 by lia. now rewrite H2.
  - rewrite H1 by lia. apply IHi; auto; [lia|]. intros; apply H1; lia.
Qed.

Lemma is_in_iff l c : is_in l c = true <-> In c l.
Proof. unfold is_in. rewrite existsb_exists. split; [intros (x & H & E); apply Ascii.eqb_eq in E; now subst|intros H; exists c; split; auto; apply Ascii.eqb_refl]. Qed.
Lemma prefix_char_iff c : prefix_char c = true <-> ~ In c before_number.
Proof. unfold prefix_char. rewrite negb_true_iff, <- not_true_iff_false, is_in_iff. reflexivity. Qed.
Lemma suffix_char_iff c : suffix_char c = true <-> ~ In c after_number.
Proof. unfold suffix_char. rewrite negb_true_iff, <- not_true_iff_false, is_in_iff. reflexivity. Qed.
Lemma isdigit_iff c : isdigit c = true <-> exists d, dec_digit c d.
Proof.
  split.
  - intros H. assert (E : digit_value false c = Some (Z.of_nat (code c - 48))) by (unfold digit_value; now rewrite H).
    apply digit_value_iff in E as (d & _ & E). eauto.
  - intros (d & H). pose proof (proj2 (digit_value_iff false c (Z.of_nat d)) (ex_intro _ d (conj eq_refl H))) as E.
    unfold digit_value in E. destruct (isdigit c); auto. discriminate.
Qed.
Lemma positional_digits : forall d z, positional 10 dec_digit d z -> Forall (fun c => isdigit c = true) d.
Proof. induction 1; constructor; auto. apply isdigit_iff. eauto. Qed.

(** ** Writing numbers *)
Lemma positional_bound : forall d z, positional 10 dec_digit d z -> (0 <= z < 10 ^ Z.of_nat (List.length d))%Z.
Proof.
  induction 1 as [|c d r v Hd _ IH]; [cbn; lia|].
  assert (d < 10) by (change 10 with (List.length (list_ascii_of_string "0123456789")); apply nth_error_Some; rewrite Hd; discriminate).
  cbn [List.length]. rewrite Nat2Z.inj_succ, Z.pow_succ_r by lia. nia.
Qed.

Lemma positional_inj : forall d z, positional 10 dec_digit d z -> forall d', positional 10 dec_digit d' z -> List.length d = List.length d' -> d = d'.
Proof.
  induction 1 as [|c d r v Hd Hr IH]; intros d' H' L; [destruct d'; [reflexivity|discriminate]|].
  inversion H' as [E0|c' e r' v' He Hr' E1 E2]; subst; [discriminate|]. cbn in L. assert (L' : List.length r = List.length r') by lia.
  pose proof (positional_bound _ _ Hr) as B1. pose proof (positional_bound _ _ Hr') as B2. rewrite <- L' in *.
  set (P := (10 ^ Z.of_nat (List.length r))%Z) in *.
  assert (Z.of_nat d = Z.of_nat e) by nia. assert (d = e) by lia. subst e.
  assert (v = v') by lia. subst v'. f_equal; [unfold dec_digit in *; congruence|apply IH; auto].
Qed.

Lemma padded_unique w z d d' : padded w z d -> padded w z d' -> d = d'.
Proof.
  assert (A : forall d d', padded w z d -> padded w z d' -> List.length d < List.length d' -> False).
  { clear. intros d d' (P & L & _) (P' & L' & N) H. specialize (N ltac:(lia)).
    apply positional_bound in P. inversion P' as [|c e r v He Hr E1 E2]; subst; [cbn in H; lia|].
    assert (e <> 0). { intros ->. apply (N r). unfold dec_digit in He. cbn in He. congruence. }
    apply positional_bound in Hr. cbn in H.
    assert (10 ^ Z.of_nat (List.length d) <= 10 ^ Z.of_nat (List.length r))%Z by (apply Z.pow_le_mono_r; lia). nia. }
  intros H H'. destruct (Nat.lt_trichotomy (List.length d) (List.length d')) as [L|[L|L]].
  - exfalso. eauto.
  - destruct H as (P & _), H' as (P' & _). eapply positional_inj; eauto.
  - exfalso. eauto.
Qed.

Lemma digit_char_ok d : (0 <= d < 10)%Z -> dec_digit (digit_char d) (Z.to_nat d).
Proof.
  intros H. assert (E : exists n, d = Z.of_nat n /\ n < 10) by (exists (Z.to_nat d); lia). destruct E as (n & -> & Hn). rewrite Nat2Z.id.
  unfold digit_char. rewrite Nat2Z.id. do 10 (destruct n as [|n]; [reflexivity|]). lia.
Qed.

Lemma show_loop_ok : forall fuel n acc z, (0 <= n < 10 ^ Z.of_nat fuel)%Z -> fuel <> 0 -> positional 10 dec_digit acc z ->
  let d := show_loop fuel n acc in
  positional 10 dec_digit d (n * 10 ^ Z.of_nat (List.length acc) + z) /\ List.length acc < List.length d /\
  (forall r, d = "0"%char :: r -> n = 0%Z /\ r = acc).
Proof.
  induction fuel; intros n acc z Hn Hf Ha; [congruence|]. cbn [show_loop].
  assert (Hm : (0 <= n mod 10 < 10)%Z) by (apply Z.mod_pos_bound; lia).
  assert (D : dec_digit (digit_char (n mod 10)) (Z.to_nat (n mod 10))) by (now apply digit_char_ok).
  pose proof (pos_cons 10 dec_digit _ _ acc z D Ha) as P. rewrite Z2Nat.id in P by lia.
  pose proof (Z.div_mod n 10 ltac:(lia)) as E. cbn zeta.
  destruct (Z.eqb_spec (n / 10) 0) as [E0|E0].
  - split; [|split].
    + replace n with (n mod 10)%Z at 2 by lia. exact P.
    + cbn. lia.
    + intros r [= E1 ->]. split; auto. rewrite E1 in D.
      assert (Z.to_nat (n mod 10) = 0).
      { destruct (Z.to_nat (n mod 10)) as [|k] eqn:Ek; auto. assert (k < 9) by lia. do 9 (destruct k as [|k]; [discriminate D|]). lia. }
      lia.
  - assert (fuel <> 0) by (intros ->; cbn in Hn; apply E0; apply Z.div_small; lia).
    rewrite Nat2Z.inj_succ, Z.pow_succ_r in Hn by lia.
    assert (Hd : (0 <= n / 10 < 10 ^ Z.of_nat fuel)%Z) by (split; [apply Z.div_pos; lia|apply Z.div_lt_upper_bound; lia]).
    destruct (IHfuel _ _ _ Hd H P) as (I1 & I2 & I3). cbn [List.length] in I1, I2. split; [|split].
    + replace (n * 10 ^ Z.of_nat (List.length acc) + z)%Z with
        (n / 10 * 10 ^ Z.of_nat (S (List.length acc)) + (n mod 10 * 10 ^ Z.of_nat (List.length acc) + z))%Z; [exact I1|].
      rewrite Nat2Z.inj_succ, Z.pow_succ_r by lia. clear -E. revert E. generalize (n / 10)%Z (n mod 10)%Z. intros q m ->. ring.
    + lia.
    + intros r Hr. apply I3 in Hr as [Hr _]. contradiction.
Qed.

Lemma zeros_positional : forall k d z, positional 10 dec_digit d z -> positional 10 dec_digit (repeat "0"%char k ++ d) z.
Proof.
  induction k; intros d z H; [exact H|]. cbn [repeat app].
  replace z with (Z.of_nat 0 * 10 ^ Z.of_nat (List.length (repeat "0"%char k ++ d)) + z)%Z by (cbn; lia).
  constructor; [reflexivity|auto].
Qed.

Lemma show_padded w z : (0 <= z < 2 ^ 31)%Z -> 0 < w -> padded w z (show w z).
Proof.
  intros Hz Hw. unfold show. cbn zeta.
  destruct (show_loop_ok 10 z [] 0 ltac:(cbn; lia) ltac:(lia) ltac:(constructor)) as (P & L & N).
  set (d := show_loop 10 z []) in *. cbn [List.length] in P, L. replace (z * 10 ^ Z.of_nat 0 + 0)%Z with z in P by (cbn [Z.of_nat]; rewrite Z.pow_0_r; lia).
  split; [now apply zeros_positional|]. rewrite app_length, repeat_length. split; [lia|].
  intros H r. replace (w - List.length d) with 0 in * by lia. cbn [repeat app]. intros E. apply N in E as E'. destruct E' as [_ ->]. rewrite E in H. cbn in H. lia.
Qed.

Lemma fill_spec step pre suf w : forall n num, fill (S n) step pre suf w num =
  commas (map (fun i => pre ++ show w (num + step * Z.of_nat i)%Z ++ suf) (seq 0 (S n))).
Proof.
  induction n as [|n IH]; intros num.
  - cbn. rewrite Z.mul_0_r, Z.add_0_r, app_nil_r. reflexivity.
  - change (fill (S (S n)) step pre suf w num) with (pre ++ show w num ++ suf ++ ","%char :: fill (S n) step pre suf w (num + step)%Z).
    rewrite IH.
    assert (E : map (fun i => pre ++ show w (num + step + step * Z.of_nat i) ++ suf) (seq 0 (S n)) =
                map (fun i => pre ++ show w (num + step * Z.of_nat i) ++ suf) (seq 1 (S n))).
    { rewrite <- seq_shift, map_map. apply map_ext. intros i. do 3 f_equal. lia. }
    rewrite E. change (seq 0 (S (S n))) with (0 :: seq 1 (S n)). rewrite map_cons.
    destruct (map (fun i => pre ++ show w (num + step * Z.of_nat i) ++ suf) (seq 1 (S n))) as [|x l] eqn:El; [discriminate|].
    change (Z.of_nat 0) with 0%Z. rewrite Z.mul_0_r, Z.add_0_r. cbn [commas]. now rewrite <- !app_assoc.
Qed.

Lemma nth_error_same {A} : forall (l m : list A), (forall i, nth_error l i = nth_error m i) -> l = m.
Proof.
  induction l as [|x l IH]; intros [|y m] H; auto; try (specialize (H 0); discriminate).
  f_equal; [specialize (H 0); now injection H|apply IH; intros i; apply (H (S i))].
Qed.
Lemma numbers_seq a b ns : numbers a b ns ->
  ns = map (fun i => (a + (if (a <? b)%Z then 1 else -1) * Z.of_nat i)%Z) (seq 0 (S (Z.abs_nat (b - a)))).
Proof.
  intros [L H]. apply nth_error_same. intros i. destruct (nth_error ns i) as [x|] eqn:E.
  - assert (Hi : i < List.length ns) by (apply nth_error_Some; congruence).
    rewrite nth_error_map. rewrite (nth_error_nth' (seq 0 _) 0) by (rewrite seq_length; lia). cbn [option_map]. rewrite seq_nth by lia. f_equal.
    apply H in E. subst x. destruct (Z.leb_spec a b), (Z.ltb_spec a b); lia.
  - symmetry. apply nth_error_None. rewrite map_length, seq_length. apply nth_error_None in E. lia.
Qed.

Lemma padded_show w ns ds : 0 < w -> Forall (fun z => 0 <= z < 2 ^ 31)%Z ns -> Forall2 (padded w) ns ds -> ds = map (show w) ns.
Proof.
  intros Hw Hn H. induction H as [|z d ns ds Hd H IH]; [reflexivity|]. apply Forall_cons_iff in Hn as [Hz Hn]. cbn [map]. f_equal; [|auto].
  eapply padded_unique; [exact Hd|]. now apply show_padded.
Qed.

Lemma fill_items a b w ns ds p s : 0 < w -> (0 <= a < 2 ^ 31)%Z -> (0 <= b < 2 ^ 31)%Z -> numbers a b ns -> Forall2 (padded w) ns ds ->
  commas (map (fun d => p ++ d ++ s) ds) =
    if (a <? b)%Z then fill (Z.to_nat (b - a + 1)) 1 p s w a else fill (Z.to_nat (a - b + 1)) (-1) p s w a.
Proof.
  intros Hw Ha Hb Hn Hd. apply padded_show in Hd; auto.
  - subst ds. rewrite (numbers_seq a b ns Hn), !map_map. destruct (Z.ltb_spec a b).
    + replace (Z.to_nat (b - a + 1)) with (S (Z.abs_nat (b - a))) by lia. now rewrite fill_spec.
    + replace (Z.to_nat (a - b + 1)) with (S (Z.abs_nat (b - a))) by lia. now rewrite fill_spec.
  - apply numbers_seq in Hn. subst ns. apply Forall_forall. intros z Hz. apply in_map_iff in Hz as (i & <- & Hi). apply in_seq in Hi.
    destruct (Z.ltb_spec a b); lia.
Qed.

Lemma digits_int d z : d <> [] -> positional 10 dec_digit d z -> (z < 2 ^ 31)%Z -> str_to_int d = Some z.
Proof.
  intros Hd Hp Hz. pose proof (positional_bound _ _ Hp) as B.
  refine (proj2 (C28_signed d (str_to_int d) (- 2 ^ 31) (2 ^ 31 - 1) _ _ z) _)%Z.
  - cbn. auto 10.
  - intros Hb. apply blank_spaces in Hb. apply positional_digits in Hp. destruct d as [|c d]; [congruence|].
    apply Forall_inv in Hb. apply Forall_inv in Hp. destruct c as [[] [] [] [] [] [] [] []]; discriminate.
  - split; [|lia]. exists [], d, []. split; [now rewrite app_nil_r|]. split; [constructor|]. split; [constructor|]. now constructor.
Qed.

Lemma text_eqb_iff a b : text_eqb a b = true <-> a = b.
Proof. unfold text_eqb. destruct (list_eq_dec ascii_dec a b); split; congruence. Qed.

(** ** One iteration *)
Definition dull (c : ascii) : Prop := ~ In c ["."; "'"; """"]%char.
Lemma dull_step s i : dull (at_ s i) -> expand_step s i = Next s (S i).
Proof.
  intros H. unfold dull in H.
  assert (E : forall c, In c ["."; "'"; """"]%char -> Ascii.eqb (at_ s i) c = false) by (intros c Hc; apply Ascii.eqb_neq; intros E; apply H; now rewrite E).
  unfold expand_step. rewrite (E "'"%char), (E """"%char), (E "."%char) by (cbn; auto). reflexivity.
Qed.

Definition runs (s : list ascii) (i : nat) (t : list ascii) : Prop := exists n, forall f, n <= f -> expand_loop f s i = Expanded t.
Lemma runs_end s i : List.length s <= S i -> runs s i s.
Proof. intros H. exists 1. intros f Hf. destruct f; [lia|]. cbn [expand_loop]. destruct (Nat.ltb_spec (S i) (List.length s)); [lia|reflexivity]. Qed.
Lemma runs_next s i s' i' t : S i < List.length s -> expand_step s i = Next s' i' -> runs s' i' t -> runs s i t.
Proof.
  intros H E (n & R). exists (S n). intros f Hf. destruct f; [lia|]. cbn [expand_loop]. destruct (Nat.ltb_spec (S i) (List.length s)); [|lia].
  rewrite E. apply R. lia.
Qed.
Lemma runs_pass s i t : (S i < List.length s -> expand_step s i = Next s (S i)) -> runs s (S i) t -> runs s i t.
Proof.
  intros E R. destruct (Nat.lt_ge_cases (S i) (List.length s)) as [H|H]; [now apply (runs_next s i s (S i)); auto|].
  destruct R as (n & R). specialize (R (S n) ltac:(lia)). cbn [expand_loop] in R. destruct (Nat.ltb_spec (S (S i)) (List.length s)); [lia|]. injection R as ->. now apply runs_end.
Qed.
Lemma runs_dull : forall u d rest t, Forall dull u -> runs (d ++ u ++ rest) (List.length d + List.length u) t -> runs (d ++ u ++ rest) (List.length d) t.
Proof.
  induction u as [|c u IH]; intros d rest t Hu R; [now rewrite Nat.add_0_r in R|].
  apply Forall_cons_iff in Hu as [Hc Hu]. apply runs_pass.
  - intros _. apply dull_step. cbn [app]. rewrite at_here. exact Hc.
  - specialize (IH (d ++ [c]) rest t Hu). rewrite <- app_assoc, app_length in IH. cbn [List.length app] in *.
    replace (List.length d + 1 + List.length u) with (List.length d + S (List.length u)) in IH by lia. apply IH in R. now replace (S (List.length d)) with (List.length d + 1) by lia.
Qed.

(** The character before the position does not belong to a prefix. *)
Definition edge (d : list ascii) : Prop := forall x c, d = x ++ [c] -> In c before_number.
Lemma edge_at d : edge d -> 0 < List.length d -> prefix_char (at_ d (List.length d - 1)) = false.
Proof.
  intros H Hl. destruct (exists_last (l := d)) as (x & c & E); [intros ->; cbn in Hl; lia|]. apply not_true_iff_false. rewrite prefix_char_iff. intros X. apply X.
  subst d. assert (E' : at_ (x ++ [c]) (List.length (x ++ [c]) - 1) = c) by (rewrite app_length; cbn [List.length]; replace (List.length x + 1 - 1) with (List.length x) by lia; apply at_here).
  rewrite E'. now apply (H x c).
Qed.

Lemma seg (P : ascii -> Prop) (x y z : list ascii) j : Forall P y -> List.length x <= j < List.length x + List.length y -> P (at_ (x ++ y ++ z) j).
Proof. intros H Hj. rewrite at_app2' by lia. rewrite at_app1 by lia. rewrite Forall_forall in H. apply H. apply nth_In. lia. Qed.
Lemma at_last (x : list ascii) c z : at_ ((x ++ [c]) ++ z) (List.length (x ++ [c]) - 1) = c.
Proof. rewrite app_length. cbn [List.length]. replace (List.length x + 1 - 1) with (List.length x) by lia. rewrite <- app_assoc. apply at_here. Qed.

Lemma braces_spec pre suf p s :
  ((exists p1 s1, pre = p1 ++ ["{"%char] /\ suf = "}"%char :: s1 /\ p = p1 /\ s = s1) \/
   (~ (exists p1 s1, pre = p1 ++ ["{"%char] /\ suf = "}"%char :: s1) /\ p = pre /\ s = suf)) -> braces pre suf = (p, s).
Proof.
  intros [(p1 & s1 & -> & -> & -> & ->)|[N [-> ->]]].
  - unfold braces. rewrite app_length. cbn [List.length]. destruct (Nat.ltb_spec 0 (List.length p1 + 1)); [|lia].
    replace (List.length p1 + 1 - 1) with (List.length p1) by lia. rewrite at_here, !Ascii.eqb_refl. cbn [andb]. now rewrite firstn_app, firstn_all, Nat.sub_diag, app_nil_r.
  - unfold braces. destruct suf as [|c r]; [reflexivity|].
    destruct (Nat.ltb_spec 0 (List.length pre)); [|reflexivity]. destruct (Ascii.eqb_spec (at_ pre (List.length pre - 1)) "{") as [E|]; [|reflexivity].
    destruct (Ascii.eqb_spec c "}") as [->|]; [|reflexivity]. exfalso. apply N.
    destruct (exists_last (l := pre)) as (x & y & ->); [intros ->; cbn in *; lia|]. rewrite <- (app_nil_r (x ++ [y])), at_last in E at 1. subst y. eauto.
Qed.

Lemma digit_facts c : isdigit c = true -> isspace c = false /\ dull c /\ ~ In c before_number /\ ~ In c after_number.
Proof.
  intros H. destruct c as [[] [] [] [] [] [] [] []]; try discriminate H;
    (split; [reflexivity|]; split; [|split]; unfold dull, before_number, after_number; cbn; intuition discriminate).
Qed.
Lemma blank_dull b : spaces b -> Forall dull b.
Proof. apply Forall_impl. intros c H. destruct c as [[] [] [] [] [] [] [] []]; try discriminate H; unfold dull; cbn; intuition discriminate. Qed.

Ltac assoc_tac := repeat (progress (rewrite <- ?app_assoc; cbn [app])); reflexivity.

Lemma range_step d r items ov s : edge d -> range_text r items ov -> (s = [] \/ exists c x, s = c :: x /\ In c after_number) ->
  exists u v, r = u ++ "."%char :: "."%char :: v /\ v <> [] /\ Forall dull u /\ Forall (Forall dull) items /\
    expand_step (d ++ r ++ s) (List.length d + List.length u) = if ov then Overflow else Next (d ++ commas items ++ s) (List.length d).
Proof.
  intros He (pre & d1 & b1 & b2 & pre2 & d2 & suf & a & b & -> & Hb1 & Hb2 & Hp2 & Hpre & Hsuf & Hpd & Hsd & Hp1 & Hd1 & Hd2 & P1 & P2 & Ra & Rb & Hov & ns & ds & p & q & Hns & Hds & -> & Hbr) Hs.
  apply blank_spaces in Hb1, Hb2. pose proof (positional_digits _ _ P1) as D1. pose proof (positional_digits _ _ P2) as D2.
  pose proof (positional_bound _ _ P1) as B1. pose proof (positional_bound _ _ P2) as B2.
  assert (L1 : 0 < List.length d1) by (destruct d1; [congruence|cbn; lia]).
  assert (L2 : 0 < List.length d2) by (destruct d2; [congruence|cbn; lia]).
  exists (pre ++ d1 ++ b1), (b2 ++ pre2 ++ d2 ++ suf). split; [now rewrite <- !app_assoc|].
  split. { intros E. apply app_eq_nil in E as [_ E]. apply app_eq_nil in E as [_ E]. apply app_eq_nil in E as [E _]. contradiction. }
  split. { apply Forall_app. split; [eapply Forall_impl; [|exact Hpre]; cbn; intros c [_ H]; exact H|]. apply Forall_app. split; [|now apply blank_dull].
    eapply Forall_impl; [|exact D1]. intros c H. now apply digit_facts in H as (_ & H & _). }
  assert (Dsuf : Forall dull suf) by (eapply Forall_impl; [|exact Hsuf]; cbn; intros c [_ H]; exact H).
  assert (Dpre : Forall dull pre) by (eapply Forall_impl; [|exact Hpre]; cbn; intros c [_ H]; exact H).
  split.
  { apply Forall_forall. intros x Hx. apply in_map_iff in Hx as (e & <- & Hin). apply Forall_app. split; [|apply Forall_app; split].
    - destruct Hbr as [(p1 & s1 & -> & -> & -> & ->)|[_ [-> ->]]]; auto. now apply Forall_app in Dpre as [Dpre _].
    - assert (exists z, positional 10 dec_digit e z) as (z & Hz).
      { clear -Hds Hin. induction Hds as [|z0 e0 zs es (Pz & _) _ IH]; [destruct Hin|destruct Hin as [->|Hin]; eauto]. }
      apply positional_digits in Hz. eapply Forall_impl; [|exact Hz]. intros c H. now apply digit_facts in H as (_ & H & _).
    - destruct Hbr as [(p1 & s1 & -> & -> & -> & ->)|[_ [-> ->]]]; auto. now apply Forall_cons_iff in Dsuf as [_ Dsuf]. }
  set (T := d ++ (pre ++ d1 ++ b1 ++ "."%char :: "."%char :: b2 ++ pre2 ++ d2 ++ suf) ++ s).
  assert (T0 : T = (d ++ pre ++ d1 ++ b1) ++ "."%char :: "."%char :: (b2 ++ pre2 ++ d2 ++ suf ++ s)) by (unfold T; assoc_tac).
  assert (T1 : T = (d ++ pre ++ d1) ++ b1 ++ ("."%char :: "."%char :: b2 ++ pre2 ++ d2 ++ suf ++ s)) by (unfold T; assoc_tac).
  assert (T2 : T = (d ++ pre) ++ d1 ++ (b1 ++ "."%char :: "."%char :: b2 ++ pre2 ++ d2 ++ suf ++ s)) by (unfold T; assoc_tac).
  assert (T3 : T = d ++ pre ++ (d1 ++ b1 ++ "."%char :: "."%char :: b2 ++ pre2 ++ d2 ++ suf ++ s)) by (unfold T; assoc_tac).
  assert (T4 : T = (d ++ pre ++ d1 ++ b1 ++ ["."%char; "."%char]) ++ b2 ++ (pre2 ++ d2 ++ suf ++ s)) by (unfold T; assoc_tac).
  assert (T5 : T = (d ++ pre ++ d1 ++ b1 ++ ["."%char; "."%char] ++ b2) ++ pre2 ++ (d2 ++ suf ++ s)) by (unfold T; assoc_tac).
  assert (T6 : T = (d ++ pre ++ d1 ++ b1 ++ ["."%char; "."%char] ++ b2 ++ pre2) ++ d2 ++ (suf ++ s)) by (unfold T; assoc_tac).
  assert (T7 : T = (d ++ pre ++ d1 ++ b1 ++ ["."%char; "."%char] ++ b2 ++ pre2 ++ d2) ++ suf ++ s) by (unfold T; assoc_tac).
  assert (LT : List.length T = List.length d + List.length pre + List.length d1 + List.length b1 + 2 + List.length b2 + List.length pre2 + List.length d2 + List.length suf + List.length s).
  { rewrite T7, !app_length. cbn [List.length]. lia. }
  assert (Ei : List.length d + List.length (pre ++ d1 ++ b1) = List.length (d ++ pre ++ d1 ++ b1)) by (rewrite !app_length; lia). rewrite Ei.
  set (i := List.length (d ++ pre ++ d1 ++ b1)).
  assert (Li : i = List.length d + List.length pre + List.length d1 + List.length b1) by (unfold i; rewrite !app_length; lia).
  unfold expand_step.
  assert (A0 : at_ T i = "."%char) by (rewrite T0; apply at_here). rewrite A0. cbn [Ascii.eqb orb].
  assert (A1 : at_ T (S i) = "."%char).
  { replace T with ((d ++ pre ++ d1 ++ b1 ++ ["."%char]) ++ "."%char :: (b2 ++ pre2 ++ d2 ++ suf ++ s)) by (unfold T; assoc_tac).
    replace (S i) with (List.length (d ++ pre ++ d1 ++ b1 ++ ["."%char])) by (rewrite !app_length in *; cbn; lia). apply at_here. }
  rewrite A1. replace (Ascii.eqb "." "'" || Ascii.eqb "." """") with false by reflexivity. replace (Ascii.eqb "." "." && Ascii.eqb "." ".") with true by reflexivity. cbv zeta.
  assert (E1 : rskipws T 0 i = List.length d + List.length pre + List.length d1).
  { apply rskipws_unique; [lia| |].
    - intros j Hj. rewrite T1. apply (seg (fun c => isspace c = true)); [exact Hb1|rewrite !app_length; lia].
    - intros _. rewrite T2. apply (seg (fun c => isspace c = false)); [|rewrite !app_length; lia]. eapply Forall_impl; [|exact D1]. intros c H. now apply digit_facts in H. }
  rewrite E1.
  assert (E2 : bwd isdigit T (List.length d + List.length pre + List.length d1) = List.length d + List.length pre).
  { apply bwd_unique; [lia| |].
    - intros j Hj. rewrite T2. apply (seg (fun c => isdigit c = true)); [exact D1|rewrite !app_length; lia].
    - intros Hk. apply not_true_iff_false. intros X. destruct (list_eq_dec ascii_dec pre []) as [->|Hn].
      + cbn [List.length] in *. rewrite Nat.add_0_r in X. rewrite T3 in X. cbn [app] in X. rewrite at_app1 in X by lia. pose proof (edge_at d He ltac:(lia)) as Y.
        apply digit_facts in X as (_ & _ & X & _). apply prefix_char_iff in X. congruence.
      + destruct (exists_last Hn) as (x & c & E). 
        assert (T3' : T = (d ++ x) ++ c :: (d1 ++ b1 ++ "."%char :: "."%char :: b2 ++ pre2 ++ d2 ++ suf ++ s)) by (rewrite T3, E; assoc_tac). rewrite T3' in X.
        replace (List.length d + List.length pre - 1) with (List.length (d ++ x)) in X by (rewrite E, !app_length; cbn; lia).
        rewrite at_here in X. apply isdigit_iff in X as (e & X). now apply (Hpd x c e). }
  rewrite E2. replace (List.length d + List.length pre + List.length d1 - (List.length d + List.length pre)) with (List.length d1) by lia.
  destruct (Nat.eqb_spec (List.length d1) 0); [lia|].
  assert (E3 : substr T (List.length d + List.length pre) (List.length d1) = d1) by (rewrite T2, <- app_length; apply substr_mid).
  rewrite E3, (digits_int d1 a) by (auto; lia).
  assert (E4 : bwd prefix_char T (List.length d + List.length pre) = List.length d).
  { apply bwd_unique; [lia| |].
    - intros j Hj. rewrite T3. apply (seg (fun c => prefix_char c = true)); [|lia]. eapply Forall_impl; [|exact Hpre]. cbn. intros c [H _]. now apply prefix_char_iff.
    - intros Hk. rewrite T3, at_app1 by lia. now apply edge_at. }
  rewrite E4. replace (List.length d + List.length pre - List.length d) with (List.length pre) by lia.
  assert (E5 : substr T (List.length d) (List.length pre) = pre) by (rewrite T3; apply substr_mid). rewrite E5.
  assert (N2 : isspace (at_ T (i + 2 + List.length b2)) = false).
  { destruct pre2 as [|c2 pre2].
    - rewrite T6. apply (seg (fun c => isspace c = false)); [|rewrite !app_length; cbn [List.length]; lia]. eapply Forall_impl; [|exact D2]. intros c H. now apply digit_facts in H.
    - destruct Hp2 as [Hp2|Hp2]; [discriminate|]. rewrite T5. replace (i + 2 + List.length b2) with (List.length (d ++ pre ++ d1 ++ b1 ++ ["."%char; "."%char] ++ b2)) by (rewrite !app_length; cbn; lia).
      cbn [app]. rewrite at_here. apply not_blank1'. now apply (Hp1 c2 pre2). }
  assert (E6 : lskipws T (i + 2) (List.length T) = i + 2 + List.length b2).
  { apply lskipws_unique; [lia| |auto]. intros j Hj. rewrite T4. apply (seg (fun c => isspace c = true)); [exact Hb2|rewrite !app_length; cbn [List.length]; lia]. }
  rewrite E6.
  match goal with |- context [if isdigit (at_ T ?x) then _ else _] => set (i2 := x) end.
  assert (E7 : i2 = i + 2 + List.length b2 + List.length pre2).
  { unfold i2. assert (Esub : List.length pre2 = List.length pre -> pre2 = pre -> substr T (i + 2 + List.length b2) (List.length pre) = pre).
    { intros Hl ->. rewrite T5. replace (i + 2 + List.length b2) with (List.length (d ++ pre ++ d1 ++ b1 ++ ["."%char; "."%char] ++ b2)) by (rewrite !app_length; cbn; lia). apply substr_mid. }
    destruct (Nat.ltb_spec 0 (List.length pre)) as [Hl|Hl]; cbn [andb]; [|destruct Hp2 as [->| ->]; [cbn; lia|lia]].
    destruct Hp2 as [->| ->].
    - destruct (Nat.ltb_spec (List.length pre) (List.length T - (i + 2 + List.length b2))) as [Hl2|]; cbn [andb]; [|cbn; lia].
      destruct (text_eqb (substr T (i + 2 + List.length b2) (List.length pre)) pre) eqn:X; [|cbn; lia]. exfalso. apply text_eqb_iff in X.
      destruct pre as [|c0 pre']; [cbn in Hl; lia|]. destruct d2 as [|c2 d2']; [cbn in L2; lia|].
      rewrite T6 in X. replace (i + 2 + List.length b2) with (List.length (d ++ (c0 :: pre') ++ d1 ++ b1 ++ ["."%char; "."%char] ++ b2 ++ [])) in X by (rewrite !app_length; cbn [List.length] in *; lia).
      unfold substr in X. rewrite skipn_app, skipn_all, Nat.sub_diag in X. cbn [app skipn firstn List.length] in X. injection X as X _. subst c2.
      apply Forall_inv in D2. apply isdigit_iff in D2 as (e & D2). now destruct (Hp1 c0 pre' eq_refl) as [_ Y]; apply (Y e).
    - destruct (Nat.ltb_spec (List.length pre) (List.length T - (i + 2 + List.length b2))); cbn [andb]; [|lia].
      rewrite Esub by auto. rewrite (proj2 (text_eqb_iff pre pre) eq_refl). lia. }
  assert (E8 : i2 = List.length (d ++ pre ++ d1 ++ b1 ++ ["."%char; "."%char] ++ b2 ++ pre2)) by (rewrite E7, !app_length; cbn [List.length]; lia).
  clearbody i2.
  assert (E9 : isdigit (at_ T i2) = true) by (rewrite T6; apply (seg (fun c => isdigit c = true)); [exact D2|rewrite <- E8; lia]). rewrite E9.
  assert (Ns : forall P : ascii -> bool, (forall c, In c after_number -> P c = false) -> List.length T - List.length s < List.length T -> P (at_ T (List.length T - List.length s)) = false).
  { intros P HP Hl. destruct Hs as [->|(c & x & -> & Hc)]; [cbn in Hl; lia|].
    replace (List.length T - List.length (c :: x)) with (List.length (d ++ (pre ++ d1 ++ b1 ++ "."%char :: "."%char :: b2 ++ pre2 ++ d2 ++ suf))) by (unfold T; rewrite !app_length; lia).
    unfold T. rewrite app_assoc, at_here. auto. }
  assert (Lq : List.length T - List.length s = i2 + List.length d2 + List.length suf) by lia. rewrite Lq in Ns.
  assert (E10 : fwd isdigit T i2 = i2 + List.length d2).
  { apply fwd_unique; [lia| |].
    - intros j Hj. rewrite T6. apply (seg (fun c => isdigit c = true)); [exact D2|lia].
    - intros Hk. destruct suf as [|c suf'].
      + cbn [List.length] in *. rewrite Nat.add_0_r in Ns. apply Ns; [|lia]. intros c Hc. apply not_true_iff_false. intros X. now apply digit_facts in X as (_ & _ & _ & X).
      + rewrite T7. replace (i2 + List.length d2) with (List.length (d ++ pre ++ d1 ++ b1 ++ ["."%char; "."%char] ++ b2 ++ pre2 ++ d2)) by (rewrite E8, !app_length; lia).
        cbn [app]. rewrite at_here. apply not_true_iff_false. intros X. apply isdigit_iff in X as (e & X). now apply (Hsd c suf' e). }
  rewrite E10. replace (i2 + List.length d2 - i2) with (List.length d2) by lia.
  assert (E11 : substr T i2 (List.length d2) = d2) by (rewrite T6, E8; apply substr_mid). rewrite E11, (digits_int d2 b) by (auto; lia).
  assert (E12 : fwd suffix_char T (i2 + List.length d2) = i2 + List.length d2 + List.length suf).
  { apply fwd_unique; [lia| |].
    - intros j Hj. rewrite T7. apply (seg (fun c => suffix_char c = true)); [|rewrite E8, !app_length in *; cbn [List.length] in *; lia].
      eapply Forall_impl; [|exact Hsuf]. cbn. intros c [H _]. now apply suffix_char_iff.
    - intros Hk. apply Ns; [|lia]. intros c Hc. apply not_true_iff_false. rewrite suffix_char_iff. tauto. }
  rewrite E12. replace (i2 + List.length d2 + List.length suf - (i2 + List.length d2)) with (List.length suf) by lia.
  assert (E13 : substr T (i2 + List.length d2) (List.length suf) = suf).
  { rewrite T7. replace (i2 + List.length d2) with (List.length (d ++ pre ++ d1 ++ b1 ++ ["."%char; "."%char] ++ b2 ++ pre2 ++ d2)) by (rewrite E8, !app_length; lia). apply substr_mid. }
  rewrite E13, (braces_spec pre suf p q Hbr).
  assert (E14 : firstn (List.length d) T = d) by (unfold T; rewrite firstn_app, firstn_all, Nat.sub_diag; apply app_nil_r).
  assert (E15 : skipn (i2 + List.length d2 + List.length suf) T = s).
  { unfold T. rewrite app_assoc, skipn_app, skipn_all2 by (rewrite !app_length; cbn [List.length]; rewrite !app_length; lia).
    cbn [app]. replace (_ - _) with 0; [reflexivity|]. rewrite !app_length. cbn [List.length]. rewrite !app_length. lia. }
  rewrite E14, E15. rewrite (fill_items a b (List.length d1) ns ds p q) by (auto; lia).
  destruct (Z.ltb_spec a b) as [Hab|Hab].
  - destruct (Z.eqb_spec b 2147483647) as [Hb|Hb]; destruct ov; auto.
    + exfalso. assert (false = true) by (apply Hov; split; [lia|rewrite Hb; reflexivity]). discriminate.
    + exfalso. destruct (proj1 Hov eq_refl) as [_ X]. apply Hb. exact X.
  - destruct ov; auto. destruct (proj1 Hov eq_refl). lia.
Qed.

Lemma commas_dull items : Forall (Forall dull) items -> Forall dull (commas items).
Proof.
  induction 1 as [|x l Hx Hl IH]; [constructor|]. cbn [commas]. destruct l; [exact Hx|]. apply Forall_app. split; [exact Hx|]. constructor; [|exact IH].
  unfold dull. cbn. intuition discriminate.
Qed.

Lemma edge_snoc d c : edge (d ++ [c]) <-> In c before_number.
Proof.
  split.
  - intros H. now apply (H d c).
  - intros H x c' E. apply app_inj_tail in E as [_ <-]. exact H.
Qed.

Lemma expansion_runs e s t : expansion e s t -> forall d, (e = true -> edge d) -> runs (d ++ s) (List.length d) (d ++ t).
Proof.
  induction 1 as [e|e e' c s t Hc He' H IH|e s t Hd H IH|e q body s t Hq Hb H IH|r items s t Hr Hs H IH]; intros d He.
  - apply runs_end. rewrite app_nil_r. lia.
  - apply (runs_dull [c] d s); [constructor; [exact Hc|constructor]|]. specialize (IH (d ++ [c])).
    rewrite <- !app_assoc, app_length in IH. apply IH. intros E. apply edge_snoc. now apply He'.
  - apply runs_pass.
    + intros Hl. unfold expand_step. rewrite at_here. replace (Ascii.eqb "." "'" || Ascii.eqb "." """") with false by reflexivity.
      assert (X : at_ (d ++ "."%char :: s) (S (List.length d)) <> "."%char).
      { destruct s as [|c s]; [rewrite app_length in Hl; cbn in Hl; lia|]. replace (S (List.length d)) with (List.length (d ++ ["."%char])) by (rewrite app_length; cbn; lia).
        change ("."%char :: c :: s) with (["."%char] ++ c :: s). rewrite app_assoc, at_here. intros ->. now apply (Hd s). }
      apply Ascii.eqb_neq in X. rewrite X, andb_false_r. reflexivity.
    + specialize (IH (d ++ ["."%char]) ltac:(discriminate)). rewrite <- !app_assoc, app_length in IH. cbn [List.length app] in IH. replace (S (List.length d)) with (List.length d + 1) by lia. exact IH.
  - pose proof (skip_quoted_tok d q body s Hb) as Q. specialize (IH (d ++ q :: body ++ [q]) ltac:(discriminate)).
    assert (E1 : (d ++ q :: body ++ [q]) ++ s = d ++ q :: body ++ q :: s) by (rewrite <- app_assoc; cbn [app]; rewrite <- app_assoc; reflexivity).
    assert (E2 : (d ++ q :: body ++ [q]) ++ t = d ++ q :: body ++ q :: t) by (rewrite <- app_assoc; cbn [app]; rewrite <- app_assoc; reflexivity).
    rewrite E1, E2 in IH.
    assert (E3 : d ++ (q :: body ++ [q]) ++ s = d ++ q :: body ++ q :: s) by (cbn [app]; rewrite <- app_assoc; reflexivity). rewrite E3 in Q.
    eapply runs_next; [| |exact IH].
    + rewrite app_length. cbn. rewrite app_length. cbn. lia.
    + unfold expand_step. rewrite at_here. unfold skip_quoted in Q. rewrite at_here in Q.
      assert (X : Ascii.eqb q "'" || Ascii.eqb q """" = true) by (destruct Hq as [<-|[<-|[]]]; reflexivity). rewrite X.
      destruct (find_from q (d ++ q :: body ++ q :: s) (S (List.length d))) as [k|]; [|discriminate]. cbn in Q. injection Q as Q. rewrite Q. f_equal. rewrite !app_length. cbn [List.length]. rewrite app_length. cbn [List.length]. lia.
  - destruct (range_step d r items false s (He eq_refl) Hr Hs) as (u & v & -> & Hv & Hu & Hi & St).
    rewrite <- (app_assoc u). apply (runs_dull u d); [exact Hu|].
    rewrite <- (app_assoc u) in St. eapply runs_next; [|exact St|].
    + rewrite !app_length. cbn [List.length]. destruct v; [congruence|]. cbn [List.length]. lia.
    + apply runs_dull; [now apply commas_dull|]. specialize (IH (d ++ commas items) ltac:(discriminate)). rewrite <- !app_assoc, app_length in IH. exact IH.
Qed.

Lemma overflow_runs d u r items s : edge (d ++ u) -> Forall dull u -> range_text r items true -> (s = [] \/ exists c x, s = c :: x /\ In c after_number) -> d = [] ->
  exists n, forall f, n <= f -> expand_loop f (d ++ u ++ r ++ s) (List.length d) = Expand_overflow.
Proof.
  intros He Hu Hr Hs ->. cbn [app List.length] in *. destruct (range_step u r items true s He Hr Hs) as (u' & v & -> & Hv & Hu' & _ & St).
  rewrite <- !app_assoc in *. set (w := u ++ u'). assert (Hw : Forall dull w) by (apply Forall_app; auto).
  assert (E : u ++ u' ++ ("."%char :: "."%char :: v) ++ s = w ++ ("."%char :: "."%char :: v) ++ s) by (unfold w; now rewrite <- app_assoc).
  rewrite E in *. clear E. replace (List.length u + List.length u') with (List.length w) in St by (unfold w; now rewrite app_length). clearbody w. clear - Hw St Hv.
  exists (S (List.length w)).
  assert (A : forall x y f, w = x ++ y -> List.length y < f -> expand_loop f (w ++ ("."%char :: "."%char :: v) ++ s) (List.length x) = Expand_overflow).
  { intros x y. revert x. induction y as [|c y IH]; intros x f Ew Hf; (destruct f; [lia|]); cbn [expand_loop].
    - rewrite app_nil_r in Ew. subst x. destruct (Nat.ltb_spec (S (List.length w)) (List.length (w ++ ("."%char :: "."%char :: v) ++ s))) as [|H]; [now rewrite St|].
      rewrite app_length in H. cbn in H. lia.
    - destruct (Nat.ltb_spec (S (List.length x)) (List.length (w ++ ("."%char :: "."%char :: v) ++ s))) as [|H].
      + rewrite dull_step.
        * specialize (IH (x ++ [c]) f). rewrite app_length in IH. cbn [List.length] in *. replace (S (List.length x)) with (List.length x + 1) by lia.
          apply IH; [now rewrite <- app_assoc|lia].
        * rewrite Ew, <- app_assoc. cbn [app]. rewrite at_here. rewrite Ew in Hw. apply Forall_app in Hw as [_ Hw]. now apply Forall_inv in Hw.
      + rewrite Ew, !app_length in H. cbn in H. lia. }
  intros f Hf. apply (A [] w); [reflexivity|lia].
Qed.
