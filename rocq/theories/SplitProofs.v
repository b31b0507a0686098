(** Proofs for C26. *)
From Coq Require Import List Bool Arith ZArith Ascii String Lia.
From Verif Require Import StrModel StrProofs NumParseSpec NumParseProofs SplitModel SplitSpec.
Import ListNotations.
Open Scope nat_scope.

(** ** Trimming *)

Lemma substr_mid (a t b : list ascii) : substr (a ++ t ++ b) (List.length a) (List.length t) = t.
Proof.
  unfold substr. rewrite skipn_app, skipn_all, Nat.sub_diag. cbn [skipn app]. rewrite firstn_app, firstn_all, Nat.sub_diag. cbn. apply app_nil_r.
Qed.

Lemma trim_spaces a : spaces a -> trim a = [].
Proof.
  intros H. unfold trim. rewrite (spaces_positions a H).
  destruct (rskipws_spec a (List.length a) (List.length a) ltac:(lia)) as (A & _). cbn zeta in A.
  destruct ((0 <? List.length a) || (rskipws a (List.length a) (List.length a) <? List.length a)) eqn:E.
  - replace (rskipws a (List.length a) (List.length a) - List.length a) with 0 by lia. reflexivity.
  - apply orb_false_iff in E as [E _]. apply Nat.ltb_ge in E. destruct a; [reflexivity|cbn in E; lia].
Qed.

Lemma trim_mid a t b : spaces a -> spaces b -> solid t -> trim (a ++ t ++ b) = t.
Proof.
  intros Ha Hb Ht. unfold trim. destruct (trim_positions a t b Ha Hb Ht) as [-> ->].
  replace (List.length a + List.length t - List.length a) with (List.length t) by lia. rewrite substr_mid.
  destruct ((0 <? List.length a) || _) eqn:E; [reflexivity|].
  apply orb_false_iff in E as [E1 E2]. apply Nat.ltb_ge in E1, E2. rewrite !app_length in E2.
  destruct a; [|cbn in E1; lia]. destruct b; [|cbn in *; lia]. cbn. apply app_nil_r.
Qed.

Lemma not_blank1 c : isspace c = false -> ~ blank [c].
Proof. intros H B. apply blank_spaces in B. inversion B; subst. congruence. Qed.
Lemma not_blank1' c : ~ blank [c] -> isspace c = false.
Proof. intros H. destruct (isspace c) eqn:E; auto. exfalso. apply H. apply blank_spaces. constructor; auto. Qed.

Lemma solid_iff t : solid t <-> t <> [] /\ (forall c r, t = c :: r -> ~ blank [c]) /\ (forall c r, t = r ++ [c] -> ~ blank [c]).
Proof.
  split.
  - intros (H & H0 & H1). split; [exact H|]. split.
    + intros c r ->. now apply not_blank1.
    + intros c r ->. apply not_blank1. rewrite app_length in H1. cbn in H1.
      replace (List.length r + 1 - 1) with (List.length r + 0) in H1 by lia. rewrite at_app2 in H1. exact H1.
  - intros (H & H0 & H1). split; [exact H|]. split.
    + destruct t as [|c r]; [congruence|]. apply not_blank1'. eapply H0. reflexivity.
    + destruct (exists_last H) as (r & c & ->). rewrite app_length. cbn.
      replace (List.length r + 1 - 1) with (List.length r + 0) by lia. rewrite at_app2. apply not_blank1'. eapply H1. reflexivity.
Qed.

Lemma trimmed_iff s t : trimmed s t <-> t = trim s.
Proof.
  split.
  - intros ((a & b & -> & Ha & Hb) & H0 & H1). apply blank_spaces in Ha, Hb.
    destruct t as [|c r].
    + symmetry. apply trim_spaces. cbn. now apply Forall_app.
    + symmetry. apply trim_mid; auto. apply solid_iff. split; [discriminate|]. auto.
  - intros ->. destruct (space_split s) as [H|(a & t & b & -> & Ha & Hb & Ht)].
    + rewrite (trim_spaces s H). split.
      * exists s, []. rewrite app_nil_r. cbn. split; auto. split; [now apply blank_spaces|constructor].
      * split; [intros; discriminate|]. intros c r E. destruct r; discriminate.
    + rewrite (trim_mid a t b Ha Hb Ht). apply solid_iff in Ht. split; [|tauto].
      exists a, b. split; auto. split; now apply blank_spaces.
Qed.

Lemma trim_lead a s : spaces a -> trim (a ++ s) = trim s.
Proof.
  intros Ha. destruct (space_split s) as [H|(x & t & y & -> & Hx & Hy & Ht)].
  - rewrite !trim_spaces; auto. now apply Forall_app.
  - rewrite (trim_mid x t y Hx Hy Ht), app_assoc. apply trim_mid; auto. now apply Forall_app.
Qed.

(** ** The scanner, on tokens *)
Definition zero_counts : counts := {| npar := 0; nbracket := 0; nbrace := 0 |}.
Definition is_zero (n : counts) : bool := ((npar n =? 0) && (nbracket n =? 0) && (nbrace n =? 0))%Z.

Fixpoint run (ts cur : list tok) (n : counts) : option (list (list tok)) :=
  match ts with
  | [] => if is_zero n then Some [cur] else None
  | quoted q b :: r => run r (cur ++ [quoted q b]) n
  | plain c :: r => match count_char c n with
                    | None => None
                    | Some m => if splits c n then option_map (cons cur) (run r [] m) else run r (cur ++ [plain c]) m
                    end
  end.

Lemma text_app a b : text (a ++ b) = text a ++ text b.
Proof. apply flat_map_app. Qed.

Lemma is_quote_true c : is_quote c = true <-> In c ["'"; """"]%char.
Proof.
  unfold is_quote. rewrite orb_true_iff, !Ascii.eqb_eq. cbn. intuition.
Qed.

Lemma find_from_eq c s pos k : pos <= k < List.length s -> at_ s k = c -> (forall j, pos <= j < k -> at_ s j <> c) -> find_from c s pos = Some k.
Proof.
  intros H1 H2 H3. pose proof (find_from_spec c s pos) as H. destruct (find_from c s pos) as [i|].
  - destruct H as (A & B & C). f_equal. destruct (Nat.lt_trichotomy i k) as [L|[L|L]]; auto.
    + exfalso. apply (H3 i); auto. lia.
    + exfalso. apply (C k); auto. lia.
  - exfalso. apply (H k); auto.
Qed.

Lemma skip_quoted_tok (a : list ascii) q b r : ~ In q b ->
  skip_quoted (a ++ (q :: b ++ [q]) ++ r) (List.length a) = Some (List.length a + List.length (q :: b ++ [q])).
Proof.
  intros Hb. unfold skip_quoted.
  assert (E : at_ (a ++ (q :: b ++ [q]) ++ r) (List.length a) = q).
  { replace (List.length a) with (List.length a + 0) at 1 by lia. rewrite at_app2. reflexivity. }
  rewrite E. rewrite (find_from_eq q _ _ (List.length a + S (List.length b))).
  - cbn [option_map]. f_equal. cbn. rewrite app_length. cbn. lia.
  - rewrite !app_length. cbn. rewrite app_length. cbn. lia.
  - rewrite at_app2. cbn [app]. unfold at_. cbn [nth]. rewrite <- app_assoc, app_nth2 by lia. rewrite Nat.sub_diag. reflexivity.
  - intros j Hj Ej. apply Hb. replace j with (List.length a + S (j - S (List.length a))) in Ej by lia.
    rewrite at_app2 in Ej. unfold at_ in Ej. cbn [app nth] in Ej. rewrite <- app_assoc, app_nth1 in Ej by lia.
    rewrite <- Ej. apply nth_In. lia.
Qed.

Lemma vsubstr_text a t r : vsubstr (a ++ t ++ r) (List.length a) (List.length a + List.length t) = trim t.
Proof.
  unfold vsubstr. replace (List.length a + List.length t - List.length a) with (List.length t) by lia. now rewrite substr_mid.
Qed.

Lemma is_zero_neg n : negb (npar n =? 0)%Z || negb (nbracket n =? 0)%Z || negb (nbrace n =? 0)%Z = negb (is_zero n).
Proof. unfold is_zero. now rewrite !negb_andb. Qed.

Lemma loop_run e : is_quote e = false -> forall ts, Forall good_tok ts -> forall fuel a cur n acc v, 
  v = a ++ text cur ++ text ts ++ [e] -> List.length (text ts) < fuel ->
  split_loop fuel v (List.length a + List.length (text cur) + List.length (text ts)) (List.length a + List.length (text cur)) (List.length a) n acc
  = option_map (fun es => acc ++ map (fun t => trim (text t)) es) (run ts cur n).
Proof.
  intros He. induction ts as [|t ts IH]; intros Hg fuel a cur n acc v Ev Hf.
  - destruct fuel; [lia|]. cbn [split_loop run text flat_map List.length]. rewrite Nat.add_0_r, Nat.ltb_irrefl.
    rewrite is_zero_neg. destruct (is_zero n); cbn [negb option_map]; [|reflexivity].
    rewrite Ev. cbn [text flat_map app]. rewrite vsubstr_text. reflexivity.
  - apply Forall_cons_iff in Hg as [Ht Hg]. specialize (IH Hg).
    assert (Et : text (t :: ts) = tok_text t ++ text ts) by reflexivity. rewrite Et in *. rewrite app_length in *.
    assert (Hpos : 0 < List.length (tok_text t)) by (destruct t; cbn; lia).
    destruct fuel; [lia|]. cbn [split_loop].
    destruct (Nat.ltb_spec (List.length a + List.length (text cur)) (List.length a + List.length (text cur) + (List.length (tok_text t) + List.length (text ts)))); [|lia].
    assert (Ev' : v = (a ++ text cur) ++ tok_text t ++ (text ts ++ [e])) by (rewrite Ev, <- !app_assoc; reflexivity).
    assert (Ehd : forall c x, tok_text t = c :: x -> at_ v (List.length a + List.length (text cur)) = c).
    { intros c x E. rewrite Ev', E. rewrite <- app_length. replace (List.length (a ++ text cur)) with (List.length (a ++ text cur) + 0) by lia. rewrite at_app2. reflexivity. }
    destruct t as [c|q b].
    + rewrite (Ehd c [] eq_refl). cbn [good_tok] in Ht.
      assert (is_quote c = false) as -> by (destruct (is_quote c) eqn:E; auto; apply is_quote_true in E; cbn in E; intuition congruence).
      cbn [run]. destruct (count_char c n) as [m|]; [|reflexivity]. cbn [tok_text List.length] in *.
      destruct (splits c n).
      * specialize (IH fuel (a ++ text cur ++ [c]) [] m (acc ++ [vsubstr v (List.length a) (List.length a + List.length (text cur))]) v).
        rewrite !app_length in IH. cbn [text flat_map List.length app] in IH.
        replace (List.length a + List.length (text cur) + (1 + List.length (text ts))) with (List.length a + (List.length (text cur) + 1) + 0 + List.length (text ts)) by lia.
        replace (List.length a + List.length (text cur) + 1) with (List.length a + (List.length (text cur) + 1)) at 2 by lia.
        replace (List.length a + List.length (text cur) + 1) with (List.length a + (List.length (text cur) + 1) + 0) by lia.
        fold (text ts) in IH. fold (text cur) in IH. rewrite IH; [|rewrite Ev, <- !app_assoc; reflexivity|lia].
        destruct (run ts [] m) as [es|]; cbn [option_map]; [|reflexivity]. f_equal. cbn [map].
        rewrite <- app_assoc. cbn [app]. do 2 f_equal. rewrite Ev. apply vsubstr_text.
      * specialize (IH fuel a (cur ++ [plain c]) m acc v). rewrite text_app, app_length in IH. cbn [text flat_map tok_text List.length app] in IH. fold (text ts) in IH. fold (text cur) in IH.
        replace (List.length a + List.length (text cur) + (1 + List.length (text ts))) with (List.length a + (List.length (text cur) + 1) + List.length (text ts)) by lia.
        replace (List.length a + List.length (text cur) + 1) with (List.length a + (List.length (text cur) + 1)) by lia.
        apply IH; [rewrite Ev, <- !app_assoc; reflexivity|lia].
    + cbn [good_tok] in Ht. destruct Ht as [Hq Hb]. rewrite (Ehd q (b ++ [q]) eq_refl).
      assert (is_quote q = true) as -> by now apply is_quote_true.
      rewrite <- app_length. rewrite Ev' at 1. cbn [tok_text]. rewrite skip_quoted_tok by exact Hb.
      specialize (IH fuel a (cur ++ [quoted q b]) n acc v). rewrite text_app, app_length in IH.
      assert (E1 : text [quoted q b] = q :: b ++ [q]) by (cbn; now rewrite app_nil_r). rewrite E1 in IH. cbn [tok_text] in *.
      rewrite app_length. cbn [run].
      replace (List.length a + List.length (text cur) + (List.length (q :: b ++ [q]) + List.length (text ts))) with (List.length a + (List.length (text cur) + List.length (q :: b ++ [q])) + List.length (text ts)) by lia.
      replace (List.length a + List.length (text cur) + List.length (q :: b ++ [q])) with (List.length a + (List.length (text cur) + List.length (q :: b ++ [q]))) by lia.
      apply IH; [rewrite Ev, <- !app_assoc; reflexivity|lia].
Qed.

(** A text that is accepted consists of tokens. *)
Lemma loop_toks e : is_quote e = false -> forall fuel pre rest st n acc r v, 
  v = pre ++ rest ++ [e] -> split_loop fuel v (List.length pre + List.length rest) (List.length pre) st n acc = Some r ->
  exists ts, Forall good_tok ts /\ text ts = rest.
Proof.
  intros He. induction fuel as [|fuel IH]; intros pre rest st n acc r v Ev H; [discriminate|]. cbn [split_loop] in H.
  destruct rest as [|c rest]; [exists []; split; [constructor|reflexivity]|].
  destruct (Nat.ltb_spec (List.length pre) (List.length pre + List.length (c :: rest))) as [_|L]; [|cbn in L; lia].
  assert (Ec : at_ v (List.length pre) = c).
  { rewrite Ev. replace (List.length pre) with (List.length pre + 0) by lia. rewrite at_app2. reflexivity. }
  rewrite Ec in H. destruct (is_quote c) eqn:Eq.
  - destruct (skip_quoted v (List.length pre)) as [j|] eqn:Ej; [|discriminate].
    unfold skip_quoted in Ej. rewrite Ec in Ej. pose proof (find_from_spec c v (S (List.length pre))) as F.
    destruct (find_from c v (S (List.length pre))) as [k|]; [|discriminate]. cbn in Ej. assert (j = S k) as -> by congruence. clear Ej.
    destruct F as (F1 & F2 & F3). rewrite Ev in F1. rewrite !app_length in F1. cbn [List.length] in F1.
    assert (Hk : k < List.length pre + List.length (c :: rest)).
    { destruct (Nat.lt_ge_cases k (List.length pre + List.length (c :: rest))) as [L|L]; [exact L|]. exfalso. cbn [List.length] in L.
      assert (k = List.length pre + List.length (c :: rest)) by (cbn [List.length]; lia). subst k.
      rewrite Ev, app_assoc, <- app_length in F2. replace (List.length (pre ++ c :: rest)) with (List.length (pre ++ c :: rest) + 0) in F2 by lia.
      rewrite at_app2 in F2. cbn in F2. subst e. congruence. }
    set (m := k - S (List.length pre)).
    assert (Er : rest = firstn m rest ++ c :: skipn (S m) rest).
    { rewrite <- (firstn_skipn m rest) at 1. f_equal. rewrite skipn_at by (cbn in Hk; unfold m; lia). f_equal.
      rewrite <- F2, Ev. replace k with (List.length pre + S m) by (unfold m; lia). rewrite at_app2. unfold at_. cbn [app nth].
      rewrite app_nth1; [reflexivity|cbn in Hk; unfold m; lia]. }
    assert (Hlen : List.length (firstn m rest) = m) by (rewrite firstn_length; cbn in Hk; unfold m in *; lia).
    specialize (IH (pre ++ c :: firstn m rest ++ [c]) (skipn (S m) rest) st n acc r v).
    destruct IH as (ts & Hg & Ht).
    + rewrite Ev. rewrite Er at 1. rewrite <- !app_assoc. cbn [app]. rewrite <- !app_assoc. reflexivity.
    + replace (List.length (pre ++ c :: firstn m rest ++ [c])) with (S k); [|rewrite app_length; cbn; rewrite app_length, Hlen; cbn; unfold m; lia].
      replace (S k + List.length (skipn (S m) rest)) with (List.length pre + List.length (c :: rest)); [exact H|].
      cbn [List.length] in *. rewrite skipn_length. unfold m. lia.
    + exists (quoted c (firstn m rest) :: ts). split.
      * constructor; [|exact Hg]. cbn. split; [now apply is_quote_true|]. intros Hin. destruct (In_nth _ _ zero Hin) as (i & Hi & Ei). rewrite Hlen in Hi.
        apply (F3 (List.length pre + S i)); [unfold m in Hi; lia|]. rewrite Ev, at_app2. unfold at_. cbn [app nth].
        rewrite <- Ei. rewrite app_nth1 by (cbn in Hk; unfold m in Hi; lia). rewrite Er at 1. rewrite app_nth1 by lia. reflexivity.
      * change (text (quoted c (firstn m rest) :: ts)) with ((c :: firstn m rest ++ [c]) ++ text ts). rewrite Ht.
        cbn [app]. f_equal. rewrite <- app_assoc. cbn [app]. symmetry. exact Er.
  - destruct (count_char c n) as [m|]; [|discriminate].
    assert (X : exists st' acc', split_loop fuel v (List.length pre + List.length (c :: rest)) (List.length pre + 1) st' m acc' = Some r).
    { destruct (splits c n); eauto. }
    destruct X as (st' & acc' & X). specialize (IH (pre ++ [c]) rest st' m acc' r v).
    destruct IH as (ts & Hg & Ht).
    + rewrite Ev, <- app_assoc. reflexivity.
    + rewrite app_length. cbn [List.length] in *. replace (List.length pre + 1 + List.length rest) with (List.length pre + S (List.length rest)) by lia. exact X.
    + exists (plain c :: ts). split; [|cbn; now rewrite <- Ht]. constructor; auto. cbn.
      split; intros ->; vm_compute in Eq; discriminate.
Qed.

Lemma loop_st v last : forall fuel i st st' n acc, (forall j, i <= j -> vsubstr v st j = vsubstr v st' j) -> i <= last ->
  split_loop fuel v last i st n acc = split_loop fuel v last i st' n acc.
Proof.
  induction fuel; intros i st st' n acc H Hi; [reflexivity|]. cbn [split_loop]. destruct (Nat.ltb_spec i last).
  - destruct (is_quote (at_ v i)).
    + destruct (skip_quoted v i) as [j|] eqn:E; [|reflexivity].
      unfold skip_quoted in E. pose proof (find_from_spec (at_ v i) v (S i)) as F. destruct (find_from (at_ v i) v (S i)) as [k|]; [|discriminate].
      cbn in E. assert (j = S k) as -> by congruence.
      destruct (Nat.le_gt_cases (S k) last).
      * apply IHfuel; [|lia]. intros j Hj. apply H. lia.
      * destruct fuel; [reflexivity|]. cbn [split_loop]. destruct (Nat.ltb_spec (S k) last); [lia|]. rewrite (H last) by lia. reflexivity.
    + destruct (count_char (at_ v i) n); [|reflexivity]. destruct (splits (at_ v i) n).
      * rewrite (H i) by lia. reflexivity.
      * apply IHfuel; [|lia]. intros j Hj. apply H. lia.
  - rewrite (H last) by lia. reflexivity.
Qed.

(** ** The scanner finds the elements *)
Definition counts_of (ts : list tok) : counts := {| npar := par ts; nbracket := bracket ts; nbrace := brace ts |}.

Lemma depth_app o c a b : depth o c (a ++ b) = (depth o c a + depth o c b)%Z.
Proof. unfold depth. induction a as [|t a IH]; cbn; lia. Qed.

Definition nonneg (n : counts) : Prop := (0 <= npar n /\ 0 <= nbracket n /\ 0 <= nbrace n)%Z.

Lemma count_char_spec c cur m : count_char c (counts_of cur) = Some m <->
  m = counts_of (cur ++ [plain c]) /\ nonneg m /\ (In c ["["; "{"]%char -> par cur = 0%Z).
Proof.
  unfold counts_of, par, bracket, brace. rewrite !depth_app.
  set (p := depth "(" ")" cur). set (b := depth "[" "]" cur). set (k := depth "{" "}" cur).
  unfold count_char. cbn [npar nbracket nbrace depth fold_right depth1].
  assert (X : forall x y z : Z, (if (npar {| npar := x; nbracket := y; nbrace := z |} <? 0)%Z || (nbracket {| npar := x; nbracket := y; nbrace := z |} <? 0)%Z || (nbrace {| npar := x; nbracket := y; nbrace := z |} <? 0)%Z then None else Some {| npar := x; nbracket := y; nbrace := z |}) = Some m <-> m = {| npar := x; nbracket := y; nbrace := z |} /\ nonneg m).
  { intros x y z. cbn [npar nbracket nbrace]. unfold nonneg. destruct (Z.ltb_spec x 0), (Z.ltb_spec y 0), (Z.ltb_spec z 0); cbn [orb]; split; try discriminate;
    try (intros [= <-]; cbn [npar nbracket nbrace]; split; [reflexivity|lia]); intros [-> N]; cbn [npar nbracket nbrace] in N; try lia; reflexivity. }
  destruct (Ascii.eqb_spec c "("); [subst; rewrite X; cbn [Ascii.eqb Bool.eqb]; rewrite !Z.add_0_r; cbn; intuition discriminate|].
  destruct (Ascii.eqb_spec c ")"); [subst; rewrite X; cbn [Ascii.eqb Bool.eqb]; rewrite !Z.add_0_r; cbn; intuition discriminate|].
  destruct (Ascii.eqb_spec c "[").
  { subst. destruct (Z.eqb_spec p 0); cbn [negb].
    - rewrite X; cbn [Ascii.eqb Bool.eqb]; rewrite !Z.add_0_r; cbn; intuition.
    - split; [discriminate|]. intros (_ & _ & H). exfalso. apply n1. apply H. cbn. auto. }
  destruct (Ascii.eqb_spec c "]"); [subst; rewrite X; cbn [Ascii.eqb Bool.eqb]; rewrite !Z.add_0_r; cbn; intuition discriminate|].
  destruct (Ascii.eqb_spec c "{").
  { subst. destruct (Z.eqb_spec p 0); cbn [negb].
    - rewrite X; cbn [Ascii.eqb Bool.eqb]; rewrite !Z.add_0_r; cbn; intuition.
    - split; [discriminate|]. intros (_ & _ & H). exfalso. apply n3. apply H. cbn. auto. }
  destruct (Ascii.eqb_spec c "}"); [subst; rewrite X; cbn [Ascii.eqb Bool.eqb]; rewrite !Z.add_0_r; cbn; intuition discriminate|].
  rewrite X. rewrite !Z.add_0_r. cbn. intuition congruence.
Qed.

Record okp (ts : list tok) : Prop := {
  ok_pre : forall a b, ts = a ++ b -> nonneg (counts_of a);
  ok_open : forall a c b, ts = a ++ plain c :: b -> In c ["["; "{"]%char -> par a = 0%Z;
  ok_comma : forall a b, ts = a ++ plain ","%char :: b -> (0 < par a + bracket a + brace a)%Z
}.

Lemma okp_nil : okp [].
Proof.
  constructor.
  - intros a b E. symmetry in E. apply app_eq_nil in E as [-> _]. cbv. repeat split; discriminate.
  - intros a c b E. destruct a; discriminate.
  - intros a b E. destruct a; discriminate.
Qed.

Lemma okp_prefix a b : okp (a ++ b) -> okp a.
Proof.
  intros [H1 H2 H3]. constructor.
  - intros x y ->. apply (H1 x (y ++ b)). now rewrite <- app_assoc.
  - intros x c y -> . apply (H2 x c (y ++ b)). now rewrite <- app_assoc.
  - intros x y ->. apply (H3 x (y ++ b)). now rewrite <- app_assoc.
Qed.

Lemma snoc_cases {A} (l : list A) t a b : l ++ [t] = a ++ b -> (b = [] /\ a = l ++ [t]) \/ exists b', b = b' ++ [t] /\ l = a ++ b'.
Proof.
  intros E. destruct b as [|x b].
  - left. rewrite app_nil_r in E. auto.
  - right. destruct (exists_last (l := x :: b) ltac:(discriminate)) as (b' & y & Eb). rewrite Eb in *.
    rewrite app_assoc in E. apply app_inj_tail in E as [-> ->]. eauto.
Qed.

Lemma okp_snoc cur t : okp cur -> nonneg (counts_of (cur ++ [t])) ->
  (forall c, t = plain c -> In c ["["; "{"]%char -> par cur = 0%Z) ->
  (t = plain ","%char -> (0 < par cur + bracket cur + brace cur)%Z) -> okp (cur ++ [t]).
Proof.
  intros [H1 H2 H3] Hn Ho Hc. constructor.
  - intros a b E. apply snoc_cases in E as [[_ ->]|(b' & _ & ->)]; [exact Hn|]. now apply (H1 a b').
  - intros a c b E. apply snoc_cases in E as [[E _]|(b' & Eb & ->)]; [discriminate|]. destruct b' as [|y b']; cbn in Eb.
    + rewrite app_nil_r in *. assert (t = plain c) by congruence. now apply Ho.
    + apply (H2 a c b'). congruence.
  - intros a b E. apply snoc_cases in E as [[E _]|(b' & Eb & ->)]; [discriminate|]. destruct b' as [|y b']; cbn in Eb.
    + rewrite app_nil_r in *. assert (t = plain ",") by congruence. now apply Hc.
    + apply (H3 a b'). congruence.
Qed.

Definition elt (ts : list tok) : Prop := okp ts /\ counts_of ts = zero_counts.

Lemma is_zero_iff n : is_zero n = true <-> n = zero_counts.
Proof.
  unfold is_zero, zero_counts. destruct n as [p b k]. cbn. rewrite !andb_true_iff, !Z.eqb_eq. split.
  - intros [[-> ->] ->]. reflexivity.
  - intros [= -> -> ->]. auto.
Qed.

Lemma counts_quoted cur q b : counts_of (cur ++ [quoted q b]) = counts_of cur.
Proof. unfold counts_of, par, bracket, brace. rewrite !depth_app. cbn. now rewrite !Z.add_0_r. Qed.
Lemma counts_comma cur : counts_of (cur ++ [plain ","%char]) = counts_of cur.
Proof. unfold counts_of, par, bracket, brace. rewrite !depth_app. cbn. now rewrite !Z.add_0_r. Qed.

Lemma join_cons e es : es <> [] -> join (e :: es) = e ++ plain ","%char :: join es.
Proof. destruct es; [congruence|reflexivity]. Qed.

Lemma run_sound : forall ts cur es, okp cur -> run ts cur (counts_of cur) = Some es ->
  es <> [] /\ join es = cur ++ ts /\ Forall elt es.
Proof.
  induction ts as [|t ts IH]; intros cur es Hc H; cbn [run] in H.
  - destruct (is_zero (counts_of cur)) eqn:E; [|discriminate]. assert (es = [cur]) as -> by congruence.
    apply is_zero_iff in E. split; [discriminate|]. split; [cbn; now rewrite app_nil_r|]. constructor; [split; auto|constructor].
  - destruct t as [c|q b].
    + destruct (count_char c (counts_of cur)) as [m|] eqn:E; [|discriminate]. apply count_char_spec in E as (-> & Hn & Ho).
      destruct (splits c (counts_of cur)) eqn:Es.
      * unfold splits in Es. apply andb_true_iff in Es as [E1 E2]. apply Ascii.eqb_eq in E1. subst c. apply Z.eqb_eq in E2.
        rewrite counts_comma in *. unfold nonneg in Hn.
        assert (Z0 : counts_of cur = zero_counts) by (destruct (counts_of cur) as [p b k]; cbn in *; unfold zero_counts; f_equal; lia).
        destruct (run ts [] (counts_of cur)) as [es'|] eqn:Er; [|discriminate]. cbn in H. assert (es = cur :: es') as -> by congruence.
        assert (Z1 : counts_of cur = counts_of []) by (rewrite Z0; reflexivity). rewrite Z1 in Er.
        destruct (IH [] es' okp_nil Er) as (N & J & F). split; [discriminate|]. split.
        -- rewrite join_cons by exact N. now rewrite J.
        -- constructor; [split; auto|exact F].
      * destruct (IH (cur ++ [plain c]) es) as (N & J & F); [|exact H|].
        -- apply okp_snoc; auto.
           ++ intros c' [= <-]. exact Ho.
           ++ intros [= ->]. unfold splits in Es. rewrite Ascii.eqb_refl in Es. cbn [andb] in Es. apply Z.eqb_neq in Es.
              rewrite counts_comma in Hn. unfold nonneg in Hn. cbn in *. lia.
        -- split; auto. split; auto. rewrite J, <- app_assoc. reflexivity.
    + destruct (IH (cur ++ [quoted q b]) es) as (N & J & F).
      * apply okp_snoc; auto; try discriminate. rewrite counts_quoted. apply (ok_pre cur Hc cur []). now rewrite app_nil_r.
      * now rewrite counts_quoted.
      * split; auto. split; auto. rewrite J, <- app_assoc. reflexivity.
Qed.

Lemma run_through : forall e2 e1 rest, okp (e1 ++ e2) -> run (e2 ++ rest) e1 (counts_of e1) = run rest (e1 ++ e2) (counts_of (e1 ++ e2)).
Proof.
  induction e2 as [|t e2 IH]; intros e1 rest H; [now rewrite app_nil_r|]. cbn [app run].
  assert (E : e1 ++ t :: e2 = (e1 ++ [t]) ++ e2) by now rewrite <- app_assoc. destruct t as [c|q b].
  - assert (C : count_char c (counts_of e1) = Some (counts_of (e1 ++ [plain c]))).
    { apply count_char_spec. split; [reflexivity|]. split.
      - apply (ok_pre _ H (e1 ++ [plain c]) e2). now rewrite E.
      - intros Hi. now apply (ok_open _ H e1 c e2). }
    rewrite C. assert (splits c (counts_of e1) = false) as ->.
    { unfold splits. destruct (Ascii.eqb_spec c ","); [|reflexivity]. subst c. cbn [andb]. apply Z.eqb_neq. pose proof (ok_comma _ H e1 e2 eq_refl). cbn. lia. }
    rewrite E in *. now apply IH.
  - rewrite E in *. rewrite <- (counts_quoted e1 q b). now apply IH.
Qed.

Lemma run_complete : forall es, es <> [] -> Forall elt es -> run (join es) [] zero_counts = Some es.
Proof.
  induction es as [|e es IH]; intros N F; [congruence|]. apply Forall_cons_iff in F as [[Ho Hz] F].
  change zero_counts with (counts_of []). destruct es as [|e' es].
  - cbn [join]. rewrite <- (app_nil_r e) at 1. rewrite run_through by exact Ho. cbn [app run]. rewrite Hz. reflexivity.
  - rewrite join_cons by discriminate. rewrite run_through by exact Ho. cbn [app run].
    assert (count_char "," (counts_of e) = Some (counts_of e)) as -> by (rewrite Hz; reflexivity).
    assert (splits "," (counts_of e) = true) as -> by (rewrite Hz; reflexivity).
    rewrite Hz, IH; [reflexivity|discriminate|exact F].
Qed.

Lemma join_good es : Forall good_tok (join es) <-> Forall (Forall good_tok) es.
Proof.
  induction es as [|e es IH]; [split; constructor|]. destruct es as [|e' es].
  - cbn [join]. split; [intros H; constructor; [exact H|constructor]|]. intros H. now apply Forall_cons_iff in H as [H _].
  - rewrite join_cons by discriminate. rewrite Forall_app, !Forall_cons_iff, IH, Forall_cons_iff. cbn. intuition discriminate.
Qed.

Lemma element_iff ts : element ts <-> Forall good_tok ts /\ elt ts.
Proof.
  split.
  - intros [H1 (E1 & E2 & E3) H3 H4 H5]. split; [exact H1|]. split; [constructor; auto|]. unfold counts_of, zero_counts. congruence.
  - intros (H1 & [A B C] & E). unfold counts_of, zero_counts in E. injection E as E1 E2 E3. constructor; auto.
Qed.

(** ** Tokens of blanks *)
Lemma toks_blanks : forall sp u ts, spaces sp -> Forall good_tok ts -> text ts = sp ++ u ->
  exists ts', ts = map plain sp ++ ts' /\ Forall good_tok ts' /\ text ts' = u.
Proof.
  induction sp as [|c sp IH]; intros u ts Hs Hg Et; [exists ts; auto|]. apply Forall_cons_iff in Hs as [Hc Hs].
  destruct ts as [|t ts]; [discriminate|]. apply Forall_cons_iff in Hg as [Ht Hg]. destruct t as [x|q b].
  - cbn in Et. injection Et as -> Et. destruct (IH u ts Hs Hg Et) as (ts' & -> & G & E). exists ts'. auto.
  - cbn in Et. injection Et as -> Et. destruct Ht as [Ht _]. cbn in Ht. exfalso. destruct Ht as [<-|[<-|[]]]; discriminate.
Qed.

Lemma blanks_good sp : spaces sp -> Forall good_tok (map plain sp).
Proof.
  intros H. apply Forall_forall. intros t Ht. apply in_map_iff in Ht as (c & <- & Hc). unfold spaces in H. rewrite Forall_forall in H. specialize (H c Hc).
  cbn. split; intros ->; discriminate.
Qed.

Lemma text_plain sp : text (map plain sp) = sp.
Proof. induction sp; cbn; [reflexivity|now f_equal]. Qed.

Lemma run_blanks : forall sp ts cur, spaces sp -> nonneg (counts_of cur) ->
  run (map plain sp ++ ts) cur (counts_of cur) = run ts (cur ++ map plain sp) (counts_of cur).
Proof.
  induction sp as [|c sp IH]; intros ts cur H Hn; cbn [map app run]; [now rewrite app_nil_r|].
  apply Forall_cons_iff in H as [Hc H].
  assert (K : counts_of (cur ++ [plain c]) = counts_of cur).
  { unfold counts_of, par, bracket, brace. rewrite !depth_app. cbn [depth fold_right depth1].
    destruct c as [[] [] [] [] [] [] [] []]; try discriminate Hc; cbn [Ascii.eqb Bool.eqb]; now rewrite !Z.add_0_r. }
  assert (C : count_char c (counts_of cur) = Some (counts_of cur)).
  { apply count_char_spec. split; [congruence|]. split; [exact Hn|]. intros [<-|[<-|[]]]; discriminate. }
  rewrite C. assert (splits c (counts_of cur) = false) as -> by (unfold splits; destruct (Ascii.eqb_spec c ","); [subst; discriminate|reflexivity]).
  rewrite <- K. rewrite IH; [|exact H|now rewrite K]. rewrite K, <- app_assoc. reflexivity.
Qed.

(** ** splitValue *)
Definition ends_ok (o e : ascii) : Prop := is_quote e = false.

Lemma split_blanks u o e : spaces u -> split_value (o :: u ++ [e]) 1 (S (List.length u)) = Some [].
Proof.
  intros H. unfold split_value. rewrite (lskipws_unique _ 1 (S (List.length u)) (S (List.length u))); [now rewrite Nat.eqb_refl|lia| |lia].
  intros i Hi. destruct i; [lia|]. unfold at_. cbn [nth]. rewrite app_nth1 by lia. apply (at_space u i H). lia.
Qed.

Lemma lead_split (u : list ascii) : ~ spaces u -> exists sp c w, u = sp ++ c :: w /\ spaces sp /\ isspace c = false.
Proof.
  induction u as [|c u IH]; intros H; [exfalso; apply H; constructor|]. destruct (isspace c) eqn:E.
  - destruct IH as (sp & d & w & -> & Hs & Hd); [intros X; apply H; constructor; auto|]. exists (c :: sp), d, w. split; [reflexivity|]. split; auto. constructor; auto.
  - exists [], c, u. split; [reflexivity|]. split; [constructor|exact E].
Qed.

Lemma split_value_iff o u e r : is_quote e = false ->
  split_value (o :: u ++ [e]) 1 (S (List.length u)) = Some r <-> elements u r.
Proof.
  intros He. assert (D : spaces u \/ ~ spaces u) by (destruct (Forall_dec (fun c => isspace c = true) (fun c => bool_dec (isspace c) true) u); auto).
  destruct D as [Hs|Hs].
  - rewrite (split_blanks u o e Hs). unfold elements. rewrite blank_spaces. split.
    + intros [= <-]. auto.
    + intros [[_ ->]|[H _]]; [reflexivity|contradiction].
  - destruct (lead_split u Hs) as (sp & c & w & Eu & Hsp & Hc). set (v := o :: u ++ [e]).
    assert (Ev : v = ([o] ++ sp) ++ (c :: w) ++ [e]) by (unfold v; rewrite Eu, <- !app_assoc; reflexivity).
    assert (L : lskipws v 1 (S (List.length u)) = S (List.length sp)).
    { apply lskipws_unique.
      - rewrite Eu, app_length. cbn. lia.
      - intros i Hi. rewrite Ev, at_app1 by (rewrite app_length; cbn; lia). destruct i; [lia|]. apply (at_space sp i Hsp). lia.
      - intros _. rewrite Ev. replace (S (List.length sp)) with (List.length ([o] ++ sp) + 0) by (cbn; lia). rewrite at_app2. exact Hc. }
    unfold split_value. rewrite L. destruct (Nat.eqb_spec (S (List.length sp)) (S (List.length u))) as [X|_].
    { exfalso. rewrite Eu, app_length in X. cbn in X. lia. }
    set (n0 := {| npar := 0; nbracket := 0; nbrace := 0 |}).
    assert (St : split_loop (S (S (List.length u) - S (List.length sp))) v (S (List.length u)) (S (List.length sp)) (S (List.length sp)) n0 []
      = split_loop (S (S (List.length u) - S (List.length sp))) v (S (List.length u)) (S (List.length sp)) 1 n0 []).
    { apply loop_st; [|rewrite Eu, app_length; cbn; lia]. intros j Hj. unfold vsubstr, substr. 
      assert (E1 : skipn 1 v = sp ++ skipn (S (List.length sp)) v).
      { rewrite Ev. cbn [app skipn]. rewrite skipn_app, skipn_all, Nat.sub_diag. reflexivity. }
      rewrite E1. rewrite firstn_app. rewrite (firstn_all2 (n := j - 1) sp) by lia. rewrite trim_lead by exact Hsp. f_equal. replace (j - 1 - List.length sp) with (j - S (List.length sp)) by lia. reflexivity. }
    rewrite St. clear St.
    assert (Lr : forall ts, Forall good_tok ts -> text ts = c :: w ->
      split_loop (S (S (List.length u) - S (List.length sp))) v (S (List.length u)) (S (List.length sp)) 1 n0 []
      = option_map (map (fun t => trim (text t))) (run (map plain sp ++ ts) [] n0)).
    { intros ts Hg Ht. pose proof (loop_run e He ts Hg (S (S (List.length u) - S (List.length sp))) [o] (map plain sp) n0 [] v) as LR.
      rewrite text_plain in LR. rewrite Ht in LR. cbn [List.length app] in LR.
      replace (S (List.length u)) with (1 + List.length sp + S (List.length w)) by (rewrite Eu, app_length; cbn; lia).
      replace (S (List.length u)) with (1 + List.length sp + S (List.length w)) in LR by (rewrite Eu, app_length; cbn; lia).
      refine (eq_trans (LR _ _) _); [rewrite Ev; rewrite <- !app_assoc; reflexivity|lia|].
      change n0 with (counts_of []). rewrite run_blanks; [reflexivity|exact Hsp|]. cbv. repeat split; discriminate. }
    split.
    + intros H. right. split; [rewrite blank_spaces; exact Hs|].
      destruct (loop_toks e He (S (S (List.length u) - S (List.length sp))) ([o] ++ sp) (c :: w) 1 n0 [] r v Ev) as (ts & Hg & Ht).
      { replace (List.length ([o] ++ sp) + List.length (c :: w)) with (S (List.length u)) by (rewrite Eu, !app_length; cbn; lia). exact H. }
      rewrite (Lr ts Hg Ht) in H. destruct (run (map plain sp ++ ts) [] n0) as [es|] eqn:Er; [|discriminate]. cbn [option_map] in H.
      assert (r = map (fun t => trim (text t)) es) as -> by congruence. clear H.
      change n0 with (counts_of []) in Er. destruct (run_sound _ [] es okp_nil Er) as (N & J & F). exists es. split; [exact N|].
      cbn [app] in J. split; [rewrite J, text_app, text_plain, Ht; now rewrite Eu|]. split.
      * assert (G : Forall (Forall good_tok) es) by (apply join_good; rewrite J; apply Forall_app; split; [now apply blanks_good|exact Hg]).
        rewrite Forall_forall in *. intros x Hx. apply element_iff. auto.
      * clear. induction es; cbn; constructor; auto. now apply trimmed_iff.
    + unfold elements. rewrite blank_spaces. intros [[H _]|(_ & es & N & Et & F & R)]; [contradiction|].
      assert (G : Forall good_tok (join es)) by (apply join_good; rewrite Forall_forall in *; intros x Hx; exact (proj1 (proj1 (element_iff x) (F x Hx)))).
      rewrite Eu in Et. destruct (toks_blanks sp (c :: w) (join es) Hsp G Et) as (ts & Ej & Hg & Ht).
      rewrite (Lr ts Hg Ht), <- Ej. change n0 with zero_counts. rewrite run_complete; [|exact N|].
      * cbn [option_map]. f_equal. clear -R. induction R as [|x y es r Hx R IH]; [reflexivity|]. cbn. apply trimmed_iff in Hx. congruence.
      * rewrite Forall_forall in *. intros x Hx. exact (proj2 (proj1 (element_iff x) (F x Hx))).
Qed.

Lemma get_vector_iff u r : get_vector ("["%char :: u ++ ["]"%char]) = Some r <-> elements u r.
Proof.
  rewrite <- (split_value_iff "[" u "]" r) by reflexivity. unfold get_vector. cbn [List.length]. rewrite app_length. cbn [List.length].
  replace (S (List.length u + 1) - 1) with (S (List.length u)) by lia.
  assert (at_ ("["%char :: u ++ ["]"%char]) (S (List.length u)) = "]"%char) as ->.
  { unfold at_. cbn [nth]. rewrite app_nth2 by lia. now rewrite Nat.sub_diag. }
  change (at_ ("["%char :: u ++ ["]"%char]) 0) with "["%char. cbn [Ascii.eqb Bool.eqb andb negb].
  destruct (Nat.ltb_spec (S (List.length u + 1)) 2) as [X|_]; [lia|]. reflexivity.
Qed.

Lemma get_vector_single v : v <> [] -> (forall u, v <> "["%char :: u ++ ["]"%char]) -> get_vector v = Some [v].
Proof.
  intros N H. unfold get_vector. destruct v as [|c u]; [congruence|].
  destruct (Ascii.eqb (at_ (c :: u) 0) "[") eqn:E0; [|reflexivity]. cbn [andb].
  destruct (Ascii.eqb (at_ (c :: u) (List.length (c :: u) - 1)) "]") eqn:E1; [|reflexivity]. exfalso.
  apply Ascii.eqb_eq in E0, E1. unfold at_ in E0. cbn in E0. subst c. destruct u as [|d u]; [discriminate|].
  destruct (exists_last (l := d :: u) ltac:(discriminate)) as (u' & x & Eu). rewrite Eu in *. apply (H u'). do 2 f_equal.
  cbn [List.length] in E1. rewrite app_length in E1. cbn [List.length] in E1. replace (S (List.length u' + 1) - 1) with (S (List.length u')) in E1 by lia.
  unfold at_ in E1. cbn [nth] in E1. rewrite app_nth2, Nat.sub_diag in E1 by lia. cbn in E1. congruence.
Qed.

(** ** Properly nested texts are accepted *)
Fixpoint walk (ts : list tok) (n : counts) : option counts :=
  match ts with
  | [] => Some n
  | quoted _ _ :: r => walk r n
  | plain c :: r => match count_char c n with None => None | Some m => walk r m end
  end.

Lemma walk_app a b n : walk (a ++ b) n = match walk a n with None => None | Some m => walk b m end.
Proof.
  revert n. induction a as [|t a IH]; intros n; [reflexivity|]. destruct t; cbn [app walk]; [|apply IH].
  destruct (count_char c n); [apply IH|reflexivity].
Qed.

Lemma run_walk : forall ts cur n, walk ts n = Some zero_counts -> run ts cur n <> None.
Proof.
  induction ts as [|t ts IH]; intros cur n H; cbn [walk run] in *.
  - assert (n = zero_counts) as -> by congruence. discriminate.
  - destruct t; [|now apply IH]. destruct (count_char c n) as [m|]; [|discriminate]. destruct (splits c n); [|now apply IH].
    specialize (IH [] m H). destruct (run ts [] m); [discriminate|congruence].
Qed.

Lemma count_neutral c n : nonneg n -> ~ In c (list_ascii_of_string "()[]{}'""") -> count_char c n = Some n.
Proof.
  intros (H1 & H2 & H3) Hc. unfold count_char.
  destruct (Ascii.eqb_spec c "("); [subst; exfalso; apply Hc; cbn; auto 10|].
  destruct (Ascii.eqb_spec c ")"); [subst; exfalso; apply Hc; cbn; auto 10|].
  destruct (Ascii.eqb_spec c "["); [subst; exfalso; apply Hc; cbn; auto 10|].
  destruct (Ascii.eqb_spec c "]"); [subst; exfalso; apply Hc; cbn; auto 10|].
  destruct (Ascii.eqb_spec c "{"); [subst; exfalso; apply Hc; cbn; auto 10|].
  destruct (Ascii.eqb_spec c "}"); [subst; exfalso; apply Hc; cbn; auto 10|].
  destruct (Z.ltb_spec (npar n) 0); [lia|]. destruct (Z.ltb_spec (nbracket n) 0); [lia|]. destruct (Z.ltb_spec (nbrace n) 0); [lia|]. reflexivity.
Qed.

Scheme nested_ind2 := Induction for nested Sort Prop with flat_ind2 := Induction for flat Sort Prop.
Combined Scheme nested_flat_ind from nested_ind2, flat_ind2.

Ltac count_step := unfold count_char; cbn [Ascii.eqb Bool.eqb npar nbracket nbrace negb];
  try match goal with |- context [(?x =? 0)%Z] => destruct (Z.eqb_spec x 0); [|lia] end;
  cbn [Ascii.eqb Bool.eqb npar nbracket nbrace negb];
  repeat match goal with |- context [(?x <? 0)%Z] => destruct (Z.ltb_spec x 0); [lia|] end; cbn [orb].

Lemma nested_walk :
  (forall ts, nested ts -> forall n, nonneg n -> npar n = 0%Z -> walk ts n = Some n) /\
  (forall ts, flat ts -> forall n, nonneg n -> walk ts n = Some n).
Proof.
  apply nested_flat_ind.
  - reflexivity.
  - intros c ts Hc _ IH n Hn Hp. cbn [walk]. rewrite count_neutral by assumption. now apply IH.
  - intros q b ts _ _ _ IH n Hn Hp. cbn [walk]. now apply IH.
  - intros a ts _ IHa _ IH [p b k] Hn Hp. pose proof Hn as (H1 & H2 & H3). cbn [npar nbracket nbrace] in *. cbn [walk]. count_step.
    rewrite walk_app, IHa by (unfold nonneg; cbn; lia). cbn [walk]. count_step. replace (p + 1 - 1)%Z with p by lia. now apply IH.
  - intros a ts _ IHa _ IH [p b k] Hn Hp. pose proof Hn as (H1 & H2 & H3). cbn [npar nbracket nbrace] in *. cbn [walk]. count_step.
    rewrite walk_app, IHa by (unfold nonneg; cbn; lia). cbn [walk]. count_step. replace (b + 1 - 1)%Z with b by lia. now apply IH.
  - intros a ts _ IHa _ IH [p b k] Hn Hp. pose proof Hn as (H1 & H2 & H3). cbn [npar nbracket nbrace] in *. cbn [walk]. count_step.
    rewrite walk_app, IHa by (unfold nonneg; cbn; lia). cbn [walk]. count_step. replace (k + 1 - 1)%Z with k by lia. now apply IH.
  - reflexivity.
  - intros c ts Hc _ IH n Hn. cbn [walk]. rewrite count_neutral by assumption. now apply IH.
  - intros q b ts _ _ _ IH n Hn. cbn [walk]. now apply IH.
  - intros a ts _ IHa _ IH [p b k] Hn. pose proof Hn as (H1 & H2 & H3). cbn [npar nbracket nbrace] in *. cbn [walk]. count_step.
    rewrite walk_app, IHa by (unfold nonneg; cbn; lia). cbn [walk]. count_step. replace (p + 1 - 1)%Z with p by lia. now apply IH.
Qed.

Lemma plain_good c : ~ In c (list_ascii_of_string "()[]{}'""") -> good_tok (plain c).
Proof. intros H. cbn. split; intros ->; apply H; cbn; auto 10. Qed.
Lemma wrap_good o a c ts : good_tok (plain o) -> good_tok (plain c) -> Forall good_tok a -> Forall good_tok ts ->
  Forall good_tok (plain o :: a ++ plain c :: ts).
Proof. intros. constructor; auto. apply Forall_app. split; auto. Qed.

Lemma nested_good : (forall ts, nested ts -> Forall good_tok ts) /\ (forall ts, flat ts -> Forall good_tok ts).
Proof.
  assert (W : forall c, In c (list_ascii_of_string "()[]{}") -> good_tok (plain c)).
  { intros c H. cbn in H. cbn. repeat destruct H as [<-|H]; try destruct H; split; discriminate. }
  apply nested_flat_ind; intros; try (apply wrap_good; auto; apply W; cbn; auto 10); try solve [constructor].
  all: constructor; auto; try (now apply plain_good); split; auto.
Qed.

Lemma nested_accepted ts : nested ts -> exists r, get_vector ("["%char :: text ts ++ ["]"%char]) = Some r.
Proof.
  intros H. assert (D : spaces (text ts) \/ ~ spaces (text ts)) by (destruct (Forall_dec (fun c => isspace c = true) (fun c => bool_dec (isspace c) true) (text ts)); auto).
  destruct D as [D|D].
  - exists []. apply get_vector_iff. left. now rewrite blank_spaces.
  - assert (W : walk ts zero_counts = Some zero_counts) by (apply (proj1 nested_walk); auto; unfold nonneg; cbn; lia).
    pose proof (run_walk ts [] zero_counts W) as R. destruct (run ts [] zero_counts) as [es|] eqn:E; [|congruence]. clear R.
    change zero_counts with (counts_of []) in E. destruct (run_sound ts [] es okp_nil E) as (N & J & F). cbn [app] in J.
    exists (map (fun e => trim (text e)) es). apply get_vector_iff. right. rewrite blank_spaces. split; [exact D|].
    exists es. split; [exact N|]. split; [now rewrite J|]. split.
    + assert (G : Forall (Forall good_tok) es) by (apply join_good; rewrite J; now apply (proj1 nested_good)).
      rewrite Forall_forall in *. intros x Hx. apply element_iff. auto.
    + clear. induction es; cbn; constructor; auto. now apply trimmed_iff.
Qed.

(** ** Quotes *)
Lemma quote_split pre c rest j : skip_quoted (pre ++ c :: rest) (List.length pre) = Some j ->
  exists body rest', rest = body ++ c :: rest' /\ ~ In c body /\ j = List.length pre + List.length (c :: body ++ [c]).
Proof.
  intros H. unfold skip_quoted in H. set (v := pre ++ c :: rest) in *.
  assert (Ec : at_ v (List.length pre) = c).
  { unfold v. replace (List.length pre) with (List.length pre + 0) by lia. rewrite at_app2. reflexivity. }
  rewrite Ec in H. pose proof (find_from_spec c v (S (List.length pre))) as F.
  destruct (find_from c v (S (List.length pre))) as [k|]; [|discriminate]. cbn in H. assert (j = S k) as -> by congruence. clear H.
  destruct F as (F1 & F2 & F3). unfold v in F1. rewrite !app_length in F1. cbn [List.length] in F1.
  set (m := k - S (List.length pre)).
  assert (Hlen : List.length (firstn m rest) = m) by (rewrite firstn_length; unfold m in *; lia).
  exists (firstn m rest), (skipn (S m) rest). split; [|split].
  - rewrite <- (firstn_skipn m rest) at 1. f_equal. rewrite skipn_at by (unfold m; lia). f_equal.
    rewrite <- F2. unfold v. replace k with (List.length pre + S m) by (unfold m; lia). rewrite at_app2. reflexivity.
  - intros Hin. destruct (In_nth _ _ zero Hin) as (i & Hi & Ei). rewrite Hlen in Hi.
    apply (F3 (List.length pre + S i)); [unfold m in Hi; lia|]. unfold v. rewrite at_app2. unfold at_. cbn [nth].
    rewrite <- Ei. rewrite <- (firstn_skipn m rest) at 1. rewrite app_nth1 by lia. reflexivity.
  - cbn [List.length]. rewrite app_length, Hlen. cbn. unfold m. lia.
Qed.

Definition plains (l : list ascii) : Prop := Forall (fun c => is_quote c = false) l.

Lemma substr_suffix (a t : list ascii) : substr (a ++ t) (List.length a) (List.length t) = t.
Proof. rewrite <- (app_nil_r t) at 1. apply substr_mid. Qed.

Lemma unquote_complete : forall ts, Forall good_tok ts -> forall fuel a cur acc v, v = a ++ cur ++ text ts -> List.length (text ts) < fuel ->
  unquote_loop fuel v (List.length a + List.length cur) (List.length a) acc = Some (acc ++ cur ++ unquoted ts).
Proof.
  induction ts as [|t ts IH]; intros Hg fuel a cur acc v Ev Hf.
  - destruct fuel; [lia|]. cbn [unquote_loop]. cbn [text flat_map] in *. rewrite app_nil_r in Ev.
    assert (L : List.length v = List.length a + List.length cur) by (rewrite Ev, app_length; reflexivity). rewrite L, Nat.ltb_irrefl.
    cbn [unquoted flat_map]. rewrite app_nil_r. destruct (Nat.ltb_spec (List.length a) (List.length a + List.length cur)).
    + replace (List.length a + List.length cur - List.length a) with (List.length cur) by lia. rewrite Ev, substr_suffix. reflexivity.
    + destruct cur; [now rewrite app_nil_r|cbn in *; lia].
  - apply Forall_cons_iff in Hg as [Ht Hg]. specialize (IH Hg). destruct fuel; [lia|]. cbn [unquote_loop].
    assert (Et : text (t :: ts) = tok_text t ++ text ts) by reflexivity. rewrite Et in *. rewrite app_length in *.
    assert (Hpos : 0 < List.length (tok_text t)) by (destruct t; cbn; lia).
    assert (L : List.length v = List.length a + List.length cur + List.length (tok_text t) + List.length (text ts)) by (rewrite Ev, !app_length; lia).
    destruct (Nat.ltb_spec (List.length a + List.length cur) (List.length v)); [|lia].
    assert (Ev' : v = (a ++ cur) ++ tok_text t ++ text ts) by (rewrite Ev, <- !app_assoc; reflexivity).
    assert (Ehd : forall c x, tok_text t = c :: x -> at_ v (List.length a + List.length cur) = c).
    { intros c x E. rewrite Ev', E. rewrite <- app_length. replace (List.length (a ++ cur)) with (List.length (a ++ cur) + 0) by lia. rewrite at_app2. reflexivity. }
    destruct t as [c|q b].
    + rewrite (Ehd c [] eq_refl). cbn [good_tok] in Ht.
      assert (is_quote c = false) as -> by (destruct (is_quote c) eqn:E; auto; apply is_quote_true in E; cbn in E; intuition congruence).
      specialize (IH fuel a (cur ++ [c]) acc v). rewrite app_length in IH. cbn [List.length] in IH. cbn [tok_text List.length] in *.
      replace (List.length a + List.length cur + 1) with (List.length a + (List.length cur + 1)) by lia. rewrite IH; [|rewrite Ev, <- !app_assoc; reflexivity|lia].
      cbn [unquoted flat_map]. now rewrite <- !app_assoc.
    + destruct Ht as [Hq Hb]. rewrite (Ehd q (b ++ [q]) eq_refl). assert (is_quote q = true) as -> by now apply is_quote_true.
      assert (Sk : skip_quoted v (List.length a + List.length cur) = Some (List.length (a ++ cur) + List.length (q :: b ++ [q]))).
      { rewrite <- app_length. rewrite Ev'. cbn [tok_text]. now apply skip_quoted_tok. }
      rewrite Sk. specialize (IH fuel (a ++ cur ++ q :: b ++ [q]) [] 
        ((if List.length a <? List.length a + List.length cur then acc ++ substr v (List.length a) (List.length a + List.length cur - List.length a) else acc) ++ b) v).
      cbn [List.length app] in IH. rewrite Nat.add_0_r in IH.
      replace (List.length (a ++ cur) + List.length (q :: b ++ [q])) with (List.length (a ++ cur ++ q :: b ++ [q])) by (rewrite !app_length; cbn; lia).
      replace (substr v (List.length a + List.length cur + 1) (List.length (a ++ cur ++ q :: b ++ [q]) - (List.length a + List.length cur + 1) - 1)) with b.
      * rewrite IH; [|rewrite Ev; cbn [tok_text]; rewrite <- !app_assoc; cbn [app]; rewrite <- !app_assoc; reflexivity|cbn [tok_text] in *; lia].
        cbn [unquoted flat_map]. f_equal. rewrite <- !app_assoc.
        destruct (Nat.ltb_spec (List.length a) (List.length a + List.length cur)).
        -- rewrite Ev. replace (List.length a + List.length cur - List.length a) with (List.length cur) by lia. rewrite substr_mid. now rewrite <- !app_assoc.
        -- destruct cur; [reflexivity|cbn in *; lia].
      * rewrite Ev'. cbn [tok_text]. replace ((a ++ cur) ++ (q :: b ++ [q]) ++ text ts) with ((a ++ cur ++ [q]) ++ b ++ ([q] ++ text ts)) by (rewrite <- !app_assoc; cbn [app]; rewrite <- ?app_assoc; reflexivity).
        replace (List.length a + List.length cur + 1) with (List.length (a ++ cur ++ [q])) by (rewrite !app_length; cbn; lia).
        replace (List.length (a ++ cur ++ q :: b ++ [q]) - List.length (a ++ cur ++ [q]) - 1) with (List.length b) by (rewrite !app_length; cbn; rewrite app_length; cbn; lia).
        now rewrite substr_mid.
Qed.

Lemma unquote_toks : forall fuel pre rest stv acc w, unquote_loop fuel (pre ++ rest) (List.length pre) stv acc = Some w ->
  exists ts, Forall good_tok ts /\ text ts = rest.
Proof.
  induction fuel as [|fuel IH]; intros pre rest stv acc w H; [discriminate|]. cbn [unquote_loop] in H.
  destruct rest as [|c rest]; [exists []; split; [constructor|reflexivity]|].
  destruct (Nat.ltb_spec (List.length pre) (List.length (pre ++ c :: rest))) as [_|L]; [|rewrite app_length in L; cbn in L; lia].
  assert (Ec : at_ (pre ++ c :: rest) (List.length pre) = c).
  { replace (List.length pre) with (List.length pre + 0) by lia. rewrite at_app2. reflexivity. }
  rewrite Ec in H. destruct (is_quote c) eqn:Eq.
  - destruct (skip_quoted (pre ++ c :: rest) (List.length pre)) as [j|] eqn:Ej; [|discriminate].
    apply quote_split in Ej as (body & rest' & -> & Hb & ->).
    replace (pre ++ c :: body ++ c :: rest') with ((pre ++ c :: body ++ [c]) ++ rest') in H by (rewrite <- app_assoc; cbn; now rewrite <- app_assoc).
    rewrite <- app_length in H. apply IH in H as (ts & Hg & Ht). exists (quoted c body :: ts). split.
    + constructor; auto. split; [now apply is_quote_true|exact Hb].
    + change (text (quoted c body :: ts)) with ((c :: body ++ [c]) ++ text ts). rewrite Ht. cbn. now rewrite <- app_assoc.
  - replace (pre ++ c :: rest) with ((pre ++ [c]) ++ rest) in H by (now rewrite <- app_assoc).
    replace (List.length pre + 1) with (List.length (pre ++ [c])) in H by (rewrite app_length; reflexivity).
    apply IH in H as (ts & Hg & Ht). exists (plain c :: ts). split; [|cbn; now rewrite <- Ht]. constructor; auto. cbn.
    split; intros ->; vm_compute in Eq; discriminate.
Qed.

Lemma get_string_iff v w : get_string v = Some w <-> exists ts, Forall good_tok ts /\ text ts = v /\ w = unquoted ts.
Proof.
  unfold get_string. split.
  - intros H. destruct (unquote_toks _ [] v 0 [] w H) as (ts & Hg & Ht). exists ts. split; [exact Hg|]. split; [exact Ht|].
    pose proof (unquote_complete ts Hg (S (List.length v)) [] [] [] v) as C. cbn [List.length app Nat.add] in C. rewrite C in H; [congruence|auto|rewrite Ht; lia].
  - intros (ts & Hg & <- & ->). apply (unquote_complete ts Hg _ [] [] [] (text ts)); [reflexivity|lia].
Qed.
