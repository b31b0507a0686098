(** Proofs for C23. *)
From Coq Require Import List Bool Arith ZArith Ascii String Lia.
From Verif Require Import StrModel StrProofs NumParseSpec NumParseProofs SplitModel SplitSpec SplitProofs ParsetModel ParsetSpec ParsetProofs ReadModel ReadSpec.
Import ListNotations.
Open Scope nat_scope.

Definition upd (s : scan_state) (st nb : nat) : scan_state :=
  {| s_st := st; s_end := s_end s; s_nonbl := nb; s_stval := s_stval s; s_key := s_key s; s_value := s_value s; s_out := s_out s |}.

Definition is_bt (c : ascii) : bool := Ascii.eqb c " " || Ascii.eqb c "009".
Fixpoint nbpos (pos : nat) (u : list ascii) (nb : nat) : nat :=
  match u with [] => nb | c :: r => nbpos (S pos) r (if is_bt c then nb else pos) end.

Definition ordinary (c : ascii) : Prop := ~ In c ["'"; """"; "#"; "="]%char.
Lemma ordinary_b c : ordinary c -> is_quote c = false /\ Ascii.eqb c "#" = false /\ Ascii.eqb c "=" = false.
Proof.
  intros H. split; [|split].
  - destruct (is_quote c) eqn:E; auto. apply is_quote_true in E. exfalso. apply H. cbn in *. tauto.
  - apply Ascii.eqb_neq. intros ->. apply H. cbn. auto.
  - apply Ascii.eqb_neq. intros ->. apply H. cbn. auto.
Qed.

Lemma at_here (pre : list ascii) c r : at_ (pre ++ c :: r) (List.length pre) = c.
Proof. replace (List.length pre) with (List.length pre + 0) by lia. rewrite at_app2. reflexivity. Qed.

Lemma scan_plain prefix : forall u pre rest s line, line = pre ++ u ++ rest -> s_st s = List.length pre ->
  List.length pre + List.length u <= s_end s -> Forall ordinary u ->
  forall f, scan_loop (List.length u + f) prefix line s = scan_loop f prefix line (upd s (List.length pre + List.length u) (nbpos (List.length pre) u (s_nonbl s))).
Proof.
  induction u as [|c u IH]; intros pre rest s line El Es Hen Ho f.
  - cbn. f_equal. rewrite Nat.add_0_r, <- Es. now destruct s.
  - apply Forall_cons_iff in Ho as [Hc Ho]. destruct (ordinary_b c Hc) as (E1 & E2 & E3).
    cbn [List.length] in *. cbn [Nat.add scan_loop]. destruct (Nat.ltb_spec (s_st s) (s_end s)); [|lia].
    unfold scan_step. assert (Ec : at_ line (s_st s) = c) by (rewrite Es, El; apply at_here). rewrite Ec, E1, E2, E3.
    match goal with |- scan_loop _ _ _ ?x = _ => set (s1 := x) end.
    specialize (IH (pre ++ [c]) rest s1 line). rewrite app_length in IH. cbn [List.length] in IH. 
    replace (List.length pre + 1 + List.length u) with (List.length pre + S (List.length u)) in IH by lia.
    rewrite IH; [|rewrite El, <- app_assoc; reflexivity|cbn; lia|cbn; lia|exact Ho].
    f_equal. unfold upd, s1. cbn [s_end s_nonbl s_stval s_key s_value s_out nbpos]. f_equal.
    rewrite Es. replace (List.length pre + 1) with (S (List.length pre)) by lia. f_equal. unfold is_bt. rewrite <- negb_orb. now destruct (_ || _).
Qed.

Lemma scan_toks prefix : forall ts pre rest s line, line = pre ++ text ts ++ rest -> s_st s = List.length pre ->
  List.length pre + List.length (text ts) <= s_end s -> Forall good_tok ts -> Forall (fun t => t <> plain "#" /\ t <> plain "=") ts ->
  exists n nb, n <= List.length (text ts) /\ forall f, scan_loop (n + f) prefix line s = scan_loop f prefix line (upd s (List.length pre + List.length (text ts)) nb).
Proof.
  induction ts as [|t ts IH]; intros pre rest s line El Es Hen Hg Hp.
  - exists 0, (s_nonbl s). split; [lia|]. intros f. cbn. f_equal. rewrite Nat.add_0_r, <- Es. now destruct s.
  - apply Forall_cons_iff in Hg as [Ht Hg]. apply Forall_cons_iff in Hp as [Hpt Hp].
    assert (Et : text (t :: ts) = tok_text t ++ text ts) by reflexivity. rewrite Et in *. rewrite app_length in *.
    assert (One : exists nb1, forall f, scan_loop (S f) prefix line s = scan_loop f prefix line (upd s (List.length pre + List.length (tok_text t)) nb1)).
    { destruct t as [c|q b].
      - assert (Hc : ordinary c).
        { cbn in Ht, Hpt. unfold ordinary. intros X. cbn in X. destruct X as [<-|[<-|[<-|[<-|[]]]]]; tauto || (destruct Hpt; congruence). }
        exists (nbpos (List.length pre) [c] (s_nonbl s)). intros f. assert (X := scan_plain prefix [c] pre (text ts ++ rest) s line). cbn [List.length tok_text] in *.
        apply X; auto; lia.
      - destruct Ht as [Hq Hb]. eexists. intros f. cbn [scan_loop]. cbn [tok_text] in *.
        destruct (Nat.ltb_spec (s_st s) (s_end s)) as [_|L]; [|cbn in *; lia]. unfold scan_step.
        assert (Ec : at_ line (s_st s) = q) by (rewrite Es, El; cbn [app]; apply at_here). rewrite Ec.
        rewrite (proj2 (is_quote_true q) Hq). rewrite Es. rewrite El at 1. rewrite <- app_assoc. rewrite skip_quoted_tok by exact Hb. reflexivity. }
    destruct One as (nb1 & One).
    destruct (IH (pre ++ tok_text t) rest (upd s (List.length pre + List.length (tok_text t)) nb1) line) as (n & nb & Hn & Hf).
    + rewrite El, <- !app_assoc. reflexivity.
    + cbn. now rewrite app_length.
    + rewrite app_length. cbn. lia.
    + exact Hg.
    + exact Hp.
    + exists (S n), nb. split; [destruct t; cbn in *; lia|]. intros f. cbn [Nat.add]. rewrite One, Hf. f_equal. unfold upd. cbn. f_equal. rewrite app_length. lia.
Qed.

Lemma nbpos_key : forall k pos nb, k <> [] -> Forall (fun c => is_bt c = false) k -> nbpos pos k nb = pos + List.length k - 1.
Proof.
  induction k as [|c k IH]; intros pos nb Hn Hf; [congruence|]. apply Forall_cons_iff in Hf as [Hc Hf]. cbn [nbpos List.length]. rewrite Hc.
  destruct k as [|d k]; [cbn; lia|]. rewrite IH; [cbn [List.length]; lia|discriminate|exact Hf].
Qed.
Lemma nbpos_blank : forall b pos nb, Forall (fun c => is_bt c = true) b -> nbpos pos b nb = nb.
Proof. induction b as [|c b IH]; intros pos nb Hf; [reflexivity|]. apply Forall_cons_iff in Hf as [Hc Hf]. cbn [nbpos]. rewrite Hc. now apply IH. Qed.

Lemma get_string_plain k : Forall (fun c => is_quote c = false) k -> get_string k = Some k.
Proof.
  intros H. apply get_string_iff. exists (map plain k). split; [|split; [apply text_plain|]].
  - apply Forall_forall. intros t Ht. apply in_map_iff in Ht as (c & <- & Hc). rewrite Forall_forall in H. specialize (H c Hc).
    cbn. split; intros ->; discriminate.
  - unfold unquoted. induction k; [reflexivity|]. cbn. f_equal. apply IHk. now apply Forall_cons_iff in H as [_ H].
Qed.

Lemma is_bt_In x : is_bt x = true <-> In x [" "; "009"]%char.
Proof. unfold is_bt. rewrite orb_true_iff, !Ascii.eqb_eq. cbn. intuition. Qed.

Lemma bt_ordinary x : is_bt x = true -> ordinary x.
Proof. intros H. apply is_bt_In in H. unfold ordinary. cbn in *. intros X. destruct H as [<-|[<-|[]]]; intuition discriminate. Qed.

Definition start (k0 : key) (v0 : list ascii) (out : list binding) : list binding := match k0 with [] => out | _ => out ++ [(k0, trim v0)] end.

(** Whatever the scan does after the '=', the value appended is the trimmed one. *)
Lemma append_value P x v y c s : (x ++ v <> [] -> solid v) -> v <> [] \/ x = [] -> (forall w, v <> w ++ ["\"%char]) ->
  spaces x -> P <> [] -> at_ P (List.length P - 1) = "="%char ->
  s_stval s = List.length P -> s_end s = List.length (P ++ x ++ v) -> s_value s = [] ->
  append_rest (P ++ x ++ v ++ y ++ c) s = v.
Proof.
  intros Hsv Hvx Hb Hx HP HPe Est Een Ev. unfold append_rest. rewrite Est, Een, Ev.
  assert (Ebs : Ascii.eqb (at_ (P ++ x ++ v ++ y ++ c) (List.length (P ++ x ++ v) - 1)) "\" = false).
  { apply Ascii.eqb_neq. destruct v as [|z v0] eqn:E0.
    - destruct Hvx as [X| ->]; [congruence|]. rewrite !app_nil_r. cbn [app]. rewrite at_app1 by (destruct P; [congruence|cbn; lia]). rewrite HPe. discriminate.
    - rewrite <- E0 in *. assert (Hv : v <> []) by (rewrite E0; discriminate). destruct (exists_last Hv) as (v' & l & El). intros X.
      apply (Hb v'). rewrite El. f_equal. f_equal. rewrite El in X.
      replace (P ++ x ++ (v' ++ [l]) ++ y ++ c) with ((P ++ x ++ v') ++ l :: y ++ c) in X by (rewrite <- !app_assoc; reflexivity).
      replace (List.length (P ++ x ++ v' ++ [l]) - 1) with (List.length (P ++ x ++ v')) in X by (rewrite !app_length; cbn; lia). now rewrite at_here in X. }
  rewrite Ebs. cbn zeta. assert (L : lskipws (P ++ x ++ v ++ y ++ c) (List.length P) (List.length (P ++ x ++ v)) = List.length P + List.length x).
  { apply lskipws_unique.
    - rewrite !app_length. lia.
    - intros i Hi. replace i with (List.length P + (i - List.length P)) by lia. rewrite at_app2, at_app1 by lia. apply at_space; auto. lia.
    - intros Hl. rewrite !app_length in Hl. replace (P ++ x ++ v ++ y ++ c) with ((P ++ x) ++ v ++ y ++ c) by (now rewrite <- app_assoc).
      rewrite <- app_length. replace (List.length (P ++ x)) with (List.length (P ++ x) + 0) by lia. rewrite at_app2, at_app1 by lia.
      apply Hsv. destruct v; [cbn in Hl; lia|]. destruct x; discriminate. }
  rewrite L. destruct (Nat.ltb_spec (List.length P + List.length x) (List.length (P ++ x ++ v))) as [Hl|Hl].
  - replace (List.length (P ++ x ++ v) - (List.length P + List.length x)) with (List.length v) by (rewrite !app_length; lia).
    replace (P ++ x ++ v ++ y ++ c) with ((P ++ x) ++ v ++ y ++ c) by (now rewrite <- app_assoc). rewrite <- app_length. apply substr_mid.
  - rewrite !app_length in Hl. destruct v; [reflexivity|cbn in Hl; lia].
Qed.

Lemma trim_cases w : exists x y, w = x ++ trim w ++ y /\ spaces x /\ spaces y /\ (x ++ trim w <> [] -> solid (trim w)) /\ (trim w <> [] \/ x = []).
Proof.
  destruct (space_split w) as [H|(a & t & b & -> & Ha & Hb & Ht)].
  - rewrite (trim_spaces w H). exists [], w. cbn. repeat split; auto; try constructor; congruence.
  - rewrite (trim_mid a t b Ha Hb Ht). exists a, b. split; auto. split; auto. split; auto. split; auto. left. apply Ht.
Qed.

Lemma read_setting prefix line k v k0 v0 out : setting_line line k v -> (k0 = [] -> v0 = []) ->
  read_line prefix {| r_key := k0; r_value := v0; r_out := out |} line =
  Some {| r_key := prefix ++ k; r_value := v; r_out := start k0 v0 out |}.
Proof.
  intros (a & b & w & c & El & Ha & Hb & [Hkn Hk] & (ts & Hg & Et & Hp & Hbs) & Htr & Hc) Hv0.
  apply blank_spaces in Ha. apply trimmed_iff in Htr. rewrite Forall_forall in Hk.
  assert (Hko : Forall ordinary k) by (apply Forall_forall; intros x Hx; apply Hk; auto).
  assert (Hks : Forall (fun x => isspace x = false) k) by (apply Forall_forall; intros x Hx; apply not_blank1'; apply Hk; auto).
  assert (Hkb : Forall (fun x => is_bt x = false) k).
  { apply Forall_forall. intros x Hx. rewrite Forall_forall in Hks. specialize (Hks x Hx). destruct (is_bt x) eqn:E; auto. apply is_bt_In in E. cbn in E. destruct E as [<-|[<-|[]]]; discriminate. }
  assert (Hbb : Forall (fun x => is_bt x = true) b) by (apply Forall_forall; intros x Hx; apply is_bt_In; rewrite Forall_forall in Hb; auto).
  assert (Hbo : Forall ordinary b) by (eapply Forall_impl; [|exact Hbb]; apply bt_ordinary).
  assert (Hnb : forall u, v <> u ++ ["\"%char]) by (intros u X; apply (Hbs u); apply trimmed_iff; congruence).
  destruct (trim_cases w) as (x & y & Ew & Hx & Hy & Hsol & Hvx). rewrite <- Htr in *.
  set (P := a ++ k ++ b ++ ["="%char]).
  assert (ElP : line = P ++ x ++ v ++ y ++ c) by (rewrite El, Ew; unfold P; rewrite <- !app_assoc; reflexivity).
  assert (HPn : P <> []) by (unfold P; destruct a, k; [congruence|discriminate|discriminate|discriminate]).
  assert (HPe : at_ P (List.length P - 1) = "="%char).
  { unfold P. rewrite !app_assoc. rewrite app_length. cbn [List.length]. replace (List.length ((a ++ k) ++ b) + 1 - 1) with (List.length ((a ++ k) ++ b)) by lia. apply at_here. }
  destruct k as [|kc k']; [congruence|]. remember (kc :: k') as k eqn:Dk.
  assert (Hkc : isspace kc = false) by (rewrite Forall_forall in Hks; apply Hks; rewrite Dk; left; reflexivity).
  unfold read_line.
  assert (L : lskipws line 0 (List.length line) = List.length a).
  { apply lskipws_unique.
    - rewrite El, app_length. lia.
    - intros i Hi. rewrite El, at_app1 by lia. apply at_space; auto. lia.
    - intros _. rewrite El, Dk. cbn [app]. now rewrite at_here. }
  rewrite L. assert (Ea : at_ line (List.length a) = kc) by (rewrite El, Dk; cbn [app]; apply at_here). rewrite Ea.
  assert (Hkco : ordinary kc) by (rewrite Forall_forall in Hko; apply Hko; rewrite Dk; left; reflexivity). destruct (ordinary_b kc Hkco) as (Q1 & Q2 & Q3). rewrite Q2.
  set (en := rskipws line (List.length a) (List.length line)).
  assert (Hen : (c = [] /\ en = List.length (P ++ x ++ v)) \/ (exists c', c = "#"%char :: c') /\ List.length (P ++ w) < en).
  { destruct Hc as [->|(c' & ->)]; [left; split; auto|right; split; [eauto|]].
    - unfold en. apply rskipws_unique.
      + rewrite ElP. unfold P. rewrite !app_length. cbn. lia.
      + intros i Hi. rewrite ElP. replace (P ++ x ++ v ++ y ++ []) with ((P ++ x ++ v) ++ y) by (rewrite app_nil_r, <- !app_assoc; reflexivity).
        rewrite at_app2' by lia. apply at_space; auto. rewrite ElP, app_nil_r in Hi. rewrite !app_length in *. lia.
      + intros _. rewrite ElP. destruct v as [|vc v'] eqn:Ev.
        * destruct Hvx as [X| ->]; [congruence|]. rewrite !app_nil_r. cbn [app]. rewrite at_app1 by (destruct P; [congruence|cbn; lia]). rewrite HPe. reflexivity.
        * rewrite <- Ev in *. assert (S : solid v) by (apply Hsol; rewrite Ev; destruct x; discriminate). destruct S as (S0 & S1 & S2).
          replace (P ++ x ++ v ++ y ++ []) with ((P ++ x) ++ v ++ y) by (rewrite app_nil_r, <- !app_assoc; reflexivity).
          assert (0 < List.length v) by (rewrite Ev; cbn; lia).
          replace (List.length (P ++ x ++ v) - 1) with (List.length (P ++ x) + (List.length v - 1)) by (rewrite !app_length; lia).
          rewrite at_app2, at_app1 by lia. exact S2.
    - unfold en. destruct (rskipws_spec line (List.length a) (List.length line)) as (A1 & A2 & _); [rewrite El, app_length; lia|]. fold en in A1, A2 |- *.
      destruct (Nat.lt_ge_cases (List.length (P ++ w)) en) as [G|G]; [exact G|]. exfalso.
      assert (X : isspace (at_ line (List.length (P ++ w))) = true).
      { apply A2. split; [exact G|]. rewrite El. unfold P. rewrite !app_length. cbn. rewrite !app_length. cbn. lia. }
      rewrite El in X. replace (a ++ k ++ b ++ "="%char :: w ++ "#"%char :: c') with ((P ++ w) ++ "#"%char :: c') in X by (unfold P; rewrite <- !app_assoc; reflexivity).
      rewrite at_here in X. discriminate. }
  assert (Hen' : List.length P <= en) by (destruct Hen as [[_ ->]|[_ H]]; rewrite app_length in *; lia).
  assert (HlP : List.length P = List.length a + List.length k + List.length b + 1) by (unfold P; rewrite !app_length; cbn; lia).
  assert (Hlk : 0 < List.length k) by (rewrite Dk; cbn; lia).
  destruct (Nat.ltb_spec (List.length a) en) as [_|X]; [|lia].
  cbn [r_key r_value r_out].
  set (s0 := {| s_st := List.length a; s_end := en; s_nonbl := List.length a; s_stval := List.length a; s_key := k0; s_value := v0; s_out := out |}).
  assert (Hlen : List.length line = List.length P + List.length w + List.length c) by (rewrite El; unfold P; rewrite !app_length; cbn; rewrite !app_length; lia).
  replace (S (S (List.length line))) with (List.length k + (List.length b + (1 + (List.length w + List.length c + List.length a + 2)))) by lia.
  rewrite (scan_plain prefix k a (b ++ "="%char :: w ++ c) s0 line El eq_refl ltac:(change (List.length a + List.length k <= en); lia) Hko).
  rewrite (nbpos_key k); [|exact Hkn|exact Hkb].
  set (s1 := upd s0 _ _).
  rewrite (scan_plain prefix b (a ++ k) ("="%char :: w ++ c) s1 line); [|rewrite El, <- app_assoc; reflexivity|cbn; now rewrite app_length|rewrite app_length; change (List.length a + List.length k + List.length b <= en); lia|exact Hbo].
  rewrite nbpos_blank by exact Hbb. rewrite app_length. set (s2 := upd s1 _ _).
  cbn [Nat.add scan_loop]. assert (Es2 : s_st s2 = List.length (a ++ k ++ b)) by (cbn; rewrite !app_length; lia).
  destruct (Nat.ltb_spec (s_st s2) (s_end s2)) as [_|X]; [|rewrite Es2, !app_length in X; change (s_end s2) with en in X; lia].
  unfold scan_step at 1. assert (Ee : at_ line (s_st s2) = "="%char).
  { rewrite Es2, El. replace (a ++ k ++ b ++ "="%char :: w ++ c) with ((a ++ k ++ b) ++ "="%char :: w ++ c) by (rewrite <- !app_assoc; reflexivity). apply at_here. }
  rewrite Ee. cbn [is_quote Ascii.eqb Bool.eqb orb].
  assert (Ek : key_text line (s_stval s2) (s_nonbl s2) = k).
  { unfold key_text. cbn [s2 s1 s0 upd s_stval s_nonbl]. destruct (Nat.ltb_spec (List.length a + List.length k - 1 + 1) (List.length a)); [lia|].
    replace (List.length a + List.length k - 1 + 1 - List.length a) with (List.length k) by lia. rewrite El. apply substr_mid. }
  rewrite Ek. rewrite get_string_plain.
  2:{ eapply Forall_impl; [|exact Hko]. intros z Hz. now apply ordinary_b. }
  assert (Est : match s_key s2 with [] => (s_out s2, s_value s2) | _ :: _ => (s_out s2 ++ [(s_key s2, trim (s_value s2))], []) end = (start k0 v0 out, [])).
  { cbn [s2 s1 s0 upd s_key s_out s_value]. unfold start. destruct k0; [rewrite Hv0 by reflexivity|]; reflexivity. }
  rewrite Est. rewrite Dk. cbn zeta iota. rewrite <- !Dk.
  match goal with |- context [scan_loop _ _ _ ?z] => set (s3 := z) end.
  assert (E3 : s_st s3 = List.length P) by (cbn [s3 s_st]; rewrite Es2, HlP, !app_length; lia).
  assert (E3v : s_stval s3 = List.length P) by (cbn [s3 s_stval]; rewrite Es2, HlP, !app_length; lia).
  assert (Een3 : s_end s3 = en) by reflexivity.
  assert (Fin : exists s4, scan_loop (List.length w + List.length c + List.length a + 2) prefix line s3 = Some s4 /\
     s_stval s4 = List.length P /\ s_end s4 = List.length (P ++ x ++ v) /\ s_value s4 = [] /\ s_key s4 = prefix ++ k /\ s_out s4 = start k0 v0 out).
  { destruct Hen as [[-> Een]|[(c' & ->) Hlt]].
    - (* tokens up to the trailing blanks *)
      assert (Hts : exists ts', Forall good_tok ts' /\ Forall (fun t => t <> plain "#" /\ t <> plain "=") ts' /\ text ts' = x ++ v).
      { clear -Hg Hp Et Ew Hy. rewrite Ew in Et. rewrite app_assoc in Et. revert Hg Hp Et. generalize (x ++ v) as u. clear x v Ew w. revert ts Hy. 
        induction y as [|z y IH] using rev_ind; intros ts Hy u Hg Hp Et; [rewrite app_nil_r in Et; eauto|].
        apply Forall_app in Hy as [Hy Hz]. apply Forall_cons_iff in Hz as [Hz _].
        destruct ts as [|t ts] using rev_ind; [destruct u, y; discriminate|]. clear IHts. apply Forall_app in Hg as [Hg Ht]. apply Forall_app in Hp as [Hp _].
        rewrite text_app, app_assoc in Et. apply Forall_cons_iff in Ht as [Ht _]. destruct t as [d|q body].
        - cbn in Et. apply app_inj_tail in Et as [Et _]. eapply IH; eauto.
        - exfalso. cbn in Et. rewrite app_nil_r, app_comm_cons, app_assoc in Et. apply app_inj_tail in Et as [_ ->]. destruct Ht as [[<-|[<-|[]]] _]; discriminate. }
      destruct Hts as (ts' & Hg' & Hp' & Et').
      destruct (scan_toks prefix ts' P (y ++ []) s3 line) as (n & nb & Hn & Hf); auto.
      + rewrite ElP, Et', <- !app_assoc. reflexivity.
      + rewrite Een3, Een, Et'. rewrite (app_length P). lia.
      + rewrite Et' in *. assert (Hlw : List.length (x ++ v) <= List.length w) by (rewrite Ew, app_assoc, (app_length (x ++ v)); lia).
        replace (List.length w + List.length (@nil ascii) + List.length a + 2) with (n + S (List.length w - n + List.length a + 1)) by (cbn; lia).
        rewrite Hf. cbn [scan_loop]. cbn [upd s_st s_end]. rewrite Een3, Een, (app_length P), Nat.ltb_irrefl.
        eexists. split; [reflexivity|]. refine (conj E3v (conj _ (conj eq_refl (conj eq_refl eq_refl)))). change (en = List.length P + List.length (x ++ v)). rewrite Een. apply app_length.
    - destruct (scan_toks prefix ts P ("#"%char :: c') s3 line) as (n & nb & Hn & Hf); auto.
      + rewrite El, Et. unfold P. rewrite <- !app_assoc. reflexivity.
      + rewrite Een3, Et. rewrite app_length in Hlt. lia.
      + rewrite Et in *. replace (List.length w + List.length ("#"%char :: c') + List.length a + 2) with (n + S (S (List.length w - n + List.length c' + List.length a + 1))) by (cbn; lia).
        rewrite Hf. cbn [scan_loop]. cbn [upd s_st s_end]. rewrite app_length in Hlt. destruct (Nat.ltb_spec (List.length P + List.length w) (s_end s3)) as [_|X]; [|lia].
        unfold scan_step. cbn [upd s_st s_end s_stval s_key s_value s_out s_nonbl].
        assert (E4 : at_ line (List.length P + List.length w) = "#"%char).
        { rewrite El. rewrite <- app_length. replace (a ++ k ++ b ++ "="%char :: w ++ "#"%char :: c') with ((P ++ w) ++ "#"%char :: c') by (unfold P; rewrite <- !app_assoc; reflexivity). apply at_here. }
        rewrite E4. cbn [is_quote Ascii.eqb Bool.eqb orb]. rewrite E3v.
        assert (R : rskipws line (List.length P) (List.length P + List.length w) = List.length (P ++ x ++ v)).
        { apply rskipws_unique.
          - rewrite Ew. rewrite !app_length. lia.
          - intros i Hi. rewrite ElP. replace (P ++ x ++ v ++ y ++ "#"%char :: c') with ((P ++ x ++ v) ++ y ++ "#"%char :: c') by (rewrite <- !app_assoc; reflexivity).
            rewrite at_app2' by lia. rewrite Ew, !app_length in Hi. rewrite !app_length. rewrite at_app1 by lia. apply at_space; auto. lia.
          - intros Hl. destruct v as [|vc v'] eqn:Ev.
            + destruct Hvx as [X| ->]; [congruence|]. rewrite !app_nil_r in Hl. cbn in Hl. lia.
            + rewrite <- Ev in *. assert (S : solid v) by (apply Hsol; rewrite Ev; destruct x; discriminate). destruct S as (S0 & S1 & S2).
              rewrite ElP. replace (P ++ x ++ v ++ y ++ "#"%char :: c') with ((P ++ x) ++ v ++ y ++ "#"%char :: c') by (rewrite <- !app_assoc; reflexivity).
              assert (0 < List.length v) by (rewrite Ev; cbn; lia).
              replace (List.length (P ++ x ++ v) - 1) with (List.length (P ++ x) + (List.length v - 1)) by (rewrite !app_length; lia).
              rewrite at_app2, at_app1 by lia. exact S2. }
        rewrite R. cbn [s_st s_end]. destruct (Nat.ltb_spec (List.length P + List.length w) (List.length (P ++ x ++ v))) as [X|_].
        { exfalso. rewrite Ew, !app_length in X. lia. }
        eexists. split; [reflexivity|]. refine (conj _ (conj eq_refl (conj eq_refl (conj eq_refl eq_refl)))). cbn [s_stval]. reflexivity. }
  destruct Fin as (s4 & F1 & F2 & F3 & F4 & F5 & F6). unfold upd in F1. cbn [s_st] in *. rewrite F1. rewrite F5, F6.
  do 2 f_equal. rewrite ElP. apply append_value; auto.
Qed.

Lemma read_no_setting prefix s l : no_setting l -> read_line prefix s l = Some s.
Proof.
  unfold read_line. intros [H|(a & c & -> & H)]; apply blank_spaces in H.
  - rewrite (spaces_positions l H). destruct (Ascii.eqb (at_ l (List.length l)) "#"); [reflexivity|].
    destruct (rskipws_spec l (List.length l) (List.length l) ltac:(lia)) as (A & _). cbn zeta in A.
    destruct (Nat.ltb_spec (List.length l) (rskipws l (List.length l) (List.length l))); [lia|reflexivity].
  - rewrite (lskipws_unique _ 0 _ (List.length a)).
    + now rewrite at_here.
    + rewrite app_length. lia.
    + intros i Hi. rewrite at_app1 by lia. apply at_space; auto. lia.
    + intros _. rewrite at_here. reflexivity.
Qed.

Lemma trim_trim w : trim (trim w) = trim w.
Proof.
  destruct (space_split w) as [H|(a & t & b & -> & Ha & Hb & Ht)].
  - rewrite (trim_spaces w H). reflexivity.
  - rewrite (trim_mid a t b Ha Hb Ht). pose proof (trim_mid [] t [] ltac:(constructor) ltac:(constructor) Ht) as X. cbn in X. now rewrite app_nil_r in X.
Qed.

Lemma setting_trimmed l k v : setting_line l k v -> trim v = v /\ k <> [].
Proof. intros (a & b & w & c & _ & _ & _ & [Hk _] & _ & H & _). apply trimmed_iff in H as ->. split; [apply trim_trim|exact Hk]. Qed.

Lemma read_settings prefix lines bs : settings lines bs -> forall k0 v0 out, (k0 = [] -> v0 = []) ->
  exists s', read_lines prefix {| r_key := k0; r_value := v0; r_out := out |} lines = Some s' /\
    start (r_key s') (r_value s') (r_out s') = start k0 v0 out ++ map (fun b => (prefix ++ fst b, snd b)) bs.
Proof.
  induction 1 as [|l ls bs Hl H IH|l k v ls bs Hl H IH]; intros k0 v0 out H0; cbn [read_lines].
  - eexists. split; [reflexivity|]. cbn. now rewrite app_nil_r.
  - rewrite read_no_setting by exact Hl. now apply IH.
  - rewrite (read_setting prefix l k v k0 v0 out Hl H0). destruct (setting_trimmed l k v Hl) as [Ht Hk].
    assert (Hpk : prefix ++ k <> []) by (intros X; apply app_eq_nil in X as [_ X]; contradiction).
    destruct (IH (prefix ++ k) v (start k0 v0 out) ltac:(intros; contradiction)) as (s' & E1 & E2). exists s'. split; [exact E1|]. rewrite E2.
    unfold start at 1. destruct (prefix ++ k) as [|x y] eqn:E; [contradiction|]. rewrite Ht, <- app_assoc. cbn [map fst snd app]. now rewrite E.
Qed.

Lemma read_stream_settings prefix lines bs : settings lines bs ->
  read_stream prefix lines = Some (map (fun b => (prefix ++ fst b, snd b)) bs).
Proof.
  intros H. destruct (read_settings prefix lines bs H [] [] [] ltac:(auto)) as (s & E1 & E2). unfold read_stream. rewrite E1. f_equal. exact E2.
Qed.

Section Update.
Variable md : mode.
Context {V : Type}.
Variable f : pset V -> key * V -> pset V.
Hypothesis f_sorted : forall s b, sorted md (pmap s) -> sorted md (pmap (f s b)).
Hypothesis f_gives : forall s b k v, sorted md (pmap s) ->
  gives md (pmap (f s b)) k v <-> (nrm md (fst b) = nrm md k /\ v = snd b) \/ (nrm md (fst b) <> nrm md k /\ gives md (pmap s) k v).

Lemma fold_last : forall bs s, sorted md (pmap s) -> sorted md (pmap (fold_left f bs s)) /\ forall k v,
  gives md (pmap (fold_left f bs s)) k v <-> last_setting md bs k v \/ ((forall k1 v1, In (k1, v1) bs -> ~ same md k1 k) /\ gives md (pmap s) k v).
Proof.
  induction bs as [|[k1 v1] bs IH]; intros s H; cbn [fold_left].
  - split; [exact H|]. intros k v. split; [intros G; right; split; [intros ? ? []|exact G]|]. intros [(b1 & k0 & b2 & E & _)|[_ G]]; auto. destruct b1; discriminate.
  - destruct (IH (f s (k1, v1)) (f_sorted s _ H)) as [S I]. split; [exact S|]. intros k v. rewrite I, f_gives by exact H. cbn [fst snd]. split.
    + intros [(b1 & k0 & b2 & -> & E & Hn)|[Hn [[E ->]|[Ne G]]]].
      * left. exists ((k1, v1) :: b1), k0, b2. auto.
      * left. exists [], k1, bs. split; [reflexivity|]. split; [now apply same_nrm|exact Hn].
      * right. split; [|exact G]. intros k2 v2 [[= -> ->]|Hin]; [intros X; apply same_nrm in X; contradiction|eauto].
    + intros [(b1 & k0 & b2 & Eb & E & Hn)|[Hn G]].
      * destruct b1 as [|x b1]; cbn in Eb.
        -- assert (bs = b2 /\ k1 = k0 /\ v1 = v) as (-> & -> & ->) by (repeat split; congruence). right. split; [exact Hn|]. left. split; [now apply same_nrm|reflexivity].
        -- assert (bs = b1 ++ (k0, v) :: b2) as -> by congruence. left. exists b1, k0, b2. auto.
      * right. split; [intros k2 v2 Hin; apply (Hn k2 v2); cbn; auto|]. right. split; [|exact G]. intros X. apply (Hn k1 v1); [cbn; auto|now apply same_nrm].
Qed.
End Update.

Lemma merge_gives md (s : pset (list ascii)) b k v : sorted md (pmap s) ->
  gives md (pmap (add_merge _ md (fst b) (snd b) s)) k v <-> (nrm md (fst b) = nrm md k /\ v = snd b) \/ (nrm md (fst b) <> nrm md k /\ gives md (pmap s) k v).
Proof.
  intros H. cbn [add_merge with_map pmap]. destruct (erase_spec md (fst b) (pmap s) H) as [S1 E]. destruct (insert_spec md (fst b) (snd b) _ S1) as [S2 I].
  rewrite !gives_iff. split.
  - intros (k0 & Hin & Ek). apply I in Hin as [Hin|[Hin _]].
    + apply E in Hin as [Hin X]. cbn in X. right. split; [congruence|eauto].
    + injection Hin as -> ->. auto.
  - intros [[Ek ->]|[Ne (k0 & Hin & Ek)]].
    + exists (fst b). split; auto. apply I. right. split; [reflexivity|]. intros y Hy. now apply E in Hy as [_ Hy].
    + exists k0. split; auto. apply I. left. apply E. split; auto. cbn. congruence.
Qed.

Lemma adopt_lines_gives md prefix lines bs s : sorted md (pmap s) -> settings lines bs ->
  exists s', adopt_lines md prefix lines s = Some s' /\ forall k v,
    gives md (pmap s') k v <-> last_setting md (map (fun b => (prefix ++ fst b, snd b)) bs) k v \/
      ((forall k1 v1, In (k1, v1) bs -> ~ same md (prefix ++ k1) k) /\ gives md (pmap s) k v).
Proof.
  intros H Hs. unfold adopt_lines. rewrite (read_stream_settings prefix lines bs Hs). cbn [option_map]. eexists. split; [reflexivity|].
  set (bs' := map (fun b => (prefix ++ fst b, snd b)) bs).
  assert (A : forall k, (forall k1 v1, In (k1, v1) bs' -> ~ same md k1 k) <-> (forall k1 v1, In (k1, v1) bs -> ~ same md (prefix ++ k1) k)).
  { intros k. unfold bs'. split.
    - intros Hn k1 v1 Hin. apply (Hn _ v1). apply in_map_iff. exists (k1, v1). auto.
    - intros Hn k1 v1 Hin. apply in_map_iff in Hin as ([k2 v2] & [= <- <-] & Hin). now apply (Hn k2 v2). }
  intros k v. rewrite <- A. apply fold_last; auto.
  - intros s1 b H1. cbn. now apply insert_spec, erase_spec.
  - intros s1 b k' v' H1. now apply merge_gives.
Qed.

Lemma find_eq k w : ~ In "="%char k -> find_from "=" (k ++ "="%char :: w) 0 = Some (List.length k).
Proof.
  intros H. apply find_from_eq.
  - rewrite app_length. cbn. lia.
  - apply at_here.
  - intros j Hj X. apply H. rewrite at_app1 in X by lia. rewrite <- X. apply nth_In. lia.
Qed.

Lemma adopt_argument_eq md s k w : ~ In "="%char k -> adopt_argument md s (k ++ "="%char :: w) = replace _ md k (trim w) s.
Proof.
  intros H. unfold adopt_argument. rewrite (find_eq k w H). f_equal.
  - rewrite firstn_app, firstn_all, Nat.sub_diag. cbn. apply app_nil_r.
  - f_equal. rewrite skipn_app, skipn_all2 by lia. replace (List.length k + 1 - List.length k) with 1 by lia. reflexivity.
Qed.

Lemma adopt_arguments_gives md args bs s : sorted md (pmap s) ->
  Forall2 (fun arg kv => ~ In "="%char (fst kv) /\ exists w, arg = fst kv ++ "="%char :: w /\ trimmed w (snd kv)) args bs ->
  forall k v, gives md (pmap (adopt_arguments md args s)) k v <->
    last_setting md bs k v \/ ((forall k1 v1, In (k1, v1) bs -> ~ same md k1 k) /\ gives md (pmap s) k v).
Proof.
  intros H F k v.
  assert (E : adopt_arguments md args s = fold_left (fun s b => replace _ md (fst b) (snd b) s) bs s).
  { unfold adopt_arguments. clear H k v. revert s. induction F as [|arg [k v] args bs [Hk (w & -> & Ht)] F IH]; intros s; [reflexivity|].
    cbn [fold_left fst snd] in *. rewrite adopt_argument_eq by exact Hk. apply trimmed_iff in Ht. rewrite <- Ht. apply IH. }
  rewrite E. apply (fold_last md (fun s b => replace _ md (fst b) (snd b) s)); auto.
  - intros s1 b H1. cbn. now apply assign_spec.
  - intros s1 b k' v' H1. cbn. rewrite assign_gives by exact H1. reflexivity.
Qed.
