(** Proofs for MultiProps. *)
From Coq Require Import List Bool Arith Lia ZifyBool ZifyNat QArith Qcanon Permutation.
From Verif Require Import QcUtil AverageModel GainModel DdecalProofs MultiModel MultiSpec.
From Verif Require TimesModel.
Import ListNotations.
Open Scope nat_scope.

Lemma blit_len {A} first n (src row : list A) : length src = n -> first + n <= length row -> length (blit first n src row) = length row.
Proof. intros H L. unfold blit. rewrite !app_length, skipn_length, firstn_length_le, firstn_all2 by lia. lia. Qed.
Lemma blit_get {A} first n (src row : list A) c : length src = n -> first + n <= length row ->
  nth_error (blit first n src row) c = if (c <? first) || (first + n <=? c) then nth_error row c else nth_error src (c - first).
Proof.
  intros H L. unfold blit. rewrite firstn_all2 with (n := n) by lia. destruct (Nat.ltb_spec c first) as [Hc|Hc].
  - cbn [orb]. rewrite nth_error_app1 by (rewrite firstn_length_le; lia). rewrite nth_error_firstn'. now replace (c <? first) with true by lia.
  - rewrite nth_error_app2; rewrite firstn_length_le by lia; [|lia]. destruct (Nat.leb_spec (first + n) c); cbn [orb].
    + rewrite nth_error_app2 by lia. rewrite nth_error_skipn'. f_equal. lia.
    + now rewrite nth_error_app1 by lia.
Qed.
Lemma shape_nth {A} nb n (m : list (list A)) b row : shape nb n m -> nth_error m b = Some row -> length row = n.
Proof. intros [_ H] E. rewrite Forall_forall in H. apply H. eapply nth_error_In; eauto. Qed.
Lemma shape_some {A} nb n (m : list (list A)) b : shape nb n m -> b < nb -> exists row, nth_error m b = Some row /\ length row = n.
Proof. intros H L. destruct (nth_error m b) as [row|] eqn:E; [|apply nth_error_None in E; destruct H; lia]. exists row. split; [reflexivity|]. eapply shape_nth; eauto. Qed.
Lemma shape_intro {A} nb n (m : list (list A)) : length m = nb -> (forall b row, nth_error m b = Some row -> length row = n) -> shape nb n m.
Proof. intros L H. split; [exact L|]. apply Forall_forall. intros row I. apply In_nth_error in I. destruct I as [b E]. eauto. Qed.

Lemma fill_ok {A} (empty : A) nb N l : forall first buf, shape nb N buf -> first + list_sum (map fst l) <= N -> (forall n src, In (n, Some src) l -> shape nb n src) ->
  shape nb N (fill empty first l buf) /\
  forall b c, b < nb -> cell (fill empty first l buf) b c =
    if c <? first then cell buf b c else
    match origin (map fst l) (c - first) with
    | Some (i, j) => match nth_error l i with Some (_, Some src) => cell src b j | Some (_, None) => Some empty | None => None end
    | None => cell buf b c
    end.
Proof.
  induction l as [|[n o] l IH]; intros first buf Hb Hs Hl; cbn [fill map list_sum fold_right fst].
  - split; [exact Hb|]. intros b c _. cbn [origin]. now destruct (c <? first).
  - cbn [map list_sum fold_right fst] in Hs. change (fold_right Nat.add 0 (map fst l)) with (list_sum (map fst l)) in Hs.
    assert (X : forall buf', shape nb N buf' -> (forall b c, b < nb -> cell buf' b c = if (c <? first) || (first + n <=? c) then cell buf b c else match o with Some src => cell src b (c - first) | None => Some empty end) ->
      shape nb N (fill empty (first + n) l buf') /\ forall b c, b < nb -> cell (fill empty (first + n) l buf') b c =
        if c <? first then cell buf b c else match origin (n :: map fst l) (c - first) with
          | Some (i, j) => match nth_error ((n, o) :: l) i with Some (_, Some src) => cell src b j | Some (_, None) => Some empty | None => None end | None => cell buf b c end).
    { intros buf' Hb' Hc. destruct (IH (first + n) buf' Hb' ltac:(lia) ltac:(intros; apply Hl; now right)) as [I1 I2]. split; [exact I1|]. intros b c L. rewrite I2 by exact L. cbn [origin].
      destruct (Nat.ltb_spec c (first + n)) as [H1|H1].
      - rewrite Hc by exact L. destruct (Nat.ltb_spec c first) as [H2|H2]; [reflexivity|]. replace (first + n <=? c) with false by lia. cbn [orb]. replace (c - first <? n) with true by lia. cbn [nth_error]. now destruct o.
      - replace (c <? first) with false by lia. replace (c - first <? n) with false by lia. replace (c - first - n) with (c - (first + n)) by lia. destruct (origin (map fst l) (c - (first + n))) as [[i j]|]; cbn [option_map fst snd nth_error]; [reflexivity|].
        rewrite Hc by exact L. replace (c <? first) with false by lia. now replace (first + n <=? c) with true by lia. }
    assert (B : forall b, b < nb -> exists row, nth_error buf b = Some row /\ length row = N) by (intros; eapply shape_some; eauto).
    destruct o as [src|]; apply X; clear X IH.
    + assert (Hsrc : shape nb n src) by (apply (Hl n); now left). apply shape_intro.
      * rewrite map_length, combine_length. destruct Hsrc, Hb. lia.
      * intros b row E. rewrite nth_error_map, combine_nth_error in E. destruct (nth_error src b) as [s|] eqn:Es; [|discriminate]. destruct (nth_error buf b) as [t|] eqn:Et; [|discriminate]. injection E as <-. cbn [fst snd].
        pose proof (shape_nth _ _ _ _ _ Hsrc Es). pose proof (shape_nth _ _ _ _ _ Hb Et). rewrite blit_len; lia.
    + assert (Hsrc : shape nb n src) by (apply (Hl n); now left). intros b c L. destruct (B b L) as [t [Et Lt]]. destruct (shape_some _ _ _ _ Hsrc L) as [s [Es Ls]].
      unfold cell. rewrite nth_error_map, combine_nth_error, Es, Et. cbn [option_map fst snd]. rewrite blit_get by lia. reflexivity.
    + apply shape_intro; [rewrite map_length; apply Hb|]. intros b row E. rewrite nth_error_map in E. destruct (nth_error buf b) as [t|] eqn:Et; [|discriminate]. injection E as <-. pose proof (shape_nth _ _ _ _ _ Hb Et). rewrite blit_len; rewrite ?repeat_length; lia.
    + intros b c L. destruct (B b L) as [t [Et Lt]]. unfold cell. rewrite nth_error_map, Et. cbn [option_map]. rewrite blit_get by (rewrite ?repeat_length; lia). destruct ((c <? first) || (first + n <=? c)) eqn:E; [reflexivity|]. apply nth_error_repeat. lia.
Qed.
Lemma origin_some ns c : c < list_sum ns <-> exists p, origin ns c = Some p.
Proof.
  revert c. induction ns as [|n ns IH]; intros c; cbn [origin list_sum fold_right]; [split; [lia|now intros [p]]|]. change (fold_right Nat.add 0 ns) with (list_sum ns). destruct (Nat.ltb_spec c n); [split; [eauto|lia]|].
  split.
  - intros L. assert (X : c - n < list_sum ns) by lia. apply IH in X. destruct X as [p E]. rewrite E. cbn. eauto.
  - intros [p E]. destruct (origin ns (c - n)) eqn:E'; [|discriminate]. assert (c - n < list_sum ns) by (apply IH; eauto). lia.
Qed.
Lemma origin_get ns c i j : origin ns c = Some (i, j) -> exists n, nth_error ns i = Some n /\ j < n.
Proof.
  revert c i. induction ns as [|n ns IH]; intros c i; cbn [origin]; [discriminate|]. destruct (Nat.ltb_spec c n) as [L|L]; [intros [= <- <-]; exists n; now split|].
  destruct (origin ns (c - n)) as [[i' j']|] eqn:E; [|discriminate]. cbn [option_map fst snd]. intros [= <- <-]. cbn [nth_error]. eauto.
Qed.

Section Multi.
Variables V F W : Type.
Variable near : Qc -> Qc -> bool.
Notation slot := (slot V F W).
Notation reader := (reader V F W).
Notation data := (data V F W).
Notation flags := (flags V F W).
Notation weights := (weights V F W).

Lemma delivers_step (r : reader) outs : delivers near r outs -> match read _ _ _ near r with None => outs = [] | Some (r', x) => r_info _ _ _ r' = r_info _ _ _ r /\ exists outs', outs = x :: outs' /\ delivers near r' outs' end.
Proof.
  intros [[|fuel] E]; cbn [TimesModel.read_all] in E; [discriminate|]. unfold read. destruct (TimesModel.process _ _ _ _) as [[st x]|]; [|now injection E as <-].
  destruct (TimesModel.read_all _ _ _ fuel st) as [r0|] eqn:E'; [|discriminate]. injection E as <-. split; [reflexivity|]. exists r0. split; [reflexivity|]. exists fuel. exact E'.
Qed.

(** What reading one time slot of every reader gives *)
Definition advanced (l l' : list (option reader)) (ss : list (option slot)) (outs outs' : nat -> list (Qc * option slot)) (i0 : nat) : Prop :=
  length l' = length l /\ length ss = length l /\ forall i, match nth_error l i with
    | None => True
    | Some None => nth_error l' i = Some None /\ nth_error ss i = Some None
    | Some (Some r) => exists r' t s, nth_error l' i = Some (Some r') /\ r_info _ _ _ r' = r_info _ _ _ r /\ nth_error ss i = Some (Some s) /\ outs (i0 + i) = (t, Some s) :: outs' (i0 + i) /\ delivers near r' (outs' (i0 + i))
    end.
Lemma read_each_ok first x0 l : forall i0 (outs : nat -> list (Qc * option slot)) l' ss,
  (forall i r, nth_error l i = Some (Some r) -> delivers near r (outs (i0 + i))) ->
  (forall r, first >= i0 -> nth_error l (first - i0) = Some (Some r) -> read _ _ _ near r = Some x0) ->
  read_each _ _ _ near first i0 x0 l = Ok (l', ss) -> advanced l l' ss outs (fun i => tl (outs i)) i0.
Proof.
  induction l as [|[r|] l IH]; intros i0 outs l' ss Hd Hx E; cbn [read_each] in E.
  - injection E as <- <-. split; [reflexivity|]. split; [reflexivity|]. intros [|i]; exact I.
  - assert (R : exists x, (if i0 =? first then Some x0 else read _ _ _ near r) = x /\ x = read _ _ _ near r).
    { eexists. split; [reflexivity|]. destruct (Nat.eqb_spec i0 first) as [Ei|Ei]; [|reflexivity]. symmetry. apply Hx; [lia|]. now replace (first - i0) with 0 by lia. }
    destruct R as [x [R1 R2]]. rewrite R1, R2 in E. pose proof (delivers_step r (outs i0)) as D. specialize (Hd 0 r eq_refl) as D0. rewrite Nat.add_0_r in D0. specialize (D D0).
    destruct (read _ _ _ near r) as [[r' [t [s|]]]|]; try discriminate. destruct D as [D1 [outs' [D2 D3]]].
    destruct (read_each _ _ _ near first (S i0) x0 l) as [[rs ss']| |] eqn:E'; try discriminate. injection E as <- <-.
    apply (IH (S i0) outs) in E'; [| |].
    + destruct E' as (A1 & A2 & A3). split; [cbn; lia|]. split; [cbn; lia|]. intros [|i].
      * cbn [nth_error]. exists r', t, s. rewrite Nat.add_0_r, D2. cbn [tl]. auto.
      * specialize (A3 i). cbn [nth_error]. replace (S i0 + i) with (i0 + S i) in A3 by lia. exact A3.
    + intros i q Hq. specialize (Hd (S i) q Hq). now replace (S i0 + i) with (i0 + S i) by lia.
    + intros q Hf Hq. apply (Hx q ltac:(lia)). replace (first - i0) with (S (first - S i0)) by lia. exact Hq.
  - destruct (read_each _ _ _ near first (S i0) x0 l) as [[rs ss']| |] eqn:E'; try discriminate. injection E as <- <-.
    apply (IH (S i0) outs) in E'; [| |].
    + destruct E' as (A1 & A2 & A3). split; [cbn; lia|]. split; [cbn; lia|]. intros [|i]; [cbn; auto|]. specialize (A3 i). cbn [nth_error]. replace (S i0 + i) with (i0 + S i) in A3 by lia. exact A3.
    + intros i q Hq. specialize (Hd (S i) q Hq). now replace (S i0 + i) with (i0 + S i) by lia.
    + intros q Hf Hq. apply (Hx q ltac:(lia)). replace (first - i0) with (S (first - S i0)) by lia. exact Hq.
Qed.
Lemma read_each_accepts first x0 l : forall i0 (outs : nat -> list (Qc * option slot)),
  (forall i r, nth_error l i = Some (Some r) -> delivers near r (outs (i0 + i)) /\ exists t s rest, outs (i0 + i) = (t, Some s) :: rest) ->
  (forall r, first >= i0 -> nth_error l (first - i0) = Some (Some r) -> read _ _ _ near r = Some x0) ->
  exists l' ss, read_each _ _ _ near first i0 x0 l = Ok (l', ss).
Proof.
  induction l as [|[r|] l IH]; intros i0 outs Hd Hx; cbn [read_each].
  - eauto.
  - assert (R : (if i0 =? first then Some x0 else read _ _ _ near r) = read _ _ _ near r).
    { destruct (Nat.eqb_spec i0 first) as [Ei|Ei]; [|reflexivity]. symmetry. apply Hx; [lia|]. now replace (first - i0) with 0 by lia. }
    rewrite R. destruct (Hd 0 r eq_refl) as [D0 (t & s & rest & D1)]. rewrite Nat.add_0_r in D0, D1. apply delivers_step in D0. destruct (read _ _ _ near r) as [[r' x]|]; [|congruence]. destruct D0 as [_ (outs' & D2 & _)]. rewrite D1 in D2. injection D2 as <- <-.
    destruct (IH (S i0) outs) as (l' & ss & E).
    + intros i q Hq. specialize (Hd (S i) q Hq). now replace (S i0 + i) with (i0 + S i) by lia.
    + intros q Hf Hq. apply (Hx q ltac:(lia)). replace (first - i0) with (S (first - S i0)) by lia. exact Hq.
    + rewrite E. cbn. eauto.
  - destruct (IH (S i0) outs) as (l' & ss & E).
    + intros i q Hq. specialize (Hd (S i) q Hq). now replace (S i0 + i) with (i0 + S i) by lia.
    + intros q Hf Hq. apply (Hx q ltac:(lia)). replace (first - i0) with (S (first - S i0)) by lia. exact Hq.
    + rewrite E. cbn. eauto.
Qed.

(** The loops over the readers give the values of every channel *)
Lemma parts_ok {A} (get : slot -> list (list A)) (empty : A) n nb l l' ss outs outs' buf :
  advanced l l' ss outs outs' 0 -> (forall i r t s rest, nth_error l i = Some (Some r) -> outs i = (t, Some s) :: rest -> shape nb (n_chan _ _ _ r) (get s)) -> shape nb (list_sum (channels n l)) buf ->
  let m := fill empty 0 (map (fun p => (match fst p with Some r => n_chan _ _ _ r | None => n end, option_map get (snd p))) (combine l ss)) buf in
  shape nb (list_sum (channels n l)) m /\ taken get empty n nb l (fun i => match nth_error ss i with Some o => o | None => None end) m.
Proof.
  intros (A1 & A2 & A3) Hg Hb m. set (parts := map _ (combine l ss)) in m.
  assert (G : forall i, nth_error parts i = match nth_error l i with Some r => match nth_error ss i with Some s => Some (match r with Some r => n_chan _ _ _ r | None => n end, option_map get s) | None => None end | None => None end).
  { intros i. unfold parts. rewrite nth_error_map, combine_nth_error. destruct (nth_error l i); [|reflexivity]. now destruct (nth_error ss i). }
  assert (P : map fst parts = channels n l).
  { apply nth_error_same. intros i. rewrite nth_error_map, G. unfold channels. rewrite nth_error_map. destruct (nth_error l i) eqn:El; [|reflexivity]. destruct (nth_error ss i) eqn:Es; [reflexivity|]. apply nth_error_None in Es. assert (i < length l) by (apply nth_error_Some; congruence). lia. }
  destruct (fill_ok empty nb (list_sum (channels n l)) parts 0 buf Hb) as [F1 F2].
  - rewrite P. lia.
  - intros k src I. apply In_nth_error in I. destruct I as [i E]. rewrite G in E. specialize (A3 i). destruct (nth_error l i) as [[r|]|] eqn:El; [| |discriminate].
    + destruct A3 as (r' & t & s & B1 & B2 & B3 & B4 & B5). rewrite B3 in E. cbn [option_map] in E. injection E as <- <-. eapply Hg; eauto.
    + destruct A3 as [_ B]. rewrite B in E. discriminate.
  - split; [exact F1|]. intros b c i j L Ho. unfold m. rewrite F2 by exact L. cbn [Nat.ltb Nat.leb]. rewrite Nat.sub_0_r, P, Ho, G. specialize (A3 i). destruct (nth_error l i) as [[r|]|] eqn:El.
    + destruct A3 as (r' & t & s & B1 & B2 & B3 & B4 & B5). now rewrite B3.
    + destruct A3 as [_ B]. now rewrite B.
    + apply origin_get in Ho. destruct Ho as (k & Hk & _). unfold channels in Hk. now rewrite nth_error_map, El in Hk.
Qed.
End Multi.
