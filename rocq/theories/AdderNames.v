(** Proofs about the definition of the superstations. *)
From Coq Require Import Ascii String List Bool Arith ZArith QArith Qcanon Lia ZifyBool ZifyNat.
From Verif Require Import QcUtil AverageModel AdderModel AdderSpec AdderProofs.
Import ListNotations.
Open Scope nat_scope.

Lemma sign_spec p : (exists r, negative p r /\ sign p = (false, r)) \/ (sign p = (true, p) /\ forall r, ~ negative p r).
Proof.
  unfold sign, negative. destruct p as [|ch r].
  - right. split; [reflexivity|]. intros r [_ [H|H]]; discriminate.
  - destruct (String.eqb_spec r "") as [->|N]; cbn [negb andb].
    + right. split; [reflexivity|]. intros r [H1 [H|H]]; injection H as _ <-; congruence.
    + destruct (Ascii.eqb_spec ch "!") as [->|N1]; cbn [orb]; [left; exists r; auto|].
      destruct (Ascii.eqb_spec ch "^") as [->|N2]; [left; exists r; auto|]. right. split; [reflexivity|].
      intros r' [_ [H|H]]; injection H as -> _; congruence.
Qed.

Section Names.
Variable m : string -> string -> bool.

Definition used_after (names patterns : list string) : list bool :=
  fold_left (fun used p => let (v, q) := sign p in set_used m names used v q) patterns (repeat false (length names)).

Lemma set_used_length names used v q : length used = length names -> length (set_used m names used v q) = length names.
Proof. intros H. unfold set_used. rewrite map_length, combine_length. lia. Qed.
Lemma set_used_nth names used v q i name : length used = length names -> nth_error names i = Some name ->
  nth i (set_used m names used v q) false = if m q name then v else nth i used false.
Proof.
  unfold set_used. revert used i. induction names as [|n names IH]; intros [|u used] i L E; try discriminate; [destruct i; discriminate|].
  destruct i as [|i]; cbn in *; [injection E as ->; reflexivity|]. apply IH; [lia|exact E].
Qed.
Lemma used_after_spec names patterns : length (used_after names patterns) = length names /\
  forall i name, nth_error names i = Some name -> (nth i (used_after names patterns) false = true <-> selected m name (map sign patterns)).
Proof.
  induction patterns as [|p ps IH] using rev_ind.
  - unfold used_after. cbn. split; [apply repeat_length|]. intros i name _. split.
    + intros H. exfalso. assert (K : forall n i, nth i (repeat false n) false = false) by (clear; induction n; intros [|i]; cbn; auto). rewrite K in H. discriminate.
    + intros (b & q & a & E & _). destruct b; discriminate.
  - destruct IH as [L IH]. unfold used_after. rewrite fold_left_app. cbn [fold_left]. fold (used_after names ps).
    destruct (sign p) as [v q] eqn:S. split; [now apply set_used_length|]. intros i name E. rewrite (set_used_nth _ _ _ _ _ name L E).
    rewrite map_app. cbn [map]. rewrite S. specialize (IH i name E). destruct (m q name) eqn:M.
    + split.
      * intros ->. exists (map sign ps), q, []. split; [reflexivity|]. split; [exact M|]. intros x [].
      * intros (b & q' & a & Eq & M' & HA). destruct a as [|x a] using rev_ind.
        -- apply app_inj_tail in Eq as [_ [= -> ->]]. reflexivity.
        -- exfalso. replace (b ++ (true, q') :: a ++ [x]) with ((b ++ (true, q') :: a) ++ [x]) in Eq by now rewrite <- app_assoc.
           apply app_inj_tail in Eq as [_ <-]. specialize (HA (v, q)). cbn in HA. rewrite HA in M; [discriminate|]. apply in_or_app. right. now left.
    + rewrite IH. split.
      * intros (b & q' & a & Eq & M' & HA). exists b, q', (a ++ [(v, q)]). split; [rewrite Eq, <- app_assoc; reflexivity|]. split; [exact M'|].
        intros x Hx. apply in_app_iff in Hx as [Hx|[<-|[]]]; [now apply HA|exact M].
      * intros (b & q' & a & Eq & M' & HA). destruct a as [|x a] using rev_ind.
        -- apply app_inj_tail in Eq as [_ [= -> ->]]. congruence.
        -- replace (b ++ (true, q') :: a ++ [x]) with ((b ++ (true, q') :: a) ++ [x]) in Eq by now rewrite <- app_assoc.
           apply app_inj_tail in Eq as [Eq _]. exists b, q', a. split; [exact Eq|]. split; [exact M'|]. intros y Hy. apply HA, in_or_app. now left.
Qed.

Lemma matching_spec names patterns : NoDup (matching_stations m names patterns) /\
  forall i, In i (matching_stations m names patterns) <-> exists name, nth_error names i = Some name /\ selected m name (map sign patterns).
Proof.
  destruct (used_after_spec names patterns) as [L H]. unfold matching_stations. fold (used_after names patterns). set (used := used_after names patterns) in *. split.
  - assert (K : forall (l : list bool) s, NoDup (map fst (filter snd (combine (seq s (length l)) l))) /\
                  forall i, In i (map fst (filter snd (combine (seq s (length l)) l))) -> s <= i).
    { clear. induction l as [|b l IH]; intros s; cbn; [split; [constructor|intros i []]|]. destruct (IH (S s)) as [A B].
      destruct b; cbn; (split; [try (constructor; [intros X; apply B in X; lia|])|]); auto.
      - intros i [<-|X]; [lia|apply B in X; lia].
      - intros i X. apply B in X. lia. }
    apply K.
  - intros i. rewrite in_map_iff. split.
    + intros ([j b] & <- & X). apply filter_In in X as [X B]. cbn in B. subst b. apply in_combine_seq in X as [_ X]. rewrite Nat.sub_0_r in X. cbn [fst].
      destruct (nth_error names j) as [name|] eqn:E.
      * exists name. split; [reflexivity|]. apply (H j name E). now apply nth_error_nth.
      * exfalso. apply nth_error_None in E. assert (j < length used) by (apply nth_error_Some; congruence). lia.
    + intros (name & E & S). exists (i, true). split; [reflexivity|]. apply filter_In. split; [|reflexivity]. apply in_combine_seq. split; [lia|]. rewrite Nat.sub_0_r.
      apply (H i name E) in S. assert (i < length used) by (rewrite L; apply nth_error_Some; congruence).
      rewrite (nth_error_nth' _ false) by assumption. now rewrite S.
Qed.

(** * Conflicts *)
Lemma mark_one stations p id i : i < length stations ->
  nth i (map (fun iz : nat * Z => if fst iz =? p then id else snd iz) (combine (seq 0 (length stations)) stations)) 0%Z = if i =? p then id else nth i stations 0%Z.
Proof.
  intros H. apply nth_error_nth. rewrite nth_error_map.
  assert (K : forall (l : list Z) s k, k < length l -> nth_error (combine (seq s (length l)) l) k = Some (s + k, nth k l 0%Z)).
  { clear. induction l as [|x l IH]; intros s k H; cbn in H; [lia|]. destruct k as [|k]; cbn; [now rewrite Nat.add_0_r|]. rewrite IH by lia. f_equal. f_equal. lia. }
  rewrite K by exact H. reflexivity.
Qed.
Lemma mark_spec id : (0 <= id)%Z -> forall parts stations, NoDup parts -> (forall p, In p parts -> p < length stations) ->
  match mark stations id parts with
  | Some st => length st = length stations /\ (forall p, In p parts -> (nth p stations 0 < 0)%Z) /\
               forall i, i < length stations -> ((0 <= nth i st 0)%Z <-> (0 <= nth i stations 0)%Z \/ In i parts)
  | None => exists p, In p parts /\ (0 <= nth p stations 0)%Z
  end.
Proof.
  intros Hid. induction parts as [|p parts IH]; intros stations ND HP; cbn [mark].
  - split; [reflexivity|]. split; [intros p []|]. intros i _. cbn. tauto.
  - inversion_clear ND as [|? ? NI ND']. destruct (Z.leb_spec 0 (nth p stations 0%Z)) as [L|L]; [exists p; split; [now left|exact L]|].
    set (st1 := map _ (combine _ stations)). assert (L1 : length st1 = length stations) by (unfold st1; rewrite map_length, combine_length, seq_length; lia).
    assert (Lp : p < length stations) by (apply HP; now left).
    assert (N1 : forall i, i < length stations -> nth i st1 0%Z = if i =? p then id else nth i stations 0%Z) by (intros; now apply mark_one).
    specialize (IH st1 ND'). rewrite L1 in IH. specialize (IH (fun q H => HP q (or_intror H))).
    destruct (mark st1 id parts) as [st|].
    + destruct IH as (A & B & C). split; [exact A|]. split.
      * intros q [<-|Hq]; [exact L|]. specialize (B q Hq). rewrite N1 in B by (apply HP; now right). destruct (Nat.eqb_spec q p); [lia|exact B].
      * intros i Hi. rewrite (C i Hi), (N1 i Hi). cbn. destruct (Nat.eqb_spec i p) as [->|N]; [split; auto|]. 
        split; [intros [X|X]; auto|intros [X|[X|X]]; auto; congruence].
    + destruct IH as (q & Hq & X). exists q. split; [now right|]. rewrite N1 in X by (apply HP; now right). destruct (Nat.eqb_spec q p) as [->|N]; [contradiction|exact X].
Qed.

Definition overlap (a b : list nat) : Prop := exists p, In p a /\ In p b.
Definition kept (names : list string) (entries : list (string * list string)) : list (string * list nat) :=
  filter (fun d => match snd d with [] => false | _ => true end) (map (fun e => (fst e, matching_stations m names (snd e))) entries).
(** pairwise without overlap *)
Fixpoint apart (l : list (list nat)) : Prop := match l with [] => True | a :: r => (forall b, In b r -> ~ overlap a b) /\ apart r end.

Lemma apart_app a b : apart (a ++ b) <-> apart a /\ apart b /\ forall x y, In x a -> In y b -> ~ overlap x y.
Proof.
  induction a as [|x a IH]; cbn; [tauto|]. rewrite IH. split.
  - intros (H1 & H2 & H3 & H4). split; [split; [|exact H2]|split; [exact H3|]].
    + intros y Hy. apply H1, in_or_app. now left.
    + intros u v [<-|Hu] Hv; [apply H1, in_or_app; now right|now apply H4].
  - intros ([H1 H2] & H3 & H4). split; [|split; [exact H2|split; [exact H3|]]].
    + intros y Hy. apply in_app_iff in Hy as [Hy|Hy]; [now apply H1|apply H4; auto].
    + intros u v Hu Hv. apply H4; auto.
Qed.

Definition st_inv (n : nat) (stations : list Z) (new : list (string * list nat)) : Prop :=
  length stations = n /\ forall i, i < n -> ((0 <= nth i stations 0)%Z <-> exists d, In d new /\ In i (snd d)).

Lemma existsb_name name l : existsb (String.eqb name) l = true <-> In name l.
Proof.
  rewrite existsb_exists. split; [intros (x & I & E); apply String.eqb_eq in E; now subst|intros I; exists name; now rewrite String.eqb_refl].
Qed.

Lemma define_spec names : forall entries stations new, st_inv (length names) stations new ->
  NoDup (map fst entries) -> (forall n, In n (map fst entries) -> ~ In n (map fst new)) ->
  (define m names entries stations new = Ok (new ++ kept names entries) /\
   (forall n, In n (map fst entries) -> ~ In n names) /\ apart (map snd (kept names entries)) /\
   forall d e, In d new -> In e (kept names entries) -> ~ overlap (snd d) (snd e)) \/
  (define m names entries stations new = Throw /\
   ((exists n, In n (map fst entries) /\ In n names) \/ ~ apart (map snd (kept names entries)) \/
    exists d e, In d new /\ In e (kept names entries) /\ overlap (snd d) (snd e))).
Proof.
  induction entries as [|[name ps] r IH]; intros stations new HS ND HN.
  - left. cbn. rewrite app_nil_r. split; [reflexivity|]. split; [intros n []|]. split; [exact I|]. intros d e _ [].
  - cbn [define]. cbn [map fst] in ND, HN. inversion_clear ND as [|? ? NI ND'].
    destruct (existsb (String.eqb name) names) eqn:E1; cbn [orb].
    { right. split; [reflexivity|]. left. exists name. split; [now left|now apply existsb_name]. }
    destruct (existsb (String.eqb name) (map fst new)) eqn:E2.
    { exfalso. apply existsb_name in E2. apply (HN name); [now left|exact E2]. }
    assert (N1 : ~ In name names) by (rewrite <- existsb_name; congruence).
    unfold kept. cbn [map filter fst snd]. fold (kept names r). destruct (matching_stations m names ps) as [|p0 parts'] eqn:EM.
    + destruct (IH stations new HS ND') as [(D & A & B & C)|(D & X)]; [intros n Hn; apply HN; now right| |].
      * left. split; [exact D|]. split; [intros n [<-|Hn]; auto|]. split; [exact B|exact C].
      * right. split; [exact D|]. destruct X as [(n & X & Y)|X]; [left; exists n; split; [now right|exact Y]|right; exact X].
    + rewrite <- EM. destruct (matching_spec names ps) as [NDm Hm]. set (parts := matching_stations m names ps) in *.
      assert (HP : forall p, In p parts -> p < length stations).
      { intros p Hp. apply Hm in Hp as (nm & Hp & _). destruct HS as [-> _]. apply nth_error_Some. congruence. }
      pose proof (mark_spec (Z.of_nat (length new)) (Nat2Z.is_nonneg _) parts stations NDm HP) as MS.
      destruct (mark stations (Z.of_nat (length new)) parts) as [st|].
      * destruct MS as (M1 & M2 & M3). destruct HS as [S1 S2].
        assert (HO : forall d, In d new -> ~ overlap (snd d) parts).
        { intros d Hd (p & P1 & P2). specialize (M2 p P2). specialize (HP p P2). rewrite S1 in HP. assert (0 <= nth p stations 0)%Z by (apply S2; [exact HP|now exists d]). lia. }
        assert (HS' : st_inv (length names) st (new ++ [(name, parts)])).
        { split; [lia|]. intros i Hi. rewrite <- S1 in Hi. rewrite (M3 i Hi). rewrite S1 in Hi. rewrite (S2 i Hi). split.
          - intros [(d & D1 & D2)|X]; [exists d; split; [apply in_or_app; now left|exact D2]|]. exists (name, parts). split; [apply in_or_app; right; now left|exact X].
          - intros (d & D1 & D2). apply in_app_iff in D1 as [D1|[<-|[]]]; [left; now exists d|right; exact D2]. }
        destruct (IH st (new ++ [(name, parts)]) HS' ND') as [(D & A & B & C)|(D & X)].
        { intros n Hn. rewrite map_app, in_app_iff. cbn. intros [X|[X|[]]]; [apply (HN n); [now right|exact X]|subst; contradiction]. }
        -- left. rewrite D, <- app_assoc. split; [reflexivity|]. split; [intros n [<-|Hn]; auto|]. split.
           ++ cbn [map snd apart]. split; [|exact B]. intros b Hb. apply in_map_iff in Hb as (e & <- & He). apply (C (name, parts)); [apply in_or_app; right; now left|exact He].
           ++ intros d e Hd [<-|He]; [now apply HO|]. apply C; [apply in_or_app; now left|exact He].
        -- right. split; [exact D|]. destruct X as [(n & X & Y)|[X|(d & e & X & Y & Z)]].
           ++ left. exists n. split; [now right|exact Y].
           ++ right. left. cbn [map snd apart]. tauto.
           ++ apply in_app_iff in X as [X|[<-|[]]].
              ** right. right. exists d, e. split; [exact X|]. split; [now right|exact Z].
              ** right. left. cbn [map snd apart]. intros [K _]. apply (K (snd e)); [now apply in_map|exact Z].
      * destruct MS as (p & P1 & P2). right. split; [reflexivity|]. right. right. destruct HS as [S1 S2]. specialize (HP p P1). rewrite S1 in HP.
        apply S2 in P2 as (d & D1 & D2); [|exact HP]. exists d, (name, parts). split; [exact D1|]. split; [now left|]. now exists p.
Qed.
End Names.
