(** Properties of patterns of names and of values per station (common/StringTools.cc, common/ValuePerStationParsing.h). *)
From Coq Require Import Ascii String List Bool Arith ZArith Lia.
From Verif Require Import StrModel StrProofs SplitModel InfoModel PatternModel PatternSpec.
Import ListNotations.
Open Scope nat_scope.

(** * C61: patterns *)

(** The items of a pattern *)
Definition item_of (c : ascii) : item := if Ascii.eqb c "*" then Star Any else if Ascii.eqb c "?" then One Any else One (Lit c).
Definition text_of (c : ascii) : list ascii :=
  if Ascii.eqb c "." then ["\"; "."]%char else if Ascii.eqb c "*" then ["."; "*"]%char else if Ascii.eqb c "?" then ["."]%char else [c].

Lemma eqb_dec (a b : ascii) : {a = b} + {a <> b /\ Ascii.eqb a b = false}.
Proof. destruct (Ascii.eqb_spec a b); auto. Qed.
Lemma replace_char_cons c by_ x s : replace_char c by_ (x :: s) = (if Ascii.eqb x c then by_ else [x]) ++ replace_char c by_ s.
Proof. reflexivity. Qed.
Lemma replace_char_app c by_ a b : replace_char c by_ (a ++ b) = replace_char c by_ a ++ replace_char c by_ b.
Proof. unfold replace_char. apply flat_map_app. Qed.
Lemma pattern_to_regex_text p : pattern_to_regex p = flat_map text_of p.
Proof.
  unfold pattern_to_regex. cbv zeta. induction p as [|c p IH]; auto. cbn [flat_map]. rewrite <- IH. rewrite !replace_char_cons, !replace_char_app.
  f_equal. unfold text_of. destruct (Ascii.eqb_spec c "."); [subst; reflexivity|]. cbn. destruct (Ascii.eqb_spec c "*"); [reflexivity|]. cbn.
  destruct (Ascii.eqb_spec c "?"); reflexivity.
Qed.

Lemma special_plain c : plain_char c -> special c = true -> c = "."%char \/ c = "*"%char \/ c = "?"%char.
Proof.
  intros P S. unfold special in S. apply existsb_exists in S as (d & Hd & E). apply Ascii.eqb_eq in E as <-. unfold plain_char in P. cbn in Hd, P.
  repeat (destruct Hd as [<-|Hd]; [tauto|]). contradiction.
Qed.
(** The next item does not start with a repetition *)
Lemma text_head c p : plain_char c -> forall a, fst (repetition a (flat_map text_of (c :: p))) = One a /\ snd (repetition a (flat_map text_of (c :: p))) = false.
Proof.
  intros P a. cbn [flat_map]. unfold text_of at 1 3. destruct (Ascii.eqb_spec c "."); [now subst|]. destruct (Ascii.eqb_spec c "*"); [now subst|].
  destruct (Ascii.eqb_spec c "?"); [now subst|]. cbn. destruct (eqb_dec c "*") as [|[_ ->]]; [contradiction|].
  destruct (Ascii.eqb_spec c "+") as [->|]; auto. exfalso. apply P. cbn. tauto.
Qed.
Lemma repetition_text p a : Forall plain_char p -> repetition a (flat_map text_of p) = (One a, false).
Proof.
  intros H. destruct p as [|c p]; auto. inversion H; subst. destruct (text_head c p H2 a) as [E1 E2].
  destruct (repetition a _). cbn in *. now subst.
Qed.
Lemma parse_text : forall p fuel, Forall plain_char p -> List.length (flat_map text_of p) <= fuel ->
  parse_regex fuel (flat_map text_of p) = Some (map item_of p).
Proof.
  induction p as [|c p IH]; intros fuel H L. { now destruct fuel. } inversion H as [|? ? Hc Hp]; subst.
  cbn [flat_map map] in *. rewrite app_length in L. unfold text_of at 1 in L. unfold text_of at 1, item_of at 1.
  destruct (Ascii.eqb_spec c "."); [|destruct (Ascii.eqb_spec c "*"); [|destruct (Ascii.eqb_spec c "?")]].
  - subst c. cbn [List.length] in L. destruct fuel as [|fuel]; [lia|]. cbn [app parse_regex Ascii.eqb Bool.eqb special existsb orb].
    rewrite repetition_text by auto. rewrite IH by (auto; lia). reflexivity.
  - subst c. cbn [List.length] in L. destruct fuel as [|fuel]; [lia|]. cbn [app parse_regex Ascii.eqb Bool.eqb repetition tl].
    rewrite IH by (auto; lia). reflexivity.
  - subst c. cbn [List.length] in L. destruct fuel as [|fuel]; [lia|]. cbn [app parse_regex Ascii.eqb Bool.eqb].
    rewrite repetition_text by auto. rewrite IH by (auto; lia). reflexivity.
  - cbn [List.length] in L. destruct fuel as [|fuel]; [lia|]. cbn [app parse_regex].
    destruct (Ascii.eqb_spec c "\") as [->|]; [exfalso; apply Hc; cbn; tauto|]. destruct (eqb_dec c ".") as [|[_ ->]]; [contradiction|].
    destruct (special c) eqn:S. { apply special_plain in S; auto. tauto. }
    rewrite repetition_text by auto. rewrite IH by (auto; lia). reflexivity.
Qed.

Lemma any_matches c s : one_line (c :: s) -> atom_matches Any c = true /\ one_line s.
Proof.
  intros [H1 H2]. cbn in H1, H2. split; [|split; tauto]. cbn [atom_matches]. apply negb_true_iff, orb_false_iff.
  split; apply Ascii.eqb_neq; intros ->; tauto.
Qed.
Lemma star_equation a rest s : regex_match (Star a :: rest) s =
  regex_match rest s || match s with c :: s' => atom_matches a c && regex_match (Star a :: rest) s' | [] => false end.
Proof. destruct s; reflexivity. Qed.
Lemma regex_glob : forall p s, one_line s -> regex_match (map item_of p) s = true <-> glob p s.
Proof.
  induction p as [|c p IH]; intros s Hs.
  - cbn. split; intros H; [destruct s; [constructor|discriminate]|inversion H; subst; auto].
  - cbn [map]. unfold item_of at 1. destruct (Ascii.eqb_spec c "*") as [->|N1]; [|destruct (Ascii.eqb_spec c "?") as [->|N2]].
    + induction s as [|d s IHs]; rewrite star_equation.
      * rewrite orb_false_r, IH by auto. split; intros H; [now constructor|]. inversion H; subst; auto.
      * destruct (any_matches d s Hs) as [-> Hs']. cbn [andb]. rewrite orb_true_iff, IH, IHs by auto. split.
        -- intros [H|H]; now constructor.
        -- intros H. inversion H; subst; auto; try congruence.
    + cbn [regex_match]. destruct s as [|d s].
      * split; intros H; [discriminate|inversion H].
      * destruct (any_matches d s Hs) as [-> Hs']. cbn [andb]. rewrite IH by auto. split; intros H; [now constructor|]. inversion H; subst; auto; try congruence.
    + cbn [regex_match]. destruct s as [|d s].
      * split; intros H; [discriminate|inversion H; subst; congruence].
      * destruct (any_matches d s Hs) as [_ Hs']. cbn [atom_matches]. rewrite andb_true_iff, IH, Ascii.eqb_eq by auto. split.
        -- intros [-> H]. now constructor.
        -- intros H. inversion H; subst; try congruence. auto.
Qed.

(** The regular expression of a pattern matches exactly the names of the pattern. *)
Theorem C61_pattern : forall pattern name, Forall plain_char pattern -> one_line name ->
  exists m, name_matches pattern name = Some m /\ (m = true <-> glob pattern name).
Proof.
  intros p s Hp Hs. unfold name_matches. cbv zeta. rewrite pattern_to_regex_text, parse_text by auto. cbn [option_map].
  eexists. split; [reflexivity|]. now apply regex_glob.
Qed.
Print Assumptions C61_pattern.
Notation "$ x" := (list_ascii_of_string x%string) (at level 5).
Lemma case_pattern_plain : Forall plain_char $ "CS*.L?A".
Proof. unfold plain_char. cbn. repeat (apply Forall_cons; [intuition discriminate|]). apply Forall_nil. Qed.
Example C61_case : name_matches $ "CS*.L?A" $ "CS001.LBA" = Some true /\ name_matches $ "CS*.L?A" $ "CS001xLBA" = Some false /\
  name_matches $ "CS00?" $ "CS001" = Some true /\ name_matches $ "CS00?" $ "CS00" = Some false /\ name_matches $ "*" $ "" = Some true.
Proof. repeat split. Qed.
(** Other characters have a meaning of a regular expression: this station does not have its own name. *)
Theorem C61_special_refuted : exists name, glob name name /\ one_line name /\ name_matches name name = Some false.
Proof.
  exists $ "ST+1". split; [|split; [|reflexivity]].
  - repeat (apply glob_same; [discriminate|discriminate|]). constructor.
  - split; cbn; intuition discriminate.
Qed.
Print Assumptions C61_special_refuted.

(** * C30: values per station *)

Section Values.
Variables (m : list ascii -> list ascii -> bool) (V : Type) (parse_value : list ascii -> V).
Definition matches (p n : list ascii) : option bool := Some (m p n).

Lemma negated_spec p : negated p = (match leaves_out p with Some _ => true | None => false end, body p).
Proof.
  unfold body. destruct p as [|c [|d p]]; try reflexivity.
  - destruct c as [[] [] [] [] [] [] [] []]; reflexivity.
  - cbn [negated tl]. destruct (Ascii.eqb_spec c "!") as [->|N1]; [reflexivity|]. destruct (Ascii.eqb_spec c "^") as [->|N2]; [reflexivity|]. cbn [orb].
    replace (leaves_out (c :: d :: p)) with (@None (list ascii)); auto.
    destruct c as [[] [] [] [] [] [] [] []]; try reflexivity; exfalso; (apply N1; reflexivity) || (apply N2; reflexivity).
Qed.
Lemma set_selected_ok b p : forall names sel, List.length names = List.length sel ->
  set_selected matches b p names sel = Some (map (fun x => if m p (fst x) then b else snd x) (combine names sel)).
Proof.
  intros names sel _. unfold set_selected. induction (combine names sel) as [|[n s] l IH]; auto. cbn [opt_map map]. rewrite IH. reflexivity.
Qed.
Lemma select_ok names : forall patterns sel, List.length names = List.length sel ->
  select matches patterns names sel = Some (map (fun x : list ascii * bool =>
    match find (fun p => m (body p) (fst x)) (rev patterns) with
    | Some p => match leaves_out p with Some _ => false | None => true end
    | None => snd x
    end) (combine names sel)).
Proof.
  induction patterns as [|p patterns IH]; intros sel L.
  - cbn. f_equal. revert sel L. induction names as [|n names IHn]; intros [|s sel] L; try discriminate; auto. cbn. f_equal. apply IHn. now injection L.
  - cbn [select]. rewrite negated_spec. rewrite set_selected_ok by auto. rewrite IH.
    2: { now rewrite map_length, combine_length, L, Nat.min_id. }
    f_equal. clear IH. revert sel L. induction names as [|n names IHn]; intros [|s sel] L; try discriminate; auto. cbn [combine map fst snd].
    f_equal; [|apply IHn; now injection L]. cbn [rev]. set (f := fun q => m (body q) n).
    assert (F : forall l, find f (l ++ [p]) = match find f l with Some x => Some x | None => if f p then Some p else None end).
    { induction l as [|x l IHl]; cbn; auto. destruct (f x); auto. }
    rewrite F. destruct (find f (rev patterns)); auto. unfold f. destruct (m (body p) n); auto. now destruct (leaves_out p).
Qed.
Lemma assign_ok names result value text patterns : get_string_vector text = Some patterns -> List.length names = List.length result ->
  assign_values matches result value text names =
  Some (map (fun x : list ascii * V => if picked m patterns (fst x) then value else snd x) (combine names result)).
Proof.
  intros H L. unfold assign_values. rewrite H, select_ok by now rewrite repeat_length. cbn [option_map]. f_equal.
  clear H. revert result L. induction names as [|n names IH]; intros [|r result] L; try discriminate; auto. cbn. f_equal. apply IH. now injection L.
Qed.

(** An item of the list: patterns, a colon and a value *)
Definition means (text : list ascii) (item : list (list ascii) * V) : Prop :=
  exists before after, text = before ++ ":"%char :: after /\ ~ In ":"%char before /\
    get_string_vector before = Some (fst item) /\ parse_value after = snd item.

Lemma find_colon before after : ~ In ":"%char before -> find_from ":" (before ++ ":"%char :: after) 0 = Some (List.length before).
Proof.
  induction before as [|c b IH]; intros H; auto. cbn [app find_from]. destruct (Ascii.eqb_spec c ":") as [->|]; [exfalso; apply H; now left|].
  rewrite IH; auto. intros X. apply H. now right.
Qed.
(** Each station gets the value of the last item that picks it, and keeps its value if there is none. *)
Theorem C30_values : forall texts items names defaults,
  Forall2 means texts items -> List.length names = List.length defaults ->
  parse_values matches parse_value texts names defaults =
  Some (map (fun x : list ascii * V => station_value m items (fst x) (snd x)) (combine names defaults)).
Proof.
  intros texts items names defaults H. revert defaults. induction H as [|text item texts items (b & a & -> & Nc & Hb & Ha) H IH]; intros defaults L.
  - cbn. f_equal. revert defaults L. induction names as [|n names IHn]; intros [|s sel] L; try discriminate; auto. cbn. f_equal. apply IHn. now injection L.
  - cbn [parse_values]. rewrite find_colon by auto. rewrite firstn_app, Nat.sub_diag, firstn_all. cbn [firstn]. rewrite app_nil_r.
    replace (skipn (List.length b + 1) (b ++ ":"%char :: a)) with a.
    2: { clear. induction b; cbn; auto. }
    rewrite (assign_ok names defaults _ b (fst item)) by auto. rewrite IH by now rewrite map_length, combine_length, L, Nat.min_id.
    f_equal. rewrite Ha. clear - L. revert defaults L. induction names as [|n names IHn]; intros [|s sel] L; try discriminate; auto. cbn [combine map fst snd].
    f_equal; [|apply IHn; now injection L]. unfold station_value. cbn [rev]. set (f := fun i : list (list ascii) * V => picked m (fst i) n).
    assert (F : forall l, find f (l ++ [item]) = match find f l with Some x => Some x | None => if f item then Some item else None end).
    { induction l as [|x l IHl]; cbn; auto. destruct (f x); auto. }
    rewrite F. destruct (find f (rev items)); auto. unfold f. now destruct (picked m (fst item) n).
Qed.
(** A list with an item without a colon is refused. *)
Theorem C30_refused : forall before text after names defaults, ~ In ":"%char text ->
  parse_values matches parse_value (before ++ text :: after) names defaults = None.
Proof.
  intros before text after names. assert (N : ~ In ":"%char text -> find_from ":" text 0 = None).
  { induction text as [|c t IH]; intros H; auto. cbn. destruct (Ascii.eqb_spec c ":") as [->|]; [exfalso; apply H; now left|].
    rewrite IH; auto. intros X. apply H. now right. }
  induction before as [|x before IH]; intros defaults H; cbn [app parse_values].
  - now rewrite N.
  - destruct (find_from ":" x 0); auto. destruct (assign_values _ _ _ _ _); auto.
Qed.
End Values.
Print Assumptions C30_values. Print Assumptions C30_refused.
Definition case_stations : list (list ascii) := [$ "RS017"; $ "CS001"; $ "CS002"; $ "DE601"].
Definition case_items : list (list ascii) := [$ "*:2"; $ "[RS017, CS*, ^CS001]:3"].
Definition case_matches (p n : list ascii) : bool := match name_matches p n with Some b => b | None => false end.
Example C30_case : parse_values name_matches stream_size case_items case_stations [1; 1; 1; 1]%Z = Some [3; 2; 3; 2]%Z.
Proof. vm_compute. reflexivity. Qed.
Example C30_case_items : Forall2 (means Z stream_size) case_items [([$ "*"], 2%Z); ([$ "RS017"; $ "CS*"; $ "^CS001"], 3%Z)].
Proof.
  repeat constructor.
  - exists $ "*", $ "2". repeat split; cbn; intuition discriminate.
  - exists $ "[RS017, CS*, ^CS001]", $ "3". repeat split; cbn; intuition discriminate.
Qed.
(** Something that is no number is not refused, but is zero; and minus one is a huge value. *)
Theorem C30_no_number_refuted : exists items, parse_values name_matches stream_size items case_stations [1; 1; 1; 1]%Z = Some [0; 18446744073709551615; 4; 1]%Z /\
  items = [$ "RS*:all"; $ "CS001:-1"; $ "CS002:4x"].
Proof. eexists. split; [|reflexivity]. vm_compute. reflexivity. Qed.
Print Assumptions C30_no_number_refuted.
