(** C63: the chains of steps inside a split. *)
From Coq Require Import Ascii String List Bool Arith Lia.
From Verif Require Import StrModel SplitModel SplitSpec SplitProofs SplitProps AverageModel CombineModel CombineProps SubchainModel.
Import ListNotations.
Open Scope nat_scope.

(** A text without quotes *)
Definition no_quotes (v : list ascii) : Prop := forall c, In c v -> c <> "'"%char /\ c <> """"%char.
Lemma get_string_plain v : no_quotes v -> get_string v = Some v.
Proof.
  intros H. apply get_string_iff. exists (map plain v). split; [|split].
  - rewrite Forall_map, Forall_forall. intros c Hc. now apply H.
  - induction v as [|c v IH]; [reflexivity|]. cbn. f_equal. apply IH. intros x Hx. apply H. now right.
  - induction v as [|c v IH]; [reflexivity|]. cbn. f_equal. apply IH. intros x Hx. apply H. now right.
Qed.
Lemma opt_map_plain es : Forall no_quotes es -> opt_map get_string es = Some es.
Proof. induction es as [|v es IH]; intros F; [reflexivity|]. inversion F; subst. cbn [opt_map]. rewrite get_string_plain by assumption. now rewrite IH. Qed.

(** The values of a parameter as the user wrote them: a list of [n] texts without quotes *)
Definition written (p : parset) (n : nat) (key : string) (es : list (list ascii)) : Prop :=
  (exists v, lookup key p = Some v /\ get_vector v = Some es) /\ Forall no_quotes es /\ List.length es = n.

Lemma string_vector_written p n key es : written p n key es -> string_vector p key = Ok es.
Proof. intros ((v & Hl & Hg) & F & _). unfold string_vector. rewrite Hl, Hg. now rewrite opt_map_plain. Qed.
Lemma replace_values_written p n keys values : Forall2 (written p n) keys values ->
  forall first, (match first with Some m => m = n | None => True end) -> replace_values p keys first = Ok values.
Proof.
  induction 1 as [|k es keys values W F IH]; intros first Hf; [reflexivity|]. cbn [replace_values].
  rewrite (string_vector_written _ _ _ _ W). destruct W as (_ & _ & L).
  assert (E : (match first with Some n0 => n0 | None => List.length es end) = n) by (destruct first; congruence).
  rewrite E, L, Nat.eqb_refl. now rewrite IH.
Qed.
Lemma replace_all_lookup keys values i : forall p key, List.length keys = List.length values ->
  (forall j es, nth_error keys j = Some key -> nth_error values j = Some es -> forall j' es', nth_error keys j' = Some key -> nth_error values j' = Some es' -> es' = es) ->
  (forall j es, nth_error keys j = Some key -> nth_error values j = Some es -> lookup key (replace_all keys values i p) = Some (nth i es [])) /\
  (~ In key keys -> lookup key (replace_all keys values i p) = lookup key p).
Proof.
  unfold replace_all. intros p key L U.
  assert (K : forall (l : list (string * list (list ascii))) (p : parset), (forall v, In (key, v) l -> forall v', In (key, v') l -> v' = v) ->
    (forall v, In (key, v) l -> lookup key (fold_left (fun p kv => put (fst kv) (nth i (snd kv) []) p) l p) = Some (nth i v [])) /\
    ((forall v, ~ In (key, v) l) -> lookup key (fold_left (fun p kv => put (fst kv) (nth i (snd kv) []) p) l p) = lookup key p)).
  { clear. intros l. induction l as [|[k v] l IH] using rev_ind; intros p U; [split; [intros v []|reflexivity]|].
    rewrite fold_left_app. cbn [fold_left fst snd]. rewrite lookup_put.
    assert (U' : forall v0, In (key, v0) l -> forall v', In (key, v') l -> v' = v0).
    { intros v0 H0 v' H'. apply (U v0); apply in_or_app; now left. }
    destruct (IH p U') as [I1 I2]. destruct (String.eqb_spec k key) as [->|Hk].
    - split.
      + intros v0 H0. f_equal. f_equal. apply (U v0 H0). apply in_or_app. right. now left.
      + intros N. exfalso. apply (N v). apply in_or_app. right. now left.
    - split.
      + intros v0 H0. apply in_app_or in H0 as [H0|[H0|[]]]; [now apply I1|injection H0; congruence].
      + intros N. apply I2. intros v0 H0. apply (N v0). apply in_or_app. now left. }
  assert (C : forall v, In (key, v) (combine keys values) <-> exists j, nth_error keys j = Some key /\ nth_error values j = Some v).
  { clear - L. revert values L. induction keys as [|k keys IH]; intros [|w values] L v; try discriminate L.
    - split; [intros []|intros ([|j] & H & _); discriminate H].
    - cbn [combine In]. rewrite IH by (now injection L). split.
      + intros [[= -> ->]|(j & H)]; [now exists 0|now exists (S j)].
      + intros ([|j] & H1 & H2); cbn in H1, H2; [left; congruence|right; now exists j]. }
  destruct (K (combine keys values) p) as [K1 K2].
  { intros v Hv v' Hv'. apply C in Hv as (j & H1 & H2). apply C in Hv' as (j' & H1' & H2'). exact (U j v H1 H2 j' v' H1' H2'). }
  split.
  - intros j es H1 H2. apply K1. apply C. now exists j.
  - intros N. apply K2. intros v Hv. apply C in Hv as (j & H1 & _). apply N. now apply nth_error_In in H1.
Qed.

Lemma chains_lookup keys values n key : List.length keys = List.length values ->
  (forall j es, nth_error keys j = Some key -> nth_error values j = Some es -> forall j' es', nth_error keys j' = Some key -> nth_error values j' = Some es' -> es' = es) ->
  forall numbers p, (forall i, In i numbers -> i < n) ->
  let l := fst (chains keys values numbers p) in
  List.length l = List.length numbers /\
  forall m q i, nth_error l m = Some q -> nth_error numbers m = Some i ->
    (forall j es, nth_error keys j = Some key -> nth_error values j = Some es -> lookup key q = Some (nth i es [])) /\
    (~ In key keys -> lookup key q = lookup key p).
Proof.
  intros L U. induction numbers as [|i numbers IH]; intros p Hn; cbn [chains].
  - split; [reflexivity|]. intros [|m] q i H; discriminate H.
  - specialize (IH (replace_all keys values i p) ltac:(intros x Hx; apply Hn; now right)).
    destruct (chains keys values numbers (replace_all keys values i p)) as [l q0] eqn:E. cbn [fst] in *. destruct IH as [IL IH].
    destruct (replace_all_lookup keys values i p key L U) as [R1 R2]. split; [cbn; congruence|].
    intros [|m] q i' H1 H2; cbn [nth_error] in *.
    + injection H1 as <-. injection H2 as <-. split; [exact R1|exact R2].
    + destruct (IH m q i' H1 H2) as [J1 J2]. split; [exact J1|]. intros N. rewrite J2 by exact N. now apply R2.
Qed.

(** * C63 *)
(** The values of every replaced parameter are lists of [n] texts without quotes: there are [n] chains; the parameters of chain [i] are those of the user,
    but for the replaced ones, which have the text number [i] of their list. *)
Theorem C63_values p prefix n keys values : keys <> [] ->
  (exists es, written p (List.length keys) (prefix ++ "replaceparms") es /\ map string_of_list_ascii es = keys) ->
  Forall2 (written p n) keys values ->
  exists l q, split_step p prefix = Ok (l, q) /\ List.length l = n /\
  forall i pi, nth_error l i = Some pi ->
    (forall j key es, nth_error keys j = Some key -> nth_error values j = Some es -> exists v, nth_error es i = Some v /\ lookup key pi = Some v) /\
    (forall key, ~ In key keys -> lookup key pi = lookup key p).
Proof.
  intros NE (es0 & W0 & E0) F. unfold split_step. rewrite (string_vector_written _ _ _ _ W0), E0.
  rewrite (replace_values_written p n keys values F None I).
  assert (LV : Forall (fun v => List.length v = n) values).
  { clear -F. induction F as [|k v keys values (_ & _ & L) F IH]; constructor; auto. }
  assert (LK : List.length keys = List.length values) by (clear -F; induction F; cbn; congruence).
  assert (NS : match values with [] => 0 | v :: _ => List.length v end = n).
  { destruct values as [|v values]; [destruct keys; [congruence|discriminate LK]|]. now inversion LV. }
  rewrite NS. destruct (chains keys values (seq 0 n) p) as [l q] eqn:E. exists l, q. split; [reflexivity|].
  assert (U : forall key j es, nth_error keys j = Some key -> nth_error values j = Some es ->
            forall j' es', nth_error keys j' = Some key -> nth_error values j' = Some es' -> es' = es).
  { assert (G : forall j k es, nth_error keys j = Some k -> nth_error values j = Some es -> written p n k es).
    { clear -F. induction F as [|k v keys values W F IH]; intros [|j] k' es H1 H2; cbn in *; try discriminate.
      - now injection H1 as <-; injection H2 as <-.
      - now apply (IH j). }
    intros key j es H1 H2 j' es' H1' H2'. destruct (G _ _ _ H1 H2) as ((v & A & B) & _). destruct (G _ _ _ H1' H2') as ((v' & A' & B') & _). congruence. }
  assert (CL := fun key => chains_lookup keys values n key LK (U key) (seq 0 n) p ltac:(intros i Hi; apply in_seq in Hi; lia)).
  rewrite E in CL. cbn [fst] in CL. split; [destruct (CL EmptyString) as [CL1 _]; now rewrite CL1, seq_length|].
  intros i pi Hi. assert (Li : i < n). { destruct (CL EmptyString) as [CL1 _]. rewrite seq_length in CL1. rewrite <- CL1. apply nth_error_Some. congruence. }
  assert (Si : nth_error (seq 0 n) i = Some i). { rewrite (nth_error_nth' _ 0) by now rewrite seq_length. now rewrite seq_nth. }
  split.
  - intros j key es H1 H2. destruct (CL key) as [_ CL2]. destruct (CL2 i pi i Hi Si) as [A _]. exists (nth i es []).
    split; [|now apply (A j)]. apply nth_error_nth'. rewrite Forall_forall in LV. rewrite (LV es); [exact Li|]. now apply nth_error_In in H2.
  - intros key N. destruct (CL key) as [_ CL2]. destruct (CL2 i pi i Hi Si) as [_ A]. now apply A.
Qed.
Print Assumptions C63_values.
Example C63_values_case :
  let p := [("s.replaceparms", str "[avg.freqstep,out.name]"); ("avg.freqstep", str "[2, 4]"); ("out.name", str "[a,b]"); ("avg.type", str "average")]%string in
  match split_step p "s." with Ok (l, _) => map (fun q => map (fun k => lookup k q) ["avg.freqstep"; "out.name"; "avg.type"]%string) l | _ => [] end =
  [[Some (str "2"); Some (str "a"); Some (str "average")]; [Some (str "4"); Some (str "b"); Some (str "average")]].
Proof. vm_compute. reflexivity. Qed.

(** Lists of different lengths are refused. *)
Theorem C63_refused p prefix k1 k2 n1 n2 v1 v2 more es : written p (2 + List.length more) (prefix ++ "replaceparms") es ->
  map string_of_list_ascii es = k1 :: k2 :: more -> written p n1 k1 v1 -> written p n2 k2 v2 -> n1 <> n2 -> split_step p prefix = Throw.
Proof.
  intros W E W1 W2 N. unfold split_step. rewrite (string_vector_written _ _ _ _ W), E. cbn [replace_values].
  rewrite (string_vector_written _ _ _ _ W1), (string_vector_written _ _ _ _ W2), Nat.eqb_refl.
  destruct W1 as (_ & _ & L1), W2 as (_ & _ & L2). destruct (Nat.eqb_spec (List.length v2) (List.length v1)); [lia|reflexivity].
Qed.
Print Assumptions C63_refused.
Example C63_refused_case : split_step [("s.replaceparms", str "[x,y]"); ("x", str "[2, 4]"); ("y", str "[a,b,c]")]%string "s." = Throw.
Proof. reflexivity. Qed.

(** Missing: quotes.  They are taken away when the list is split, so that a list inside loses them: a step that reads the first value of the parameter as a
    list of texts gets two of them instead of one. *)
Theorem C63_quotes_refuted : exists p prefix key v es l q p0, lookup key p = Some v /\ get_vector v = Some es /\
  split_step p prefix = Ok (l, q) /\ nth_error l 0 = Some p0 /\
  string_vector p0 key = Ok [str "a"; str "b"] /\ string_vector [(key, nth 0 es [])] key = Ok [str "a,b"].
Proof.
  exists [("s.replaceparms", str "[x]"); ("x", str "[['a,b'],[c]]")]%string, "s."%string, "x"%string. do 5 eexists.
  split; [reflexivity|]. split; [vm_compute; reflexivity|]. split; [vm_compute; reflexivity|]. split; [reflexivity|]. split; vm_compute; reflexivity.
Qed.
Print Assumptions C63_quotes_refuted.
(** Nor are the parameters of the caller what they were: a second split made of them has one chain instead of two. *)
Theorem C63_caller_refuted : exists p prefix l q l2 q2, split_step p prefix = Ok (l, q) /\ List.length l = 2 /\
  split_step q prefix = Ok (l2, q2) /\ List.length l2 = 1.
Proof.
  exists [("s.replaceparms", str "[x]"); ("x", str "[a,b]")]%string, "s."%string. do 4 eexists.
  split; [vm_compute; reflexivity|]. split; [reflexivity|]. split; [vm_compute; reflexivity|]. reflexivity.
Qed.
Print Assumptions C63_caller_refuted.
