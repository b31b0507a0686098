(** Lemmas about the names and values in a ParmDB. *)
From Coq Require Import Ascii String Reals List Arith Bool Lia Lra.
From Verif Require Import RealCplx AverageModel GainFileModel GainFileSpec.
Import ListNotations.
Open Scope R_scope.

Lemma assoc_filter {A} (f : string -> bool) (l : list (string * A)) k : f k = true -> assoc (filter (fun y => f (fst y)) l) k = assoc l k.
Proof.
  intros F. induction l as [|[k' v] l IH]; [reflexivity|]. cbn [filter fst assoc]. destruct (String.eqb_spec k' k) as [->|N].
  - rewrite F. cbn. now rewrite String.eqb_refl.
  - destruct (f k'); cbn [assoc]; [|exact IH]. apply String.eqb_neq in N. now rewrite N.
Qed.
Lemma assoc_in {A} (l : list (string * A)) k v : assoc l k = Some v -> In (k, v) l.
Proof. induction l as [|[k' v'] l IH]; cbn; [discriminate|]. destruct (String.eqb_spec k' k) as [->|N]; [intros [= ->]; auto|auto]. Qed.
Lemma assoc_none {A} (l : list (string * A)) k : (forall v, ~ In (k, v) l) -> assoc l k = None.
Proof. intros H. destruct (assoc l k) as [v|] eqn:E; [|reflexivity]. apply assoc_in in E. now destruct (H v). Qed.
Lemma prefix_app s a : prefix s (s ++ a) = true.
Proof. induction s as [|c s IH]; cbn; [now destruct a|]. destruct (ascii_dec c c); congruence. Qed.
Lemma contains_plain c p s : (forall a b, s <> (a ++ String c b)%string) -> contains (String c p) s = false.
Proof.
  induction s as [|d s IH]; intros H; [reflexivity|]. cbn [contains]. rewrite IH by (intros a b ->; now apply (H (String d a) b)). rewrite orb_false_r. cbn.
  destruct (ascii_dec c d) as [->|]; [|reflexivity]. exfalso. now apply (H EmptyString s).
Qed.
Lemma prefix_split p s : prefix p s = true -> exists a, s = (p ++ a)%string.
Proof.
  revert s. induction p as [|c p IH]; intros s H; [now exists s|]. destruct s as [|d s]; cbn in H; [discriminate|]. destruct (ascii_dec c d) as [->|]; [|discriminate]. destruct (IH s H) as [a ->]. now exists a.
Qed.
(** A colon before the name of a station does not start :phase_center *)
Lemma colon_plain s : plain s -> contains ":phase_center" (String ":" s) = false.
Proof.
  intros [H1 H2]. cbn [contains]. rewrite (contains_plain ":" "phase_center" s) by (intros a b E; now apply (H1 a b)). rewrite orb_false_r.
  destruct (prefix ":phase_center" (String ":" s)) eqn:P; [|reflexivity]. apply prefix_split in P as [a E]. cbn in E. injection E as E. now destruct (H2 a).
Qed.
Lemma contains_cons p c s : prefix p (String c s) = false -> contains p (String c s) = contains p s.
Proof. intros H. cbn [contains]. now rewrite H. Qed.

Section Store.
Context {cell : Type}.
Notation entry := (string * (cell -> R))%type.
Lemma put_lookup (d : db cell) x k : assoc (vals cell (put_value cell d x)) k = if String.eqb (fst x) k then Some (snd x) else assoc (vals cell d) k.
Proof.
  destruct x as [n v]. cbn [put_value vals fst snd assoc]. destruct (String.eqb_spec n k) as [->|N]; [reflexivity|].
  rewrite (assoc_filter (fun y => negb (String.eqb y n))); [reflexivity|]. destruct (String.eqb_spec k n); [congruence|reflexivity].
Qed.
Lemma put_all_lookup (l : list entry) d k : (forall v v', In (k, v) l -> In (k, v') l -> v = v') ->
  (forall v, In (k, v) l -> assoc (vals cell (fold_left (put_value cell) l d)) k = Some v) /\
  ((forall v, ~ In (k, v) l) -> assoc (vals cell (fold_left (put_value cell) l d)) k = assoc (vals cell d) k).
Proof.
  revert d. induction l as [|[n w] l IH]; intros d U; cbn [fold_left]; [split; [intros v []|reflexivity]|].
  assert (U' : forall v v', In (k, v) l -> In (k, v') l -> v = v') by (intros v v' I I'; apply U; now right).
  destruct (IH (put_value cell d (n, w)) U') as [H1 H2]. split.
  - intros v [E|I]; [|now apply H1]. injection E as -> ->.
    destruct (assoc l k) as [v'|] eqn:E.
    + apply assoc_in in E. rewrite (H1 v' E). f_equal. apply U; [now right|now left].
    + assert (N : forall v', ~ In (k, v') l). { intros v' I. clear - E I. induction l as [|[k' u] l IH]; cbn in *; [tauto|]. destruct (String.eqb_spec k' k) as [->|N]; [discriminate|]. destruct I as [I|I]; [congruence|auto]. }
      rewrite (H2 N), put_lookup. cbn. now rewrite String.eqb_refl.
  - intros N. rewrite H2 by (intros v I; apply (N v); now right). rewrite put_lookup. cbn. destruct (String.eqb_spec n k) as [->|]; [|reflexivity]. destruct (N w). now left.
Qed.
Lemma put_all_in (l : list entry) d k v : In (k, v) (vals cell (fold_left (put_value cell) l d)) -> In (k, v) l \/ In (k, v) (vals cell d).
Proof.
  revert d. induction l as [|x l IH]; intros d I; cbn [fold_left] in *; [now right|]. destruct (IH _ I) as [J|J]; [left; now right|]. cbn [put_value vals] in J. destruct J as [<-|J]; [left; now left|]. apply filter_In in J. tauto.
Qed.
Lemma put_all_names (l : list entry) d n : In n (names cell (fold_left (put_value cell) l d)) <-> In n (map fst l) \/ In n (names cell d).
Proof.
  revert d. induction l as [|x l IH]; intros d; cbn [fold_left map]; [cbn; tauto|]. rewrite IH. cbn [put_value names].
  destruct (existsb (String.eqb (fst x)) (names cell d)) eqn:E.
  - apply existsb_exists in E as (y & I & E). apply String.eqb_eq in E. subst y. cbn. intuition congruence.
  - rewrite in_app_iff. cbn. intuition.
Qed.
Lemma put_all_defs (l : list entry) d : defs cell (fold_left (put_value cell) l d) = defs cell d.
Proof. revert d. induction l as [|x l IH]; intros d; [reflexivity|]. cbn [fold_left]. now rewrite IH. Qed.
Lemma least_in (l : list entry) n : least cell l n = n \/ In (least cell l n) (map fst l).
Proof.
  revert n. induction l as [|[k v] l IH]; intros n; [now left|]. cbn [least map fst]. destruct (IH (if String.ltb k n then k else n)) as [E|I]; [|right; now right].
  rewrite E. destruct (String.ltb k n); [right; now left|now left].
Qed.
(** A parameter that is not common is the value, or else a default *)
Definition or_default (d : db cell) (r : option (cell -> R)) (e key : string) (x : cell) : outcome R :=
  match r with
  | Some v => Ok (v x)
  | None => match assoc (defs cell d) key with Some v => Ok v | None => match assoc (defs cell d) e with Some v => Ok v | None => if prefix "Gain:" e then Ok 0 else Throw end end
  end.
Lemma append_nil_r s : (s ++ "")%string = s.
Proof. induction s as [|c s IH]; [reflexivity|]. cbn. now rewrite IH. Qed.
Lemma read_parm_plain d expr ant x : (forall k v, In (k, v) (vals cell d) -> contains ":phase_center" k = false) ->
  read_parm cell d false expr ant x = or_default d (assoc (vals cell d) (expr ++ ":" ++ ant)%string) expr (expr ++ ":" ++ ant)%string x.
Proof.
  intros H. unfold read_parm. rewrite (filter_ext _ (fun y => prefix expr (fst y))) by (intros y; apply orb_false_r).
  set (m := filter _ _). set (first := match m with [] => None | _ => _ end).
  assert (P : match first with Some k => if contains ":phase_center" k then ":phase_center"%string else ""%string | None => ""%string end = ""%string).
  { unfold first. assert (M : forall k v, In (k, v) m -> contains ":phase_center" k = false) by (intros k v I; apply filter_In in I as [I _]; eapply H; eauto).
    destruct m as [|[k v] l]; [reflexivity|]. destruct (least_in l k) as [E|I]; [rewrite E, (M k v (or_introl eq_refl)); reflexivity|].
    apply in_map_iff in I as ([k' v'] & E & I). cbn in E. rewrite <- E, (M k' v' (or_intror I)). reflexivity. }
  cbn zeta. rewrite P, append_nil_r. unfold m. rewrite (assoc_filter (prefix expr)) by apply prefix_app. reflexivity.
Qed.
Lemma read_parm_common d expr e ant x : (forall k v, In (k, v) (vals cell d) -> contains ":phase_center" k = false) ->
  (exists v, In ((e ++ ":" ++ ant)%string, v) (vals cell d)) ->
  (forall k v, In (k, v) (vals cell d) -> (prefix expr k || prefix ("Common" ++ expr) k)%bool = true -> before_colon k = e) -> (forall a, (prefix expr (e ++ a) || prefix ("Common" ++ expr) (e ++ a))%bool = true) ->
  read_parm cell d true expr ant x = or_default d (assoc (vals cell d) (e ++ ":" ++ ant)%string) e (e ++ ":" ++ ant)%string x.
Proof.
  intros H (w & W) B E. unfold read_parm. rewrite (filter_ext _ (fun y => (fun k => prefix expr k || prefix ("Common" ++ expr) k)%bool (fst y))) by reflexivity.
  set (m := filter _ _). set (first := match m with [] => None | _ => _ end).
  assert (P : exists k, first = Some k /\ contains ":phase_center" k = false /\ before_colon k = e).
  { unfold first. assert (M : forall k v, In (k, v) m -> contains ":phase_center" k = false /\ before_colon k = e) by (intros k v I; apply filter_In in I as [I J]; split; [eapply H; eauto|eapply B; eauto]).
    assert (I : In ((e ++ ":" ++ ant)%string, w) m) by (apply filter_In; split; [exact W|apply E]).
    destruct m as [|[k v] l]; [destruct I|]. eexists. split; [reflexivity|]. destruct (least_in l k) as [X|X]; [rewrite X; apply (M k v (or_introl eq_refl))|].
    apply in_map_iff in X as ([k' v'] & X & Y). cbn in X. rewrite <- X. apply (M k' v' (or_intror Y)). }
  destruct P as (k & -> & P1 & P2). cbn zeta. rewrite P1, P2, append_nil_r. unfold m. rewrite (assoc_filter (fun k => prefix expr k || prefix ("Common" ++ expr) k)%bool) by apply E. reflexivity.
Qed.
End Store.
