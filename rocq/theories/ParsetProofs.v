(** Proofs for C24 and C25. *)
From Coq Require Import List Bool Arith ZArith Ascii String Lia Sorted.
From Verif Require Import StrModel ParsetModel ParsetSpec.
Import ListNotations.
Open Scope nat_scope.

(** ** Keys as lists of numbers *)
Definition ncode (md : mode) (c : ascii) : Z := match md with NORMAL => Z.of_nat (code c) | NOCASE => schar (toupper c) end.
Definition nrm (md : mode) (k : key) : list Z := map (ncode md) k.

Fixpoint lx (a b : list Z) : bool :=
  match a, b with
  | _, [] => false
  | [], _ :: _ => true
  | x :: a', y :: b' => if (x <? y)%Z then true else if (y <? x)%Z then false else lx a' b'
  end.

Lemma char_lt_ncode md a b : char_lt md a b = (ncode md a <? ncode md b)%Z.
Proof.
  destruct md; [|reflexivity]. cbn [char_lt ncode]. destruct (Nat.ltb_spec (code a) (code b)), (Z.ltb_spec (Z.of_nat (code a)) (Z.of_nat (code b))); auto; lia.
Qed.

Lemma less_lx md : forall a b, less md a b = lx (nrm md a) (nrm md b).
Proof.
  induction a as [|x a IH]; intros [|y b]; try reflexivity. cbn [less nrm map lx]. rewrite !char_lt_ncode. fold (nrm md a) (nrm md b). now rewrite IH.
Qed.

Lemma lx_irrefl a : lx a a = false.
Proof. induction a; cbn; [reflexivity|]. rewrite Z.ltb_irrefl. exact IHa. Qed.

Lemma lx_trans : forall a b c, lx a b = true -> lx b c = true -> lx a c = true.
Proof.
  induction a as [|x a IH]; intros [|y b] [|z c]; cbn; try discriminate; auto.
  destruct (Z.ltb_spec x y), (Z.ltb_spec y z), (Z.ltb_spec x z), (Z.ltb_spec y x), (Z.ltb_spec z y), (Z.ltb_spec z x); try discriminate; try lia; auto. eauto.
Qed.

Lemma lx_total : forall a b, lx a b = false -> lx b a = false -> a = b.
Proof.
  induction a as [|x a IH]; intros [|y b]; cbn; try discriminate; auto.
  destruct (Z.ltb_spec x y), (Z.ltb_spec y x); try discriminate; try lia. intros. assert (x = y) by lia. subst. f_equal. auto.
Qed.

Lemma lx_ge_trans a b c : lx b a = false -> lx b c = true -> lx a c = true.
Proof.
  intros H1 H2. destruct (lx a b) eqn:E; [eapply lx_trans; eauto|]. rewrite (lx_total a b E H1). exact H2.
Qed.

Definition pref (p a : list Z) : Prop := exists r, a = p ++ r.

Lemma pref_ge : forall p r, lx (p ++ r) p = false.
Proof. induction p as [|x p IH]; intros r; cbn; [destruct r; reflexivity|]. rewrite Z.ltb_irrefl. apply IH. Qed.

(** Keys with a given prefix are contiguous. *)
Lemma pref_convex : forall p a b, lx a p = false -> lx a b = true -> pref p b -> pref p a.
Proof.
  induction p as [|x p IH]; intros a b Ha Hab [r ->]; [exists a; reflexivity|].
  destruct a as [|y a]; [discriminate|]. cbn in Ha, Hab.
  destruct (Z.ltb_spec y x); [discriminate|]. destruct (Z.ltb_spec x y); [discriminate|]. assert (y = x) by lia. subst y.
  destruct (IH a (p ++ r) Ha Hab ltac:(exists r; reflexivity)) as [r' ->]. exists r'. reflexivity.
Qed.

(** *** Same keys have the same numbers *)
Definition all_chars : list ascii := map ascii_of_nat (seq 0 256).
Lemma all_chars_In c : In c all_chars.
Proof.
  apply in_map_iff. exists (nat_of_ascii c). split; [apply ascii_nat_embedding|]. apply in_seq. pose proof (nat_ascii_bounded c). lia.
Qed.

Definition letters : list (ascii * ascii) :=
  combine (list_ascii_of_string "abcdefghijklmnopqrstuvwxyz") (list_ascii_of_string "ABCDEFGHIJKLMNOPQRSTUVWXYZ").
Definition same_letter_b (a b : ascii) : bool :=
  existsb (fun p => (Ascii.eqb (fst p) a && Ascii.eqb (snd p) b) || (Ascii.eqb (fst p) b && Ascii.eqb (snd p) a)) letters.

Lemma same_letter_iff a b : same_letter_b a b = true <-> same_letter a b.
Proof.
  unfold same_letter_b, same_letter. rewrite existsb_exists. split.
  - intros ([x y] & Hin & H). cbn [fst snd] in H. apply (In_nth _ _ (x, y)) in Hin as (i & Hi & E).
    exists i. assert (E1 : nth_error letters i = Some (x, y)) by (rewrite <- E; apply nth_error_nth'; exact Hi).
    assert (E2 : nth_error (list_ascii_of_string "abcdefghijklmnopqrstuvwxyz") i = Some x /\ nth_error (list_ascii_of_string "ABCDEFGHIJKLMNOPQRSTUVWXYZ") i = Some y).
    { clear -E1. do 26 (destruct i as [|i]; [cbn in *; split; congruence|]). cbn in E1. destruct i; discriminate. }
    destruct E2 as [-> ->]. apply orb_true_iff in H as [H|H]; apply andb_true_iff in H as [H1 H2]; apply Ascii.eqb_eq in H1, H2; subst; cbn; auto.
  - intros (i & H). apply existsb_exists. do 26 (destruct i as [|i]; [cbn in H; destruct H as [H|[H|[]]]; injection H; intros; subst; vm_compute; reflexivity|]).
    cbn in H. destruct i; cbn in H; destruct H as [H|[H|[]]]; discriminate.
Qed.

Definition char_table : list (ascii * (Z * ascii)) := map (fun c => (c, (ncode NOCASE c, tolower c))) all_chars.
Lemma ncode_check : forallb (fun a => forallb (fun b =>
     Bool.eqb (fst (snd a) =? fst (snd b))%Z (Ascii.eqb (fst a) (fst b) || same_letter_b (fst a) (fst b))
     && Bool.eqb (Ascii.eqb (snd (snd a)) (snd (snd b))) (fst (snd a) =? fst (snd b))%Z) char_table) char_table = true.
Proof. vm_compute. reflexivity. Qed.

Lemma ncode_pair a b : ((ncode NOCASE a =? ncode NOCASE b)%Z = Ascii.eqb a b || same_letter_b a b) /\ (Ascii.eqb (tolower a) (tolower b) = (ncode NOCASE a =? ncode NOCASE b)%Z).
Proof.
  pose proof ncode_check as H. rewrite forallb_forall in H. specialize (H _ (in_map _ _ _ (all_chars_In a))). rewrite forallb_forall in H. specialize (H _ (in_map _ _ _ (all_chars_In b))).
  cbn [fst snd] in H. apply andb_true_iff in H as [H1 H2]. apply Bool.eqb_prop in H1, H2. auto.
Qed.

Lemma code_inj a b : code a = code b -> a = b.
Proof. intros H. rewrite <- (ascii_nat_embedding a), <- (ascii_nat_embedding b). unfold code in H. now rewrite H. Qed.

Lemma ncode_char md a b : ncode md a = ncode md b <-> match md with NORMAL => a = b | NOCASE => a = b \/ same_letter a b end.
Proof.
  destruct md.
  - cbn. split; [intros H; apply code_inj; lia|now intros ->].
  - destruct (ncode_pair a b) as [H _]. rewrite <- Z.eqb_eq, H, orb_true_iff, Ascii.eqb_eq, same_letter_iff. reflexivity.
Qed.

Lemma same_nrm md a b : same md a b <-> nrm md a = nrm md b.
Proof.
  destruct md; cbn [same].
  - split; [now intros ->|]. revert b. induction a as [|x a IH]; intros [|y b] H; try discriminate; auto.
    unfold nrm in H. cbn [map] in H. injection H as H1 H2. f_equal; [now apply (ncode_char NORMAL)|now apply IH].
  - revert b. induction a as [|x a IH]; intros b; split; intros H.
    + inversion H. reflexivity.
    + destruct b; [constructor|discriminate].
    + inversion H; subst. cbn. f_equal; [now apply (ncode_char NOCASE)|now apply IH].
    + destruct b as [|y b]; [discriminate|]. unfold nrm in H. cbn [map] in H. injection H as H1 H2. constructor; [now apply (ncode_char NOCASE)|now apply IH].
Qed.

Lemma key_eqb_eq : forall a b, key_eqb a b = true <-> a = b.
Proof.
  induction a as [|x a IH]; intros [|y b]; cbn; try (split; (reflexivity || discriminate)).
  rewrite andb_true_iff, Ascii.eqb_eq, IH. split; [intros [-> ->]; reflexivity|intros [= -> ->]; auto].
Qed.

Lemma nrm_app md a b : nrm md (a ++ b) = nrm md a ++ nrm md b.
Proof. apply map_app. Qed.
Lemma nrm_length md a : List.length (nrm md a) = List.length a.
Proof. apply map_length. Qed.

Lemma lower_nrm : forall a b, to_lower a = to_lower b <-> nrm NOCASE a = nrm NOCASE b.
Proof.
  induction a as [|x a IH]; intros [|y b]; cbn; try (split; (reflexivity || discriminate)). specialize (IH b).
  destruct (ncode_pair x y) as [_ H]. destruct (Ascii.eqb_spec (tolower x) (tolower y)) as [E|E], (Z.eqb_spec (ncode NOCASE x) (ncode NOCASE y)) as [F|F]; try discriminate.
  - cbn in F. rewrite E, F. split; intros X; f_equal; injection X; intros; now apply IH.
  - split; intros X; injection X; intros; [contradiction|]. cbn in F. contradiction.
Qed.

Lemma tolower_idem c : tolower (tolower c) = tolower c.
Proof.
  assert (H : forallb (fun c => Ascii.eqb (tolower (tolower c)) (tolower c)) all_chars = true) by (vm_compute; reflexivity).
  rewrite forallb_forall in H. apply Ascii.eqb_eq. apply H. apply all_chars_In.
Qed.

Lemma fold_base_nrm md b : nrm md (fold_base md b) = nrm md b.
Proof.
  destruct md; [reflexivity|]. cbn [fold_base]. apply lower_nrm. unfold to_lower. rewrite map_map. apply map_ext. apply tolower_idem.
Qed.
Lemma fold_base_length md b : List.length (fold_base md b) = List.length b.
Proof. destruct md; [reflexivity|apply map_length]. Qed.

Lemma nrm_firstn md n k : nrm md (firstn n k) = firstn n (nrm md k).
Proof. unfold nrm. symmetry. apply firstn_map. Qed.

Lemma matches_iff md base k : matches md (fold_base md base) k = true <-> pref (nrm md base) (nrm md k).
Proof.
  assert (X : matches md (fold_base md base) k = true <-> nrm md (firstn (List.length base) k) = nrm md base).
  { unfold matches, starts. destruct md; cbn [fold_base].
    - rewrite key_eqb_eq. rewrite <- (same_nrm NORMAL). reflexivity.
    - rewrite key_eqb_eq. unfold to_lower at 1. rewrite map_length. unfold to_lower at 1. rewrite <- lower_nrm. unfold to_lower. rewrite firstn_map. reflexivity. }
  rewrite X, nrm_firstn. split.
  - intros E. exists (skipn (List.length base) (nrm md k)). rewrite <- E, firstn_skipn. reflexivity.
  - intros [r E]. rewrite E, firstn_app. rewrite <- (nrm_length md base). rewrite firstn_all, Nat.sub_diag. cbn. apply app_nil_r.
Qed.

Lemma pref_prefixed md p k : pref (nrm md p) (nrm md k) <-> exists r, prefixed md p k r.
Proof.
  split.
  - intros [r E]. exists (skipn (List.length p) k), (firstn (List.length p) k). split; [now rewrite firstn_skipn|].
    apply same_nrm. rewrite nrm_firstn, E, firstn_app. rewrite <- (nrm_length md p). rewrite firstn_all, Nat.sub_diag. cbn. now rewrite app_nil_r.
  - intros (r & p' & -> & H). apply same_nrm in H. exists (nrm md r). rewrite nrm_app, <- H. reflexivity.
Qed.

Lemma prefixed_rest md p k r : prefixed md p k r -> r = skipn (List.length p) k.
Proof.
  intros (p' & -> & H). apply same_nrm in H. assert (L : List.length p = List.length p') by (rewrite <- (nrm_length md p), H; apply nrm_length).
  rewrite L, skipn_app, skipn_all, Nat.sub_diag. reflexivity.
Qed.

(** ** The ordered map *)
Arguments nrm : simpl never.
Section Map.
Context {V : Type}.
Variable md : mode.
Notation N k := (nrm md k).
Definition klt (x y : key * V) : Prop := lx (N (fst x)) (N (fst y)) = true.
Definition sorted (m : kvmap V) : Prop := StronglySorted klt m.

Lemma split_map k (m : kvmap V) : m = below V md k m ++ lower_bound V md k m.
Proof. induction m as [|[k0 v0] m IH]; [reflexivity|]. cbn. destruct (less md k0 k); cbn; congruence. Qed.

Lemma below_lt k (m : kvmap V) : Forall (fun x => lx (N (fst x)) (N k) = true) (below V md k m).
Proof. induction m as [|[k0 v0] m IH]; cbn; [constructor|]. destruct (less md k0 k) eqn:E; constructor; auto. rewrite less_lx in E. exact E. Qed.

Lemma lower_ge k (m : kvmap V) : sorted m -> Forall (fun x => lx (N (fst x)) (N k) = false) (lower_bound V md k m).
Proof.
  intros H. induction H as [|[k0 v0] m Hs IH Hf]; cbn; [constructor|]. destruct (less md k0 k) eqn:E; [exact IH|].
  rewrite less_lx in E. constructor; [exact E|]. rewrite Forall_forall in *. intros x Hx. specialize (Hf x Hx). unfold klt in Hf. cbn in Hf.
  destruct (lx (N (fst x)) (N k)) eqn:F; [|reflexivity]. rewrite <- E. symmetry. eapply lx_trans; eauto.
Qed.

Lemma sorted_app (a b : kvmap V) : sorted (a ++ b) <-> sorted a /\ sorted b /\ (forall x y, In x a -> In y b -> klt x y).
Proof.
  induction a as [|x a IH]; cbn [app].
  - split; [intros H; split; [constructor|]; split; auto; intros ? ? []|tauto].
  - split.
    + intros H. apply StronglySorted_inv in H as [H F]. apply IH in H as (Ha & Hb & Hab). rewrite Forall_app in F. destruct F as [F1 F2].
      split; [constructor; auto|]. split; [exact Hb|]. intros y z [<-|Hy] Hz; [rewrite Forall_forall in F2; auto|auto].
    + intros (Ha & Hb & Hab). apply StronglySorted_inv in Ha as [Ha F]. constructor; [apply IH; split; auto; split; auto; intros; apply Hab; cbn; auto|].
      apply Forall_app. split; [exact F|]. apply Forall_forall. intros y Hy. apply Hab; cbn; auto.
Qed.

Lemma sorted_unique (m : kvmap V) : sorted m -> forall x y, In x m -> In y m -> N (fst x) = N (fst y) -> x = y.
Proof.
  intros H. induction H as [|z m Hs IH F]; intros x y Hx Hy E; [destruct Hx|]. rewrite Forall_forall in F. unfold klt in F.
  destruct Hx as [<-|Hx], Hy as [<-|Hy]; auto.
  - specialize (F y Hy). rewrite E, lx_irrefl in F. discriminate.
  - specialize (F x Hx). rewrite E, lx_irrefl in F. discriminate.
Qed.

Lemma sorted_NoDup (m : kvmap V) : sorted m -> NoDup m.
Proof.
  intros H. induction H as [|z m Hs IH F]; constructor; auto. intros Hin. rewrite Forall_forall in F. specialize (F z Hin). unfold klt in F. rewrite lx_irrefl in F. discriminate.
Qed.

Lemma find_spec k (m : kvmap V) : sorted m ->
  match find V md k m with
  | Some (k0, v0) => N k0 = N k /\ lower_bound V md k m = (k0, v0) :: tl (lower_bound V md k m)
  | None => forall x, In x m -> N (fst x) <> N k
  end.
Proof.
  intros H. unfold find. pose proof (below_lt k m) as B. pose proof (lower_ge k m H) as L. pose proof (split_map k m) as E.
  rewrite Forall_forall in B, L. destruct (lower_bound V md k m) as [|[k0 v0] r] eqn:El.
  - intros x Hx Ex. rewrite E, app_nil_r in Hx. specialize (B x Hx). rewrite Ex, lx_irrefl in B. discriminate.
  - destruct (less md k k0) eqn:Eq; rewrite less_lx in Eq.
    + intros x Hx Ex. rewrite E in Hx. apply in_app_iff in Hx as [Hx|Hx].
      * specialize (B x Hx). rewrite Ex, lx_irrefl in B. discriminate.
      * rewrite E in H. apply sorted_app in H as (_ & H & _). apply StronglySorted_inv in H as [_ F]. rewrite Forall_forall in F.
        destruct Hx as [<-|Hx]; [cbn in Ex; rewrite Ex, lx_irrefl in Eq; discriminate|]. specialize (F x Hx). unfold klt in F. cbn in F.
        rewrite Ex in F. pose proof (lx_irrefl (N k)) as I. pose proof (lx_trans _ _ _ Eq F) as J. congruence.
    + split; [|reflexivity]. specialize (L (k0, v0) (or_introl eq_refl)). cbn in L. now apply lx_total.
Qed.

Lemma find_some k (m : kvmap V) k0 v0 : sorted m -> find V md k m = Some (k0, v0) <-> In (k0, v0) m /\ N k0 = N k.
Proof.
  intros H. pose proof (find_spec k m H) as F. split.
  - intros E. rewrite E in F. destruct F as [F1 F2]. split; [|exact F1]. rewrite (split_map k m), F2. apply in_app_iff. right. left. reflexivity.
  - intros [Hin E]. destruct (find V md k m) as [[k1 v1]|].
    + destruct F as [F1 F2]. f_equal. symmetry. apply (sorted_unique m H); auto; [|cbn; congruence]. rewrite (split_map k m), F2. apply in_app_iff. right. left. reflexivity.
    + exfalso. apply (F _ Hin). exact E.
Qed.

Lemma find_none k (m : kvmap V) : sorted m -> find V md k m = None <-> forall x, In x m -> N (fst x) <> N k.
Proof.
  intros H. split.
  - intros E. pose proof (find_spec k m H) as F. now rewrite E in F.
  - intros F. destruct (find V md k m) as [[k0 v0]|] eqn:E; [|reflexivity]. apply find_some in E as [E1 E2]; auto. exfalso. now apply (F _ E1).
Qed.

Lemma lower_gt k (m : kvmap V) : sorted m -> find V md k m = None -> forall x, In x (lower_bound V md k m) -> lx (N k) (N (fst x)) = true.
Proof.
  intros H F x Hx. pose proof (lower_ge k m H) as L. rewrite Forall_forall in L. specialize (L x Hx).
  destruct (lx (N k) (N (fst x))) eqn:E; [reflexivity|]. exfalso. apply (proj1 (find_none k m H) F x); [rewrite (split_map k m); apply in_app_iff; auto|].
  symmetry. now apply lx_total.
Qed.

Lemma mid_sorted k x (m r : kvmap V) : sorted m -> N (fst x) = N k -> (forall y, In y r -> lx (N k) (N (fst y)) = true) -> sorted r ->
  sorted (below V md k m ++ x :: r).
Proof.
  intros H E G Hr. apply sorted_app. rewrite (split_map k m) in H. apply sorted_app in H as (Hb & Hl & Hbl).
  pose proof (below_lt k m) as B. rewrite Forall_forall in B. split; [exact Hb|]. split.
  - constructor; [exact Hr|]. apply Forall_forall. intros y Hy. unfold klt. rewrite E. auto.
  - intros a b Ha [<-|Hb2]; unfold klt; [rewrite E; auto|]. eapply lx_trans; eauto.
Qed.

Lemma lower_sorted k (m : kvmap V) : sorted m -> sorted (lower_bound V md k m).
Proof. intros H. rewrite (split_map k m) in H. now apply sorted_app in H. Qed.
Lemma below_sorted k (m : kvmap V) : sorted m -> sorted (below V md k m).
Proof. intros H. rewrite (split_map k m) in H. now apply sorted_app in H. Qed.

Lemma insert_spec k v (m : kvmap V) : sorted m -> sorted (fst (insert V md k v m)) /\
  forall x, In x (fst (insert V md k v m)) <-> In x m \/ (x = (k, v) /\ forall y, In y m -> N (fst y) <> N k).
Proof.
  intros H. unfold insert. destruct (find V md k m) as [[k0 v0]|] eqn:E; cbn [fst].
  - split; [exact H|]. intros x. split; [auto|]. intros [?|[_ C]]; auto. apply find_some in E as [E1 E2]; auto. exfalso. now apply (C _ E1).
  - pose proof (lower_gt k m H E) as G. rewrite find_none in E by exact H. split.
    + apply mid_sorted; auto. now apply lower_sorted.
    + intros x. rewrite in_app_iff. cbn. rewrite (split_map k m) at 3. rewrite in_app_iff. intuition congruence.
Qed.

Lemma tl_gt k (m : kvmap V) k0 v0 : sorted m -> find V md k m = Some (k0, v0) -> sorted (tl (lower_bound V md k m)) /\
  (forall x, In x (tl (lower_bound V md k m)) -> lx (N k) (N (fst x)) = true).
Proof.
  intros H E. pose proof (find_spec k m H) as F. rewrite E in F. destruct F as [F1 F2]. pose proof (lower_sorted k m H) as S. rewrite F2 in S.
  apply StronglySorted_inv in S as [S1 S2]. cbn in S1. split; [exact S1|]. rewrite Forall_forall in S2. intros x Hx. specialize (S2 x Hx). unfold klt in S2. cbn in S2. congruence.
Qed.

Lemma erase_spec k (m : kvmap V) : sorted m -> sorted (fst (erase V md k m)) /\
  forall x, In x (fst (erase V md k m)) <-> In x m /\ N (fst x) <> N k.
Proof.
  intros H. unfold erase. destruct (find V md k m) as [[k0 v0]|] eqn:E; cbn [fst].
  - destruct (tl_gt k m k0 v0 H E) as [S G]. pose proof (find_spec k m H) as F. rewrite E in F. destruct F as [F1 F2].
    pose proof (below_lt k m) as B. rewrite Forall_forall in B. split.
    + apply sorted_app. split; [now apply below_sorted|]. split; [exact S|]. intros a b Ha Hb. eapply lx_trans; eauto.
    + intros x. rewrite in_app_iff. rewrite (split_map k m) at 3. rewrite in_app_iff, F2. cbn [In tl]. split.
      * intros [Hx|Hx]; (split; [auto|]); intros X.
        -- specialize (B x Hx). rewrite X, lx_irrefl in B. discriminate.
        -- specialize (G x Hx). rewrite X, lx_irrefl in G. discriminate.
      * intros [[Hx|[Hx|Hx]] X]; auto. subst x. cbn in X. contradiction.
  - rewrite find_none in E by exact H. split; [exact H|]. intros x. split; [intros Hx; split; auto|tauto].
Qed.

Lemma assign_spec k v (m : kvmap V) : sorted m -> sorted (assign V md k v m) /\
  forall x, In x (assign V md k v m) <-> (In x m /\ N (fst x) <> N k) \/
    (snd x = v /\ ((exists v0, In (fst x, v0) m /\ N (fst x) = N k) \/ (fst x = k /\ forall y, In y m -> N (fst y) <> N k))).
Proof.
  intros H. unfold assign. destruct (find V md k m) as [[k0 v0]|] eqn:E.
  - destruct (tl_gt k m k0 v0 H E) as [S G]. pose proof (find_spec k m H) as F. rewrite E in F. destruct F as [F1 F2].
    pose proof (below_lt k m) as B. rewrite Forall_forall in B. apply find_some in E as [E _]; auto. split.
    + apply mid_sorted; auto.
    + destruct (erase_spec k m H) as [_ Er]. unfold erase in Er. assert (E' : find V md k m = Some (k0, v0)) by (apply find_some; auto). rewrite E' in Er. cbn [fst] in Er.
      intros x. specialize (Er x). rewrite in_app_iff in *. cbn [In]. split.
      * intros [Hx|[<-|Hx]]; [left; apply Er; auto| |left; apply Er; auto]. right. split; [reflexivity|]. left. exists v0. cbn. auto.
      * intros [Hx|(Hv & [(v1 & Hin & X)|[X C]])]; [tauto| |].
        -- right. left. assert (Y : (k0, v0) = (fst x, v1)) by (apply (sorted_unique m H); auto; cbn; congruence). destruct x. cbn in *. congruence.
        -- exfalso. apply (C _ E). exact F1.
  - destruct (insert_spec k v m H) as [S I]. split; [exact S|]. rewrite find_none in E by exact H. intros x. rewrite I. split.
    + intros [Hx|[-> C]]; [left; auto|]. right. split; [reflexivity|]. right. auto.
    + intros [[Hx _]|(Hv & [(v1 & Hin & X)|[X C]])]; [auto| |].
      * exfalso. now apply (E _ Hin).
      * right. split; [destruct x; cbn in *; congruence|exact C].
Qed.

(** ** Subsets *)
Lemma subset_scan_spec base prefix : forall it sub asked, sorted it -> sorted sub ->
  (forall x, In x it -> lx (N (fst x)) (N base) = false) ->
  (forall x y, In x it -> In y sub -> pref (N base) (N (fst x)) -> N (prefix ++ skipn (List.length base) (fst x)) <> N (fst y)) ->
  let r := subset_scan V md (fold_base md base) prefix it sub asked in
  sorted (fst r) /\
  (forall y, In y (fst r) <-> In y sub \/ exists k, In (k, snd y) it /\ pref (N base) (N k) /\ fst y = prefix ++ skipn (List.length base) k) /\
  (forall k, In k (snd r) <-> In k asked \/ exists v, In (k, v) it /\ pref (N base) (N k)).
Proof.
  induction it as [|[k v] it IH]; intros sub asked Hi Hs Hg Hd; cbn [subset_scan].
  - cbn. split; [exact Hs|]. split; [intros y|intros k]; split; auto; intros [?|(x & [] & _)]; auto.
  - apply StronglySorted_inv in Hi as [Hi F]. rewrite Forall_forall in F. unfold klt in F. cbn [fst] in F.
    destruct (matches md (fold_base md base) k) eqn:E.
    + apply matches_iff in E. rewrite fold_base_length.
      destruct (insert_spec (prefix ++ skipn (List.length base) k) v sub Hs) as [S I].
      assert (New : forall y, In y sub -> N (fst y) <> N (prefix ++ skipn (List.length base) k)) by (intros y Hy X; apply (Hd (k, v) y); cbn; auto).
      destruct (IH (fst (insert V md (prefix ++ skipn (List.length base) k) v sub)) (k :: asked) Hi S) as (R1 & R2 & R3).
      * intros x Hx. apply Hg. cbn. auto.
      * intros x y Hx Hy Hp. apply I in Hy as [Hy|[-> _]]; [apply Hd; cbn; auto|]. cbn [fst]. intros X. specialize (F x Hx).
        rewrite !nrm_app in X. apply app_inv_head in X. 
        assert (Y : N (fst x) = N k); [|rewrite Y, lx_irrefl in F; discriminate].
        destruct Hp as [rx Ex], E as [rk Ek]. rewrite Ex, Ek. f_equal.
        assert (Z : forall a r, N a = N base ++ r -> N (skipn (List.length base) a) = r).
        { intros a r Ea. unfold nrm at 1. rewrite <- skipn_map. fold (nrm md a). rewrite Ea, <- (nrm_length md base), skipn_app, skipn_all, Nat.sub_diag. reflexivity. }
        now rewrite (Z _ _ Ex), (Z _ _ Ek) in X.
      * split; [exact R1|]. split.
        -- intros y. rewrite R2, I. split.
           ++ intros [[Hy|[-> _]]|(k' & Hk' & P & Ey)]; auto; right; [exists k; cbn; auto|exists k'; cbn; auto].
           ++ intros [Hy|(k' & [Hk'|Hk'] & P & Ey)]; auto; [|right; eauto]. left. right. split; auto. assert (k = k' /\ v = snd y) as [-> ->] by (split; congruence). destruct y. cbn in *. congruence.
        -- intros k'. rewrite R3. cbn [In]. split.
           ++ intros [[<-|H]|(v' & H & P)]; auto; right; [exists v; auto|exists v'; auto].
           ++ intros [H|(v' & [H|H] & P)]; auto; [|right; eauto]. left. left. congruence.
    + cbn. assert (Np : forall x, In x ((k, v) :: it) -> ~ pref (N base) (N (fst x))).
      { assert (Nk : ~ pref (N base) (N k)) by (intros X; apply matches_iff in X; congruence).
        intros x [<-|Hx]; [exact Nk|]. intros X. apply Nk. apply (pref_convex (N base) (N k) (N (fst x))); auto. apply (Hg (k, v)). cbn. auto. }
      split; [exact Hs|]. split; [intros y|intros k']; split; auto.
      * intros [?|(k' & Hk & P & _)]; auto. exfalso. apply (Np _ Hk). exact P.
      * intros [?|(v' & Hk & P)]; auto. exfalso. apply (Np _ Hk). exact P.
Qed.

Lemma lower_bound_fold base (m : kvmap V) : lower_bound V md (fold_base md base) m = lower_bound V md base m /\ below V md (fold_base md base) m = below V md base m.
Proof.
  induction m as [|[k v] m [IH1 IH2]]; [auto|]. cbn. rewrite !less_lx, fold_base_nrm. destruct (lx (N k) (N base)); [now rewrite IH1, IH2|auto].
Qed.

Lemma not_below base (m : kvmap V) x : In x m -> pref (N base) (N (fst x)) -> In x (lower_bound V md base m).
Proof.
  intros Hx [r P]. rewrite (split_map base m) in Hx. apply in_app_iff in Hx as [Hx|Hx]; auto. exfalso.
  pose proof (below_lt base m) as B. rewrite Forall_forall in B. specialize (B x Hx). rewrite P, pref_ge in B. discriminate.
Qed.

Lemma make_subset_spec base prefix (s : pset V) : sorted (pmap s) ->
  let r := make_subset V md base prefix s in
  sorted (fst r) /\ pmap (snd r) = pmap s /\
  (forall y, In y (fst r) <-> exists k, In (k, snd y) (pmap s) /\ pref (N base) (N k) /\ fst y = prefix ++ skipn (List.length base) k) /\
  (forall k, In k (pasked (snd r)) <-> In k (pasked s) \/ exists v, In (k, v) (pmap s) /\ pref (N base) (N k)).
Proof.
  intros H. unfold make_subset. destruct (lower_bound_fold base (pmap s)) as [-> _].
  pose proof (subset_scan_spec base prefix (lower_bound V md base (pmap s)) [] (pasked s)) as S. cbn zeta in S.
  destruct (subset_scan V md (fold_base md base) prefix (lower_bound V md base (pmap s)) [] (pasked s)) as [sub asked]. cbn [fst snd pmap pasked] in *.
  destruct S as (S1 & S2 & S3); [now apply lower_sorted|constructor|apply Forall_forall, lower_ge; auto|intros ? ? ? []|].
  assert (L : forall x, In x (lower_bound V md base (pmap s)) /\ pref (N base) (N (fst x)) <-> In x (pmap s) /\ pref (N base) (N (fst x))).
  { intros x. split; [intros [Hx P]; split; auto; rewrite (split_map base (pmap s)); apply in_app_iff; auto|intros [Hx P]; split; auto; now apply not_below]. }
  split; [exact S1|]. split; [reflexivity|]. split.
  - intros y. rewrite S2. split.
    + intros [[]|(k & Hk & P & E)]. exists k. destruct (proj1 (L (k, snd y)) (conj Hk P)) as [? _]. auto.
    + intros (k & Hk & P & E). right. exists k. destruct (proj2 (L (k, snd y)) (conj Hk P)) as [? _]. auto.
  - intros k. rewrite S3. split; (intros [?|(v & Hk & P)]; [auto|]); right; exists v; split; auto.
    + apply (proj1 (L (k, v)) (conj Hk P)).
    + apply (proj2 (L (k, v)) (conj Hk P)).
Qed.

Lemma subtract_scan_spec base : forall it, sorted it -> (forall x, In x it -> lx (N (fst x)) (N base) = false) ->
  sorted (subtract_scan V md (fold_base md base) it) /\ forall x, In x (subtract_scan V md (fold_base md base) it) <-> In x it /\ ~ pref (N base) (N (fst x)).
Proof.
  induction it as [|[k v] it IH]; intros Hi Hg; cbn [subtract_scan].
  - split; [constructor|]. cbn. tauto.
  - pose proof Hi as Hi0. apply StronglySorted_inv in Hi as [Hi F]. rewrite Forall_forall in F. unfold klt in F. cbn [fst] in F.
    destruct (matches md (fold_base md base) k) eqn:E.
    + apply matches_iff in E. destruct (IH Hi) as [S I]; [intros x Hx; apply Hg; cbn; auto|]. split; [exact S|].
      intros x. rewrite I. cbn [In]. split; [tauto|]. intros [[<-|Hx] P]; [cbn in P; contradiction|auto].
    + split; [exact Hi0|]. intros x. split; [|tauto]. intros Hx. split; [exact Hx|].
      assert (Nk : ~ pref (N base) (N k)) by (intros X; apply matches_iff in X; congruence).
      destruct Hx as [<-|Hx]; [exact Nk|]. intros X. apply Nk. apply (pref_convex (N base) (N k) (N (fst x))); auto. apply (Hg (k, v)). cbn. auto.
Qed.

Lemma subtract_spec p (s : pset V) : sorted (pmap s) -> sorted (pmap (subtract_subset V md p s)) /\
  (forall x, In x (pmap (subtract_subset V md p s)) <-> In x (pmap s) /\ ~ pref (N p) (N (fst x))).
Proof.
  intros H. unfold subtract_subset. cbn [with_map pmap]. destruct (lower_bound_fold p (pmap s)) as [-> ->].
  destruct (subtract_scan_spec p (lower_bound V md p (pmap s))) as [S I]; [now apply lower_sorted|apply Forall_forall, lower_ge; auto|].
  pose proof (below_lt p (pmap s)) as B. rewrite Forall_forall in B. split.
  - apply sorted_app. split; [now apply below_sorted|]. split; [exact S|]. intros a b Ha Hb. apply I in Hb as [Hb _].
    rewrite (split_map p (pmap s)) in H. apply sorted_app in H as (_ & _ & H). auto.
  - intros x. rewrite in_app_iff, I. rewrite (split_map p (pmap s)) at 3. rewrite in_app_iff. split.
    + intros [Hx|[Hx P]]; (split; [auto|]); auto. intros [r P]. specialize (B x Hx). rewrite P, pref_ge in B. discriminate.
    + intros [[Hx|Hx] P]; auto.
Qed.

(** ** Adopting *)
Lemma gives_iff (m : kvmap V) k v : gives md m k v <-> exists k0, In (k0, v) m /\ N k0 = N k.
Proof. unfold gives. split; intros (k0 & H & E); exists k0; (split; [exact H|]); now apply same_nrm. Qed.

Lemma assign_gives k v (m : kvmap V) k' v' : sorted m ->
  gives md (assign V md k v m) k' v' <-> (N k = N k' /\ v' = v) \/ (N k <> N k' /\ gives md m k' v').
Proof.
  intros H. destruct (assign_spec k v m H) as [_ A]. rewrite !gives_iff. split.
  - intros (k0 & Hin & E). apply A in Hin. cbn [fst snd] in Hin. destruct Hin as [[Hin X]|[-> [(v0 & Hin & X)|[-> C]]]].
    + right. split; [congruence|eauto].
    + left. split; congruence.
    + left. auto.
  - intros [[E ->]|[Ne (k0 & Hin & E)]].
    + destruct (find V md k m) as [[k0 v0]|] eqn:F.
      * apply find_some in F as [F1 F2]; auto. exists k0. split; [|congruence]. apply A. right. cbn. split; auto. left. eauto.
      * rewrite find_none in F by exact H. exists k. split; auto. apply A. right. cbn. auto.
    + exists k0. split; auto. apply A. left. cbn. split; auto. congruence.
Qed.

Lemma adopt_fold c prefix : forall m, sorted m -> 
  sorted (fold_left (fun m kv => assign V md (prefix ++ fst kv) (snd kv) m) c m).
Proof.
  induction c as [|[k v] c IH]; intros m H; [exact H|]. cbn [fold_left]. apply IH. apply assign_spec; auto.
Qed.

Lemma adopt_gives prefix : forall c m, sorted m -> (forall x y, In x c -> In y c -> N (fst x) = N (fst y) -> x = y) -> NoDup c ->
  forall k v, gives md (fold_left (fun m kv => assign V md (prefix ++ fst kv) (snd kv) m) c m) k v <->
    (exists k1, In (k1, v) c /\ N (prefix ++ k1) = N k) \/ ((forall x, In x c -> N (prefix ++ fst x) <> N k) /\ gives md m k v).
Proof.
  induction c as [|[k1 v1] c IH]; intros m H U D k v; cbn [fold_left].
  - cbn. split; [right; split; [intros ? []|auto]|]. intros [(k1 & [] & _)|[_ ?]]; auto.
  - apply NoDup_cons_iff in D as [D0 D]. rewrite IH; [|apply assign_spec; auto|intros; apply U; cbn; auto|exact D]. cbn [fst snd].
    rewrite assign_gives by exact H. split.
    + intros [(k2 & Hin & E)|[Hn [[E ->]|[Ne G]]]].
      * left. exists k2. cbn. auto.
      * left. exists k1. cbn. auto.
      * right. split; auto. intros x [<-|Hx]; auto.
    + intros [(k2 & [Hin|Hin] & E)|[Hn G]].
      * injection Hin as -> ->. right. split; [|left; auto]. intros x Hx X. apply D0. assert (x = (k2, v)); [|congruence].
        apply U; cbn; auto. rewrite <- E in X. rewrite !nrm_app in X. now apply app_inv_head in X.
      * left. eauto.
      * right. split; [intros x Hx; apply Hn; cbn; auto|]. right. split; auto. apply (Hn (k1, v1)). cbn. auto.
Qed.

(** ** Histories *)
Lemma step_sorted (s : pset V) o : sorted (pmap s) -> sorted (pmap (step V md s o)).
Proof.
  intros H. destruct o; cbn [step].
  - cbn. now apply insert_spec.
  - cbn. now apply assign_spec.
  - cbn. now apply erase_spec.
  - cbn. apply insert_spec. now apply erase_spec.
  - cbn. now apply adopt_fold.
  - unfold adopt_itself. destruct prefix as [|c prefix]; [exact H|]. exact (adopt_fold (pmap s) (c :: prefix) (pmap s) H).
  - now apply subtract_spec.
  - destruct (make_subset_spec base prefix s H) as (_ & -> & _). exact H.
  - unfold find_kv. destruct (find V md k (pmap s)) as [[]|]; exact H.
  - exact H.
Qed.

Lemma exec_from (h : list (op V)) : forall s, sorted (pmap s) -> sorted (pmap (fold_left (step V md) h s)).
Proof. induction h as [|o h IH]; intros s H; [exact H|]. cbn. apply IH. now apply step_sorted. Qed.

Lemma exec_sorted (h : list (op V)) : sorted (pmap (exec V md h)).
Proof. apply exec_from. constructor. Qed.

Lemma sorted_functional (m : kvmap V) : sorted m -> functional md m.
Proof.
  intros H. split; [now apply sorted_NoDup|]. intros. apply (sorted_unique m H); auto. cbn. now apply same_nrm.
Qed.

(** ** Keys asked for *)
Definition event (m : kvmap V) (o : op V) (k : key) : Prop :=
  (o = Get V k /\ has md m k) \/ (exists base p, o = Subset V base p /\ (exists v, In (k, v) m) /\ exists r, prefixed md base k r).

Lemma step_asked (s : pset V) o k : sorted (pmap s) -> In k (pasked (step V md s o)) <-> In k (pasked s) \/ event (pmap s) o k.
Proof.
  intros H. unfold event. destruct o; cbn [step];
    try (split; [now left|intros [?|[[? _]|(? & ? & ? & _)]]; [assumption|discriminate|discriminate]]).
  - unfold adopt_itself. split; [destruct prefix; now left|]. intros [?|[[? _]|(? & ? & ? & _)]]; [destruct prefix; assumption|discriminate|discriminate].
  - destruct (make_subset_spec base prefix s H) as (_ & _ & _ & ->). split.
    + intros [?|(v & Hin & P)]; auto. right. right. exists base, prefix. split; [reflexivity|]. split; [eauto|]. now apply pref_prefixed.
    + intros [?|[[? _]|(b & p & E & (v & Hin) & P)]]; auto; [discriminate|]. right. exists v. split; auto. injection E as -> ->. now apply pref_prefixed.
  - unfold find_kv. destruct (find V md k0 (pmap s)) as [[k1 v1]|] eqn:E.
    + cbn [snd pasked]. apply find_some in E as [E1 E2]; auto. split.
      * intros [<-|?]; auto. right. left. split; [reflexivity|]. exists v1. apply gives_iff. eauto.
      * intros [?|[[X _]|(? & ? & ? & _)]]; [now right| |discriminate]. left. congruence.
    + rewrite find_none in E by exact H. cbn [snd]. split; auto. intros [?|[[X (v & Hv)]|(? & ? & ? & _)]]; auto; [|discriminate].
      injection X as ->. apply gives_iff in Hv as (k1 & Hin & E1). exfalso. now apply (E _ Hin).
Qed.

Lemma asked_history (h : list (op V)) k : In k (pasked (exec V md h)) <->
  exists h1 o h2, h = h1 ++ o :: h2 /\ event (pmap (exec V md h1)) o k.
Proof.
  induction h as [|o h IH] using rev_ind.
  - cbn. split; [intros []|]. intros (h1 & o & h2 & E & _). destruct h1; discriminate.
  - assert (E : exec V md (h ++ [o]) = step V md (exec V md h) o) by (unfold exec; now rewrite fold_left_app).
    rewrite E, step_asked by apply exec_sorted. rewrite IH. split.
    + intros [(h1 & o1 & h2 & -> & Ev)|Ev].
      * exists h1, o1, (h2 ++ [o]). split; [now rewrite <- app_assoc|exact Ev].
      * exists h, o, []. auto.
    + intros (h1 & o1 & h2 & Eh & Ev). destruct h2 as [|x h2] using rev_ind.
      * apply app_inj_tail in Eh as [-> ->]. auto.
      * left. rewrite app_comm_cons, app_assoc in Eh. apply app_inj_tail in Eh as [-> ->]. eauto.
Qed.

Lemma unused_iff (s : pset V) k : In k (unused_keys V s) <-> (exists v, In (k, v) (pmap s)) /\ ~ In k (pasked s).
Proof.
  unfold unused_keys. rewrite filter_In, negb_true_iff, in_map_iff. split.
  - intros [([k0 v] & <- & Hin) E]. split; [eauto|]. intros X.
    assert (existsb (key_eqb k0) (pasked s) = true); [|cbn in *; congruence]. apply existsb_exists. exists k0. split; auto. now apply key_eqb_eq.
  - intros [(v & Hin) X]. split; [exists (k, v); auto|]. destruct (existsb (key_eqb k) (pasked s)) eqn:E; [|reflexivity].
    apply existsb_exists in E as (k1 & H1 & H2). apply key_eqb_eq in H2. subst. contradiction.
Qed.

Lemma updates_gives (s : pset V) k v k' v' : sorted (pmap s) ->
  (gives md (pmap (replace V md k v s)) k' v' <-> (N k = N k' /\ v' = v) \/ (N k <> N k' /\ gives md (pmap s) k' v')) /\
  (gives md (pmap (add_merge V md k v s)) k' v' <-> (N k = N k' /\ v' = v) \/ (N k <> N k' /\ gives md (pmap s) k' v')) /\
  (gives md (pmap (add V md k v s)) k' v' <-> gives md (pmap s) k' v' \/ (N k = N k' /\ v' = v /\ ~ has md (pmap s) k)) /\
  (gives md (pmap (remove V md k s)) k' v' <-> N k <> N k' /\ gives md (pmap s) k' v').
Proof.
  intros H. destruct (erase_spec k _ H) as [HE E]. split; [|split; [|split]].
  - exact (assign_gives k v (pmap s) k' v' H).
  - unfold add_merge, with_map. cbn [pmap]. destruct (insert_spec k v _ HE) as [_ I]. rewrite !gives_iff. split.
    + intros (k0 & Hin & X). apply I in Hin as [Hin|[Hin _]].
      * apply E in Hin as [Hin Y]. cbn [fst] in Y. right. split; [congruence|eauto].
      * left. assert (k0 = k /\ v' = v) as [-> ->] by (split; congruence). auto.
    + intros [[X ->]|[X (k0 & Hin & Y)]].
      * exists k. split; [|exact X]. apply I. right. split; [reflexivity|]. intros y Hy. apply E in Hy. tauto.
      * exists k0. split; [|exact Y]. apply I. left. apply E. split; [exact Hin|]. cbn [fst]. congruence.
  - unfold add, with_map. cbn [pmap]. destruct (insert_spec k v _ H) as [_ I]. unfold has. rewrite !gives_iff. split.
    + intros (k0 & Hin & X). apply I in Hin as [Hin|[Hin F]]; [eauto|]. right.
      assert (k0 = k /\ v' = v) as [-> ->] by (split; congruence). split; [exact X|]. split; [reflexivity|].
      intros (w & G). apply gives_iff in G as (k1 & G1 & G2). exact (F _ G1 G2).
    + intros [(k0 & Hin & X)|(X & -> & F)].
      * exists k0. split; [|exact X]. apply I. auto.
      * exists k. split; [|exact X]. apply I. right. split; [reflexivity|]. intros [k1 w] Hy Y. apply F. exists w. apply gives_iff. eauto.
  - unfold remove, with_map. cbn [pmap]. rewrite !gives_iff. split.
    + intros (k0 & Hin & X). apply E in Hin as [Hin Y]. cbn [fst] in Y. split; [congruence|eauto].
    + intros (X & k0 & Hin & Y). exists k0. split; [|exact Y]. apply E. split; [exact Hin|]. cbn [fst]. congruence.
Qed.

End Map.
