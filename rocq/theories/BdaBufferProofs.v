From Coq Require Import List String Bool Arith Lia.
From Verif Require Import BdaBufferModel BdaBufferSpec.
Import ListNotations.
Open Scope nat_scope.

Section Proofs.
Context {C W T U : Type}.
Variable c_zero : C.
Variable w_zero : W.
Variable too_early : T -> T -> T -> T -> bool.
Notation bda := (bda C W T U).
Notation row := (row T U).
Notation add_row := (@add_row C W T U c_zero w_zero too_early).
Notation run := (@run C W T U c_zero w_zero too_early).
Notation apply_op := (@apply_op C W T U c_zero w_zero too_early).
Notation append_data := (@append_data C c_zero).

(** ** Association lists *)
Lemma find_in n l v : find_data (C := C) n l = Some v -> In (n, v) l.
Proof.
  induction l as [|[k x] l IH]; simpl; [discriminate|].
  destruct (String.eqb_spec k n) as [->|]; [intros [= ->]; auto|auto].
Qed.

Lemma put_in n v l m w : In (m, w) (put_data (C := C) n v l) -> (m = n /\ w = v) \/ In (m, w) l.
Proof.
  induction l as [|[k x] l IH]; simpl.
  - intros [[= -> ->]|[]]; auto.
  - destruct (String.eqb_spec k n) as [->|].
    + intros [[= -> ->]|H]; auto.
    + intros [H|H]; [auto|destruct (IH H); auto].
Qed.

Lemma find_put_same n v l : find_data (C := C) n (put_data n v l) = Some v.
Proof.
  induction l as [|[k x] l IH]; simpl.
  - now rewrite String.eqb_refl.
  - destruct (String.eqb_spec k n) as [->|Hn]; simpl.
    + now rewrite String.eqb_refl.
    + destruct (String.eqb_spec k n); [contradiction|auto].
Qed.

Lemma find_put_other n m v l : m <> n -> find_data (C := C) m (put_data n v l) = find_data m l.
Proof.
  intros Hm. induction l as [|[k x] l IH]; simpl.
  - destruct (String.eqb_spec n m); [congruence|auto].
  - destruct (String.eqb_spec k n) as [->|Hn]; simpl.
    + destruct (String.eqb_spec n m); [congruence|auto].
    + destruct (String.eqb k m); auto.
Qed.

Lemma find_erase_other n m l : m <> n -> find_data (C := C) m (erase_data n l) = find_data m l.
Proof.
  intros Hm. induction l as [|[k x] l IH]; simpl; auto.
  destruct (String.eqb_spec k n) as [->|Hn]; simpl.
  - destruct (String.eqb_spec n m); [congruence|auto].
  - destruct (String.eqb k m); auto.
Qed.

Lemma erase_in n l kv : In kv (erase_data (C := C) n l) -> In kv l.
Proof. unfold erase_data; rewrite filter_In; tauto. Qed.

Lemma put_nonempty n v l : put_data (C := C) n v l <> [].
Proof. destruct l as [|[k x] l]; simpl; [discriminate|destruct (String.eqb k n); discriminate]. Qed.

(** ** Appending *)
Definition extra (n : nat) (d : option (list C)) (k : string) : list (option C) :=
  match d with
  | Some d => if String.eqb k EmptyString then map Some d else repeat (Some c_zero) n
  | None => repeat (Some c_zero) n
  end.

Lemma extra_length n d k : ptr_ok n d = true -> List.length (extra n d k) = n.
Proof.
  unfold extra, ptr_ok. destruct d as [d|]; intros H.
  - apply Nat.eqb_eq in H. destruct (String.eqb k ""); [now rewrite map_length|apply repeat_length].
  - apply repeat_length.
Qed.

Lemma append_data_gen n d l : forall out o,
  fold_left (fun acc kv =>
     let '(out, _) := acc in
     let '(k, v) := kv in
     let ex := match d with
                  | Some d => if String.eqb k EmptyString then map Some d else repeat (Some c_zero) n
                  | None => repeat (Some c_zero) n
                  end in
     (out ++ [(k, v ++ ex)], List.length v)) l (out, o)
  = (out ++ map (fun kv => (fst kv, snd kv ++ extra n d (fst kv))) l,
     match rev l with [] => o | kv :: _ => List.length (snd kv) end).
Proof.
  induction l as [|[k v] l IH]; intros out o; simpl.
  - now rewrite app_nil_r.
  - rewrite IH, <- app_assoc. f_equal.
    destruct (rev l); simpl; auto.
Qed.

Lemma append_data_eq n d l :
  append_data n d l =
  (map (fun kv => (fst kv, snd kv ++ extra n d (fst kv))) l,
   match rev l with [] => 0 | kv :: _ => List.length (snd kv) end).
Proof. unfold append_data. now rewrite append_data_gen. Qed.

Lemma find_append n d l m :
  find_data m (map (fun kv => (fst kv, snd kv ++ extra n d (fst kv))) l) =
  option_map (fun v => v ++ extra n d m) (find_data m l).
Proof.
  induction l as [|[k v] l IH]; simpl; auto.
  destruct (String.eqb_spec k m) as [->|]; simpl; auto.
Qed.

(** ** Sizes *)
Lemma size_before_app (rows : list row) r i :
  i <= List.length rows -> size_before (rows ++ [r]) i = size_before rows i.
Proof.
  intros H. unfold size_before. rewrite firstn_app.
  replace (i - List.length rows) with 0 by lia. simpl. now rewrite app_nil_r.
Qed.

Lemma total_app (rows : list row) r :
  total_size (rows ++ [r]) = total_size rows + r_nchan r * r_ncorr r.
Proof.
  unfold total_size, size_before. rewrite !firstn_all, map_app, list_sum_app. simpl. lia.
Qed.

Lemma size_before_total (rows : list row) i : size_before rows i <= total_size rows.
Proof.
  unfold total_size, size_before. rewrite firstn_all.
  rewrite <- (firstn_skipn i rows) at 2. rewrite map_app, list_sum_app. lia.
Qed.

Lemma size_before_S (rows : list row) i r :
  nth_error rows i = Some r -> size_before rows (S i) = size_before rows i + r_nchan r * r_ncorr r.
Proof.
  revert i; induction rows as [|x rows IH]; intros [|i]; simpl; try discriminate.
  - intros [= ->]. unfold size_before; simpl. lia.
  - intros H. apply IH in H. unfold size_before in *. simpl in *. lia.
Qed.

(** ** The unconditional invariant *)
Definition inv (b : bda) : Prop :=
  arrays_full b /\
  (b_flags_on b = false -> b_flags b = []) /\ (b_weights_on b = false -> b_weights b = []).

Lemma inv_new pool fd ff fw : inv (bda_new pool fd ff fw).
Proof.
  unfold inv, arrays_full, bda_new; simpl. repeat split; auto.
  intros n v. destruct fd; simpl; [|tauto]. intros [[= <- <-]|[]]. reflexivity.
Qed.

Lemma inv_n_elements b : inv b -> n_elements b = total_size (b_rows b).
Proof. intros ((H & _) & _). unfold n_elements. lia. Qed.

Lemma resize_length {A} n (v : list (option A)) : List.length (resize n v) = n.
Proof. unfold resize. rewrite app_length, firstn_length, repeat_length. lia. Qed.

Lemma resize_id {A} (v : list (option A)) : resize (List.length v) v = v.
Proof. unfold resize. rewrite firstn_all, Nat.sub_diag. apply app_nil_r. Qed.

(** Exact outcome of AddRow. *)
Lemma add_row_cases b a : inv b ->
  let n := a_nchan a * a_ncorr a in
  let bad := match rev (b_rows b) with
             | [] => false
             | back :: _ => too_early (a_time a) (a_interval a) (r_time back) (r_interval back) end in
  if bad then add_row b a = Thrown
  else if b_remaining b <? n then add_row b a = Refused
  else if ptr_ok n (a_data a) && ptr_ok n (a_flags a) && ptr_ok n (a_weights a) then
    exists off b', add_row b a = Done b' /\
      b' = MkBda (map (fun kv => (fst kv, snd kv ++ extra n (a_data a) (fst kv))) (b_data b))
             (if b_flags_on b then b_flags b ++ match a_flags a with Some f => map Some f | None => repeat (Some false) n end else b_flags b)
             (b_flags_on b)
             (if b_weights_on b then b_weights b ++ match a_weights a with Some f => map Some f | None => repeat (Some w_zero) n end else b_weights b)
             (b_weights_on b)
             (b_rows b ++ [MkRow (a_time a) (a_interval a) (a_rownr a) (a_baseline a) (a_nchan a) (a_ncorr a) off (a_uvw a)])
             (b_original b) (b_remaining b - n) /\
      (has_storage b -> off = total_size (b_rows b))
  else add_row b a = Undefined.
Proof.
  intros ((Hcap & Hd & Hf & Hw) & Hf0 & Hw0) n bad.
  unfold add_row, BdaBufferModel.add_row. fold bad. destruct bad; [reflexivity|].
  fold n. destruct (b_remaining b <? n); [reflexivity|].
  destruct (ptr_ok n (a_data a) && ptr_ok n (a_flags a) && ptr_ok n (a_weights a)); simpl; [|reflexivity].
  rewrite append_data_eq.
  assert (Hoff : forall kv l, rev (b_data b) = kv :: l -> List.length (snd kv) = total_size (b_rows b)).
  { intros [k v] l E. apply (Hd k v). apply in_rev. rewrite E. simpl; auto. }
  set (o0 := match rev (b_data b) with [] => 0 | kv :: _ => List.length (snd kv) end).
  assert (Ho0 : o0 = 0 \/ o0 = total_size (b_rows b)).
  { unfold o0. destruct (rev (b_data b)) as [|kv l] eqn:E; auto. right; eapply Hoff; eauto. }
  assert (Ho0' : b_data b <> [] -> o0 = total_size (b_rows b)).
  { intros Hne. unfold o0. destruct (rev (b_data b)) as [|kv l] eqn:E; [|eapply Hoff; eauto].
    exfalso; apply Hne. rewrite <- (rev_involutive (b_data b)), E. reflexivity. }
  destruct (b_flags_on b) eqn:Ef.
  - set (of := if o0 =? 0 then List.length (b_flags b) else o0).
    assert (Hof : of = total_size (b_rows b)).
    { unfold of. destruct (Nat.eqb_spec o0 0); [auto|lia]. }
    replace (if o0 =? 0 then true else o0 =? List.length (b_flags b)) with true
      by (destruct (Nat.eqb_spec o0 0); auto; symmetry; apply Nat.eqb_eq; rewrite (Hf eq_refl); lia).
    destruct (b_weights_on b) eqn:Ew.
    + replace (if of =? 0 then true else of =? List.length (b_weights b)) with true
        by (destruct (Nat.eqb_spec of 0); auto; symmetry; apply Nat.eqb_eq; rewrite (Hw eq_refl); lia).
      eexists _, _. split; [reflexivity|]. split; [reflexivity|].
      intros _. destruct (Nat.eqb_spec of 0) as [Hz|]; [rewrite (Hw eq_refl); auto|auto].
    + eexists _, _. split; [reflexivity|]. split; [reflexivity|]. intros _; exact Hof.
  - destruct (b_weights_on b) eqn:Ew.
    + replace (if o0 =? 0 then true else o0 =? List.length (b_weights b)) with true
        by (destruct (Nat.eqb_spec o0 0); auto; symmetry; apply Nat.eqb_eq; rewrite (Hw eq_refl); lia).
      eexists _, _. split; [reflexivity|]. split; [reflexivity|].
      intros _. destruct (Nat.eqb_spec o0 0) as [Hz|]; [rewrite (Hw eq_refl); auto|lia].
    + eexists _, _. split; [reflexivity|]. split; [reflexivity|].
      intros [H|[H|H]]; [auto|congruence|congruence].
Qed.

Lemma add_row_done b a b' : inv b -> add_row b a = Done b' ->
  let n := a_nchan a * a_ncorr a in
  n <= b_remaining b /\
  ptr_ok n (a_data a) = true /\ ptr_ok n (a_flags a) = true /\ ptr_ok n (a_weights a) = true /\
  exists off,
      b' = MkBda (map (fun kv => (fst kv, snd kv ++ extra n (a_data a) (fst kv))) (b_data b))
             (if b_flags_on b then b_flags b ++ match a_flags a with Some f => map Some f | None => repeat (Some false) n end else b_flags b)
             (b_flags_on b)
             (if b_weights_on b then b_weights b ++ match a_weights a with Some f => map Some f | None => repeat (Some w_zero) n end else b_weights b)
             (b_weights_on b)
             (b_rows b ++ [MkRow (a_time a) (a_interval a) (a_rownr a) (a_baseline a) (a_nchan a) (a_ncorr a) off (a_uvw a)])
             (b_original b) (b_remaining b - n) /\
      (has_storage b -> off = total_size (b_rows b)).
Proof.
  intros Hi He n. pose proof (add_row_cases b a Hi) as Hc. cbv zeta in Hc. fold n in Hc.
  destruct (match rev (b_rows b) with [] => false | _ => _ end) in Hc; [congruence|].
  destruct (Nat.ltb_spec (b_remaining b) n) as [Hlt|Hlt]; [congruence|].
  destruct (ptr_ok n (a_data a)) eqn:E1, (ptr_ok n (a_flags a)) eqn:E2, (ptr_ok n (a_weights a)) eqn:E3;
    simpl in Hc; try congruence.
  repeat (split; [assumption || reflexivity|]).
  destruct Hc as (off & b2 & E & -> & Ho). rewrite He in E. injection E as ->.
  exists off. split; auto.
Qed.

Lemma ptr_list_length {A} n (p : option (list A)) (z : A) : ptr_ok n p = true ->
  List.length (match p with Some f => map Some f | None => repeat (Some z) n end) = n.
Proof.
  destruct p as [f|]; simpl; intros H.
  - apply Nat.eqb_eq in H. now rewrite map_length.
  - apply repeat_length.
Qed.

Lemma inv_add_row b a b' : inv b -> add_row b a = Done b' -> inv b'.
Proof.
  intros Hi He. pose proof (add_row_done b a b' Hi He) as H. cbv zeta in H.
  destruct H as (Hn & P1 & P2 & P3 & off & -> & _).
  destruct Hi as ((Hcap & Hd & Hf & Hw) & Hf0 & Hw0).
  set (n := a_nchan a * a_ncorr a) in *.
  unfold inv, arrays_full; simpl. rewrite total_app; simpl. fold n.
  repeat split.
  - lia.
  - intros m v Hin. apply in_map_iff in Hin as ([k x] & [= <- <-] & Hin).
    simpl. rewrite app_length, extra_length, (Hd k x) by auto. reflexivity.
  - intros E; rewrite E, app_length, (Hf E), ptr_list_length by auto. reflexivity.
  - intros E; rewrite E, app_length, (Hw E), ptr_list_length by auto. reflexivity.
  - intros E; rewrite E. auto.
  - intros E; rewrite E. auto.
Qed.

Lemma inv_apply b o b' : inv b -> apply_op b o = Done b' -> inv b'.
Proof.
  intros Hi. pose proof (inv_n_elements b Hi) as Hne.
  destruct o as [a|n|n|s t|v t|]; simpl.
  - now apply inv_add_row.
  - intros [= <-]. destruct Hi as ((Hcap & Hd & Hf & Hw) & Hf0 & Hw0).
    unfold inv, arrays_full, add_data; simpl. repeat split; auto.
    intros m v Hin. apply put_in in Hin as [[-> ->]|Hin]; [|eauto].
    rewrite resize_length. exact Hne.
  - intros [= <-]. destruct Hi as ((Hcap & Hd & Hf & Hw) & Hf0 & Hw0).
    unfold inv, arrays_full, remove_data; simpl. repeat split; auto.
    intros m v Hin. apply erase_in in Hin. eauto.
  - unfold move_data. destruct (String.eqb s t); [intros [= <-]; auto|].
    destruct (find_data s (b_data b)) as [v|] eqn:Ef; [|discriminate].
    destruct (Nat.eqb_spec (List.length v) (n_elements b)) as [El|]; [|discriminate].
    intros [= <-]. destruct Hi as ((Hcap & Hd & Hf & Hw) & Hf0 & Hw0).
    unfold inv, arrays_full; simpl. repeat split; auto.
    intros m w Hin. apply erase_in, put_in in Hin as [[-> ->]|Hin]; [lia|eauto].
  - unfold move_in. destruct (Nat.eqb_spec (List.length v) (n_elements b)) as [El|]; [|discriminate].
    intros [= <-]. destruct Hi as ((Hcap & Hd & Hf & Hw) & Hf0 & Hw0).
    unfold inv, arrays_full; simpl. repeat split; auto.
    intros m w Hin. apply put_in in Hin as [[-> ->]|Hin]; [lia|eauto].
  - intros [= <-]. unfold inv, arrays_full, clear; simpl. repeat split; auto.
    intros m v Hin. apply in_map_iff in Hin as ([k x] & [= <- <-] & _). reflexivity.
Qed.

Lemma inv_run ops : forall b b', inv b -> run b ops = Some b' -> inv b'.
Proof.
  induction ops as [|o ops IH]; intros b b' Hi; simpl.
  - intros [= <-]; auto.
  - destruct (apply_op b o) as [b1| | |] eqn:E; try discriminate; intros H.
    + eapply IH; [|exact H]. eapply inv_apply; eauto.
    + eapply IH; eauto.
    + eapply IH; eauto.
Qed.

(** ** Tiling *)
Lemma tile_apply b o b' : inv b -> rows_tile b ->
  (forall a, o = OpAddRow a -> has_storage b) ->
  apply_op b o = Done b' -> rows_tile b'.
Proof.
  intros Hi Ht Hs. destruct o as [a|n|n|s t|v t|]; simpl.
  - intros He. pose proof (add_row_done b a b' Hi He) as H. cbv zeta in H.
    destruct H as (_ & _ & _ & _ & off & -> & Ho).
    unfold rows_tile; simpl. intros i r Hr.
    assert (Hlt : i < List.length (b_rows b ++ [MkRow (a_time a) (a_interval a) (a_rownr a)
       (a_baseline a) (a_nchan a) (a_ncorr a) off (a_uvw a)])) by (apply nth_error_Some; congruence).
    rewrite app_length in Hlt; simpl in Hlt.
    rewrite size_before_app by lia.
    destruct (Nat.lt_ge_cases i (List.length (b_rows b))) as [Hlt'|Hge].
    + rewrite nth_error_app1 in Hr by auto. now apply Ht.
    + assert (i = List.length (b_rows b)) by lia; subst i.
      rewrite nth_error_app2, Nat.sub_diag in Hr by auto. simpl in Hr. injection Hr as <-. simpl.
      rewrite Ho; [reflexivity|]. eapply Hs; reflexivity.
  - intros [= <-]; exact Ht.
  - intros [= <-]; exact Ht.
  - unfold move_data. destruct (String.eqb s t); [intros [= <-]; auto|].
    destruct (find_data s (b_data b)) as [v|]; [|discriminate].
    destruct (List.length v =? n_elements b); [|discriminate].
    intros [= <-]; exact Ht.
  - unfold move_in. destruct (List.length v =? n_elements b); [|discriminate].
    intros [= <-]; exact Ht.
  - intros [= <-]. intros i r Hr; simpl in Hr. destruct i; discriminate.
Qed.

Lemma tile_run ops : forall b b', inv b -> rows_tile b ->
  (forall pre a post b1, ops = pre ++ OpAddRow a :: post -> run b pre = Some b1 -> has_storage b1) ->
  run b ops = Some b' -> rows_tile b'.
Proof.
  induction ops as [|o ops IH]; intros b b' Hi Ht Hs; simpl.
  - intros [= <-]; auto.
  - assert (Hs0 : forall a, o = OpAddRow a -> has_storage b).
    { intros a ->. apply (Hs [] a ops b); reflexivity. }
    destruct (apply_op b o) as [b1| | |] eqn:E; try discriminate; intros H.
    + apply (IH b1 b'); [eapply inv_apply; eauto|eapply tile_apply; eauto| |exact H].
      intros pre a post b2 -> Hr. apply (Hs (o :: pre) a post b2); [reflexivity|].
      simpl. now rewrite E.
    + apply (IH b b'); auto.
      intros pre a post b2 -> Hr. apply (Hs (o :: pre) a post b2); [reflexivity|].
      simpl. now rewrite E.
    + apply (IH b b'); auto.
      intros pre a post b2 -> Hr. apply (Hs (o :: pre) a post b2); [reflexivity|].
      simpl. now rewrite E.
Qed.

Lemma tile_new pool fd ff fw : rows_tile (@bda_new C W T U pool fd ff fw).
Proof. intros i r H; destruct i; discriminate. Qed.

(** Flags/weights stay enabled, so has_storage persists. *)
Lemma on_apply b o b' : inv b -> apply_op b o = Done b' ->
  b_flags_on b' = b_flags_on b /\ b_weights_on b' = b_weights_on b.
Proof.
  intros Hi. destruct o as [a|n|n|s t|v t|]; simpl.
  - intros He. pose proof (add_row_done b a b' Hi He) as H. cbv zeta in H.
    destruct H as (_ & _ & _ & _ & off & -> & Ho). auto.
  - intros [= <-]; auto.
  - intros [= <-]; auto.
  - unfold move_data. destruct (String.eqb s t); [intros [= <-]; auto|].
    destruct (find_data s (b_data b)) as [v|]; [|discriminate].
    destruct (List.length v =? n_elements b); [|discriminate].
    intros [= <-]; auto.
  - unfold move_in. destruct (List.length v =? n_elements b); [|discriminate].
    intros [= <-]; auto.
  - intros [= <-]; auto.
Qed.

Lemma on_run ops : forall b b', inv b -> run b ops = Some b' ->
  b_flags_on b' = b_flags_on b /\ b_weights_on b' = b_weights_on b.
Proof.
  induction ops as [|o ops IH]; intros b b' Hi; simpl.
  - intros [= <-]; auto.
  - destruct (apply_op b o) as [b1| | |] eqn:E; try discriminate; intros H.
    + destruct (on_apply b o b1 Hi E) as [<- <-]. eapply IH; [|exact H]. eapply inv_apply; eauto.
    + eapply IH; eauto.
    + eapply IH; eauto.
Qed.

Lemma arrays_full_reachable pool fd ff fw ops b :
  run (bda_new pool fd ff fw) ops = Some b -> arrays_full b.
Proof. intros H. eapply inv_run; [apply inv_new|exact H]. Qed.

Lemma tile_reachable pool fd ff fw ops b :
  run (bda_new pool fd ff fw) ops = Some b ->
  (forall pre a post b1, ops = pre ++ OpAddRow a :: post ->
     run (bda_new pool fd ff fw) pre = Some b1 -> has_storage b1) ->
  rows_tile b.
Proof. intros H Hs. eapply tile_run; eauto using inv_new, tile_new. Qed.

Lemma tile_reachable_flags_or_weights pool fd ff fw ops b :
  (ff = true \/ fw = true) -> run (bda_new pool fd ff fw) ops = Some b ->
  0 < pool -> rows_tile b.
Proof.
  intros Hf H Hp. eapply tile_reachable; eauto.
  intros pre a post b1 _ Hr. apply on_run in Hr as [Hr1 Hr2]; [|apply inv_new].
  unfold has_storage. simpl in *. assert (0 <? pool = true) by (now apply Nat.ltb_lt).
  rewrite Hr1, Hr2. destruct Hf as [-> | ->]; rewrite H0; auto.
Qed.

(** No assertion of AddRow can fire. *)
Lemma add_row_defined b a : inv b ->
  let n := a_nchan a * a_ncorr a in
  ptr_ok n (a_data a) = true -> ptr_ok n (a_flags a) = true -> ptr_ok n (a_weights a) = true ->
  match add_row b a with
  | Thrown => exists pre last, b_rows b = pre ++ [last] /\
                too_early (a_time a) (a_interval a) (r_time last) (r_interval last) = true
  | Refused => b_remaining b < n
  | Done b' => n <= b_remaining b /\ b_remaining b' = b_remaining b - n /\
               forall pre last, b_rows b = pre ++ [last] -> too_early (a_time a) (a_interval a) (r_time last) (r_interval last) = false
  | Undefined => False
  end.
Proof.
  intros Hi n P1 P2 P3. pose proof (add_row_cases b a Hi) as Hc. cbv zeta in Hc. fold n in Hc.
  rewrite P1, P2, P3 in Hc. simpl in Hc.
  destruct (rev (b_rows b)) as [|back l] eqn:Er; simpl in Hc.
  - destruct (Nat.ltb_spec (b_remaining b) n).
    + now rewrite Hc.
    + destruct Hc as (off & b' & -> & -> & _). simpl. repeat split; auto. intros pre last E. rewrite E, rev_app_distr in Er. discriminate.
  - destruct (too_early _ _ _ _) eqn:Et.
    + rewrite Hc. exists (rev l), back. split; auto.
      rewrite <- (rev_involutive (b_rows b)), Er. reflexivity.
    + destruct (Nat.ltb_spec (b_remaining b) n).
      * now rewrite Hc.
      * destruct Hc as (off & b' & -> & -> & _). simpl. repeat split; auto.
        intros pre last E. rewrite E, rev_app_distr in Er. simpl in Er. injection Er as -> _. exact Et.
Qed.

(** ** Stability of contents *)
Definition extends {A} (v v' : list A) : Prop := exists e, v' = v ++ e.

Lemma extends_refl {A} (v : list A) : extends v v.
Proof. exists []. now rewrite app_nil_r. Qed.
Lemma extends_trans {A} (u v w : list A) : extends u v -> extends v w -> extends u w.
Proof. intros [e ->] [f ->]. exists (e ++ f). now rewrite app_assoc. Qed.

Lemma keep_apply n b o b' v : inv b -> keeps n o -> find_data n (b_data b) = Some v ->
  apply_op b o = Done b' ->
  extends (b_rows b) (b_rows b') /\ extends (b_flags b) (b_flags b') /\
  extends (b_weights b) (b_weights b') /\
  exists v', find_data n (b_data b') = Some v' /\ extends v v'.
Proof.
  intros Hi Hk Hv. pose proof (inv_n_elements b Hi) as Hne.
  destruct o as [a|m|m|s t|w t|]; simpl in *.
  - intros He. pose proof (add_row_done b a b' Hi He) as H. cbv zeta in H.
    destruct H as (_ & _ & _ & _ & off & -> & Ho). simpl.
    split; [eexists; reflexivity|].
    split; [destruct (b_flags_on b); [eexists; reflexivity|apply extends_refl]|].
    split; [destruct (b_weights_on b); [eexists; reflexivity|apply extends_refl]|].
    rewrite find_append, Hv. simpl. eexists. split; [reflexivity|]. eexists; reflexivity.
  - intros [= <-]. simpl. repeat (split; [apply extends_refl|]).
    destruct (string_dec n m) as [->|Hn].
    + rewrite find_put_same, Hv. eexists. split; [reflexivity|].
      destruct Hi as ((_ & Hd & _) & _).
      rewrite Hne, <- (Hd m v) by (now apply find_in). rewrite resize_id. apply extends_refl.
    + rewrite find_put_other by auto. eexists; split; [exact Hv|apply extends_refl].
  - intros [= <-]. simpl. repeat (split; [apply extends_refl|]).
    rewrite find_erase_other by auto. eexists; split; [exact Hv|apply extends_refl].
  - unfold move_data. destruct (String.eqb s t).
    { intros [= <-]. repeat (split; [apply extends_refl|]). eexists; split; [exact Hv|apply extends_refl]. }
    destruct (find_data s (b_data b)) as [x|]; [|discriminate].
    destruct (List.length x =? n_elements b); [|discriminate].
    intros [= <-]. simpl. repeat (split; [apply extends_refl|]).
    destruct Hk as [Hk1 Hk2].
    rewrite find_erase_other, find_put_other by auto. eexists; split; [exact Hv|apply extends_refl].
  - unfold move_in. destruct (List.length w =? n_elements b); [|discriminate].
    intros [= <-]. simpl. repeat (split; [apply extends_refl|]).
    rewrite find_put_other by auto. eexists; split; [exact Hv|apply extends_refl].
  - contradiction.
Qed.

Lemma keep_run n ops : forall b b' v, inv b -> (forall o, In o ops -> keeps n o) ->
  find_data n (b_data b) = Some v -> run b ops = Some b' ->
  extends (b_rows b) (b_rows b') /\ extends (b_flags b) (b_flags b') /\
  extends (b_weights b) (b_weights b') /\
  exists v', find_data n (b_data b') = Some v' /\ extends v v'.
Proof.
  induction ops as [|o ops IH]; intros b b' v Hi Hk Hv; simpl.
  - intros [= <-]. repeat (split; [apply extends_refl|]). eexists; split; [exact Hv|apply extends_refl].
  - destruct (apply_op b o) as [b1| | |] eqn:E; try discriminate; intros H.
    + destruct (keep_apply n b o b1 v Hi (Hk o (or_introl eq_refl)) Hv E) as (R1 & F1 & W1 & v1 & Hv1 & X1).
      destruct (IH b1 b' v1) as (R2 & F2 & W2 & v2 & Hv2 & X2); auto.
      { eapply inv_apply; eauto. } { intros; apply Hk; simpl; auto. }
      repeat (split; [eapply extends_trans; eauto|]). exists v2. split; auto. eapply extends_trans; eauto.
    + eapply IH; eauto. intros; apply Hk; simpl; auto.
    + eapply IH; eauto. intros; apply Hk; simpl; auto.
Qed.

Lemma read_extends {A} (v v' : list (option A)) (r : row) :
  0 < row_size r -> r_offset r + row_size r <= List.length v -> extends v v' ->
  read_from v' r = read_from v r /\ read_from v r = Some (Some (firstn (row_size r) (skipn (r_offset r) v))).
Proof.
  intros Hp Hl [e ->]. unfold read_from.
  assert (Hvn : v <> []) by (intros ->; simpl in Hl; lia).
  destruct v as [|x v]; [congruence|]. simpl app.
  assert (H1 : r_offset r + row_size r <=? List.length (x :: v) = true) by (now apply Nat.leb_le).
  assert (H2 : r_offset r + row_size r <=? List.length (x :: v ++ e) = true).
  { apply Nat.leb_le. change (x :: v ++ e) with ((x :: v) ++ e). rewrite app_length. lia. }
  rewrite H1, H2. split; auto. do 2 f_equal.
  change (x :: v ++ e) with ((x :: v) ++ e).
  rewrite skipn_app, firstn_app.
  replace (row_size r - List.length (skipn (r_offset r) (x :: v))) with 0 by (rewrite skipn_length; lia).
  simpl. now rewrite app_nil_r.
Qed.

Lemma map_repeat' {A B} (f : A -> B) x k : map f (repeat x k) = repeat (f x) k.
Proof. induction k; simpl; congruence. Qed.

Lemma row_stable nm pool fd ff fw ops1 b1 a b2 ops2 b3 :
  run (bda_new pool fd ff fw) ops1 = Some b1 ->
  find_data nm (b_data b1) <> None -> 0 < a_nchan a * a_ncorr a ->
  add_row b1 a = Done b2 ->
  (forall o, In o ops2 -> keeps nm o) -> run b2 ops2 = Some b3 ->
  let n := a_nchan a * a_ncorr a in
  exists r, nth_error (b_rows b3) (List.length (b_rows b1)) = Some r /\
    r_time r = a_time a /\ r_interval r = a_interval a /\ r_baseline r = a_baseline a /\
    r_nchan r = a_nchan a /\ r_ncorr r = a_ncorr a /\ r_rownr r = a_rownr a /\ r_uvw r = a_uvw a /\
    read_data b3 nm r = Some (Some (map Some (given n c_zero (if String.eqb nm EmptyString then a_data a else None)))) /\
    (b_flags_on b1 = true -> read_flags b3 r = Some (Some (map Some (given n false (a_flags a))))) /\
    (b_weights_on b1 = true -> read_weights b3 r = Some (Some (map Some (given n w_zero (a_weights a))))).
Proof.
  intros H1 Hfind Hp Ha Hk H3. cbv zeta.
  assert (Hi1 : inv b1) by (eapply inv_run; [apply inv_new|exact H1]).
  assert (Hi2 : inv b2) by (eapply inv_add_row; eauto).
  destruct (find_data nm (b_data b1)) as [v|] eqn:Ev; [|congruence].
  pose proof (add_row_done b1 a b2 Hi1 Ha) as H. cbv zeta in H.
  destruct H as (Hn & P1 & P2 & P3 & off & Eb2 & Ho).
  set (n := a_nchan a * a_ncorr a) in *.
  assert (Hst : has_storage b1).
  { left. intros E. rewrite E in Ev. discriminate. }
  specialize (Ho Hst).
  set (r := MkRow (a_time a) (a_interval a) (a_rownr a) (a_baseline a) (a_nchan a) (a_ncorr a) off (a_uvw a)) in *.
  assert (Ev2 : find_data nm (b_data b2) = Some (v ++ extra n (a_data a) nm)).
  { rewrite Eb2. simpl. rewrite find_append, Ev. reflexivity. }
  destruct (keep_run nm ops2 b2 b3 _ Hi2 Hk Ev2 H3) as ([re Er] & Hfl & Hwe & v3 & Ev3 & X3).
  assert (Hlen1 : List.length v = total_size (b_rows b1)).
  { destruct Hi1 as ((_ & Hd1 & _) & _). eapply Hd1. apply find_in; eauto. }
  assert (Hrs : row_size r = n) by reflexivity.
  exists r. split.
  { rewrite Er, Eb2. simpl. rewrite nth_error_app1 by (rewrite app_length; simpl; lia).
    rewrite nth_error_app2, Nat.sub_diag by auto. reflexivity. }
  repeat (split; [reflexivity|]).
  assert (Ex : extra n (a_data a) nm = map Some (given n c_zero (if String.eqb nm EmptyString then a_data a else None))).
  { unfold extra, given. destruct (a_data a), (String.eqb nm EmptyString); auto; now rewrite map_repeat'. }
  assert (G : forall A (z : A) p, match p with Some f => map Some f | None => repeat (Some z) n end = map Some (given n z p)).
  { intros A z [f|]; [reflexivity|]. unfold given. now rewrite map_repeat'. }
  assert (GL : forall A (z : A) p, ptr_ok n p = true -> List.length (given n z p) = n).
  { intros A z [f|]; unfold given, ptr_ok; [apply Nat.eqb_eq|intros _; apply repeat_length]. }
  rewrite <- Ex. split.
  - unfold read_data. rewrite Ev3.
    assert (Hr0 : 0 < row_size r) by (rewrite Hrs; exact Hp).
    destruct (read_extends (v ++ extra n (a_data a) nm) v3 r Hr0) with (2 := X3) as [-> ->].
    + { rewrite Hrs. simpl r_offset. rewrite app_length, extra_length by exact P1.
        rewrite Ho, Hlen1. auto. }
    + rewrite Hrs. simpl (r_offset r). rewrite Ho, <- Hlen1.
      rewrite skipn_app, skipn_all, Nat.sub_diag. simpl.
      rewrite <- (extra_length n (a_data a) nm P1) at 1. now rewrite firstn_all.
  - split.
    + intros Hon. unfold read_flags.
      destruct Hi1 as ((_ & _ & Hl & _) & _). specialize (Hl Hon).
      assert (Ef2 : b_flags b2 = b_flags b1 ++ map Some (given n false (a_flags a))) by (rewrite Eb2; simpl; now rewrite Hon, G).
      destruct (read_extends (b_flags b2) (b_flags b3) r) as [-> ->]; [| |exact Hfl|].
      * rewrite Hrs; auto.
      * rewrite Hrs, Ef2, app_length, map_length, GL, Hl by auto. simpl. lia.
      * rewrite Hrs, Ef2. simpl (r_offset r). rewrite Ho, <- Hl, skipn_app, skipn_all, Nat.sub_diag.
        simpl. rewrite <- (GL _ false (a_flags a) P2) at 1. rewrite <- (map_length Some). now rewrite firstn_all.
    + intros Hon. unfold read_weights.
      destruct Hi1 as ((_ & _ & _ & Hl) & _). specialize (Hl Hon).
      assert (Ef2 : b_weights b2 = b_weights b1 ++ map Some (given n w_zero (a_weights a))) by (rewrite Eb2; simpl; now rewrite Hon, G).
      destruct (read_extends (b_weights b2) (b_weights b3) r) as [-> ->]; [| |exact Hwe|].
      * rewrite Hrs; auto.
      * rewrite Hrs, Ef2, app_length, map_length, GL, Hl by auto. simpl. lia.
      * rewrite Hrs, Ef2. simpl (r_offset r). rewrite Ho, <- Hl, skipn_app, skipn_all, Nat.sub_diag.
        simpl. rewrite <- (GL _ w_zero (a_weights a) P3) at 1. rewrite <- (map_length Some). now rewrite firstn_all.
Qed.

(** Moving a data buffer keeps its contents under the new name. *)
Lemma find_erase_same n l : find_data (C := C) n (erase_data n l) = None.
Proof. induction l as [|[k x] l IH]; simpl; auto. destruct (String.eqb k n) eqn:E; simpl; auto. now rewrite E. Qed.
Lemma move_data_spec b src tgt v : inv b -> find_data src (b_data b) = Some v -> src <> tgt ->
  exists b', move_data b src tgt = Done b' /\ find_data tgt (b_data b') = Some v /\ find_data src (b_data b') = None /\
    (forall n, n <> src -> n <> tgt -> find_data n (b_data b') = find_data n (b_data b)) /\
    b_rows b' = b_rows b /\ b_flags b' = b_flags b /\ b_weights b' = b_weights b.
Proof.
  intros Hi Hf Hn. unfold move_data. rewrite Hf. destruct (String.eqb_spec src tgt); [contradiction|].
  assert (E : List.length v = n_elements b).
  { rewrite (inv_n_elements b Hi). destruct Hi as ((_ & Hd & _) & _). apply (Hd src). now apply find_in. }
  rewrite (proj2 (Nat.eqb_eq _ _) E). eexists. split; [reflexivity|]. cbn [b_data b_rows b_flags b_weights].
  rewrite find_erase_other by auto. rewrite find_put_same, find_erase_same. repeat split; auto.
  intros m H1 H2. now rewrite find_erase_other, find_put_other by auto.
Qed.

(** Rows already present keep their contents too, for any data buffer. *)
Lemma old_rows_stable n ops b b' i r v :
  inv b -> rows_tile b -> (forall o, In o ops -> keeps n o) ->
  find_data n (b_data b) = Some v ->
  nth_error (b_rows b) i = Some r -> 0 < row_size r -> run b ops = Some b' ->
  nth_error (b_rows b') i = Some r /\ read_data b' n r = read_data b n r /\
  (b_flags_on b = true -> read_flags b' r = read_flags b r) /\
  (b_weights_on b = true -> read_weights b' r = read_weights b r).
Proof.
  intros Hi Ht Hk Hv Hr Hp Hrun.
  destruct (keep_run n ops b b' v Hi Hk Hv Hrun) as ([re Er] & Hfl & Hwe & v' & Ev' & X').
  assert (Hend : r_offset r + row_size r <= total_size (b_rows b)).
  { rewrite (Ht i r Hr). unfold row_size. rewrite <- (size_before_S _ i r Hr). apply size_before_total. }
  destruct Hi as ((_ & Hd & Hf & Hw) & _).
  repeat split.
  - rewrite Er, nth_error_app1; auto. apply nth_error_Some. congruence.
  - unfold read_data. rewrite Hv, Ev'. apply read_extends; auto.
    rewrite (Hd n v) by (now apply find_in). auto.
  - intros Hon. unfold read_flags. apply read_extends; auto. rewrite Hf; auto.
  - intros Hon. unfold read_weights. apply read_extends; auto. rewrite Hw; auto.
Qed.

(** ** Copies *)
Lemma copy_spec b fd ff fw : inv b ->
  let c := bda_copy b fd ff fw in
  b_rows c = b_rows b /\ b_remaining c = 0 /\ b_original c = total_size (b_rows b) /\
  inv c /\ (rows_tile b -> rows_tile c) /\
  (fd = true -> forall n r, find_data n (b_data b) <> None -> read_data c n r = read_data b n r) /\
  (ff = true -> b_flags_on b = true -> b_flags c = b_flags b) /\
  (fw = true -> b_weights_on b = true -> b_weights c = b_weights b).
Proof.
  intros Hi c. pose proof (inv_n_elements b Hi) as Hne. unfold n_elements in Hne.
  destruct Hi as ((Hcap & Hd & Hf & Hw) & Hf0 & Hw0).
  unfold c, bda_copy; simpl. rewrite Hne.
  split; [reflexivity|]. split; [reflexivity|]. split; [reflexivity|].
  split.
  { unfold inv, arrays_full; simpl. repeat split.
    - lia.
    - intros n v Hin. destruct fd; [|destruct Hin].
      apply in_map_iff in Hin as ([k x] & [= <- <-] & _). apply resize_length.
    - intros H. apply andb_true_iff in H as [-> _]. apply resize_length.
    - intros H. apply andb_true_iff in H as [-> _]. apply resize_length.
    - intros H. destruct ff; auto. simpl in H. apply Nat.ltb_ge in H.
      replace (total_size (b_rows b)) with 0 by lia.
      apply length_zero_iff_nil. apply resize_length.
    - intros H. destruct fw; auto. simpl in H. apply Nat.ltb_ge in H.
      replace (total_size (b_rows b)) with 0 by lia.
      apply length_zero_iff_nil. apply resize_length. }
  split; [intros Ht; exact Ht|].
  split; [|split].
  - intros -> n r Hn. unfold read_data; simpl.
    destruct (find_data n (b_data b)) as [v|] eqn:Ev; [|congruence].
    assert (Hm : forall l k w, find_data (C:=C) k l = Some w ->
       find_data k (map (fun kv => (fst kv, resize (total_size (b_rows b)) (snd kv))) l)
       = Some (resize (total_size (b_rows b)) w)).
    { induction l as [|[k0 x] l IH]; simpl; [discriminate|]. intros k w.
      destruct (String.eqb k0 k); [intros [= ->]; auto|auto]. }
    assert (Hres : resize (total_size (b_rows b)) v = v).
    { rewrite <- (Hd n v) by (now apply find_in). apply resize_id. }
    destruct (find_data EmptyString (b_data b)) as [v0|] eqn:E0.
    + rewrite (Hm _ _ _ Ev), Hres. reflexivity.
    + rewrite (Hm _ n v), Hres; auto.
      rewrite find_put_other; auto. intros ->. congruence.
  - intros -> Hon. rewrite <- (Hf Hon). apply resize_id.
  - intros -> Hon. rewrite <- (Hw Hon). apply resize_id.
Qed.
End Proofs.
