(** C65, C66: combining visibilities, solutions in a buffer. *)
From Coq Require Import String List Bool Arith Lia.
From Verif Require Import BdaBufferModel BdaBufferSpec AverageModel CombineModel CombineSpec.
Import ListNotations.
Open Scope nat_scope.

Lemma eqb_false (a b : string) : a <> b -> String.eqb a b = false.
Proof. intros H. now apply String.eqb_neq. Qed.
Lemma lookup_put {V} n (v : V) l m : lookup m (put n v l) = if String.eqb n m then Some v else lookup m l.
Proof.
  induction l as [|[k x] l IH]; cbn [put lookup].
  - destruct (String.eqb n m); reflexivity.
  - destruct (String.eqb_spec k n) as [->|Hk]; cbn [lookup].
    + destruct (String.eqb n m); reflexivity.
    + rewrite IH. destruct (String.eqb_spec k m) as [->|Hm]; [|reflexivity]. now rewrite (eqb_false n m) by congruence.
Qed.
Lemma lookup_erase {V} n (l : list (string * V)) m : lookup m (erase n l) = if String.eqb n m then None else lookup m l.
Proof.
  unfold erase. induction l as [|[k x] l IH]; cbn [filter lookup fst]; [now destruct (String.eqb n m)|].
  destruct (String.eqb_spec k n) as [->|Hk]; cbn [negb lookup].
  - rewrite IH. destruct (String.eqb_spec n m); reflexivity.
  - rewrite IH. destruct (String.eqb_spec k m) as [->|Hm]; [now rewrite (eqb_false n m) by congruence|reflexivity].
Qed.

Lemma values2_spec {C} (op : C -> C -> C) a b : List.length b = List.length a -> pointwise op a b (values2 op a b).
Proof.
  intros L. unfold values2, pointwise. rewrite map_length, combine_length. split; [lia|]. split; [lia|].
  revert b L. induction a as [|x a IH]; intros [|y b] L; try discriminate L; intros [|i] u v Ha Hb; try discriminate Ha; cbn in *.
  - now injection Ha as ->; injection Hb as ->.
  - apply IH; auto.
Qed.

(** * C65: regular data *)
(** With a name that is given and visibilities of equal size: the main visibilities become the sums or differences one by one, the named ones
    are gone, and everything else is what it was. *)
Theorem C65_regular {C R} (op : C -> C -> C) (b : buffer C R) n d other : n <> EmptyString ->
  get_data b "" = Ok d -> get_data b n = Ok other -> List.length d = List.length other ->
  exists b' d', process_regular op b n = Ok b' /\ get_data b' "" = Ok d' /\ pointwise op d other d' /\
    get_data b' n = Throw /\ same_but [EmptyString; n] (get_data b) (get_data b') /\ rest b' = rest b.
Proof.
  intros Hn Hd Ho L. unfold process_regular. rewrite Ho, Hd, L, Nat.eqb_refl. do 2 eexists. split; [reflexivity|].
  split; [reflexivity|]. split; [now apply values2_spec|].
  unfold remove_data, get_data. cbn [main extra rest]. rewrite (eqb_false n "") by exact Hn.
  split; [now rewrite lookup_erase, String.eqb_refl|]. split; [|reflexivity]. intros m Hm.
  assert (m <> EmptyString /\ m <> n) as [H1 H2] by (split; intros ->; apply Hm; cbn; tauto).
  rewrite (eqb_false m "") by exact H1. rewrite lookup_erase, (eqb_false n m) by congruence. reflexivity.
Qed.
Print Assumptions C65_regular.
(** Visibilities that are not there are an error. *)
Theorem C65_missing {C R} (op : C -> C -> C) (b : buffer C R) n : n <> EmptyString -> lookup n (extra b) = None -> process_regular op b n = Throw.
Proof. intros Hn H. unfold process_regular, get_data. now rewrite (eqb_false n "") by exact Hn; rewrite H. Qed.
Print Assumptions C65_missing.
Example C65_regular_case :
  let b := {| main := Some [10; 20]; extra := [("model", [1; 2]); ("other", [5; 5])]%string; rest := tt |} in
  process_regular Nat.sub b "model" = Ok {| main := Some [9; 18]; extra := [("other", [5; 5])]%string; rest := tt |} /\
  process_regular Nat.sub b "mode" = Throw.
Proof. split; reflexivity. Qed.
(** Missing: the name may be empty.  Then the main visibilities are subtracted from themselves, and all named ones are removed. *)
Theorem C65_empty_refuted : exists (b b' : buffer nat unit) d, get_data b "" = Ok d /\ get_data b "other" = Ok d /\
  process_regular Nat.sub b "" = Ok b' /\ get_data b' "" = Ok [0; 0] /\ get_data b' "other" = Throw.
Proof.
  exists {| main := Some [10; 20]; extra := [("other", [10; 20])]%string; rest := tt |}. do 2 eexists.
  split; [reflexivity|]. split; [reflexivity|]. split; [reflexivity|]. split; reflexivity.
Qed.
Print Assumptions C65_empty_refuted.

(** * C65: BDA data *)
Lemma find_put {C} n (v : list (option C)) l m : find_data m (put_data n v l) = if String.eqb n m then Some v else find_data m l.
Proof.
  induction l as [|[k x] l IH]; cbn [put_data find_data].
  - destruct (String.eqb n m); reflexivity.
  - destruct (String.eqb_spec k n) as [->|Hk]; cbn [find_data].
    + destruct (String.eqb n m); reflexivity.
    + rewrite IH. destruct (String.eqb_spec k m) as [->|Hm]; [|reflexivity]. now rewrite (eqb_false n m) by congruence.
Qed.
Lemma find_erase {C} n (l : list (string * list (option C))) m : find_data m (erase_data n l) = if String.eqb n m then None else find_data m l.
Proof.
  unfold erase_data. induction l as [|[k x] l IH]; cbn [filter find_data fst]; [now destruct (String.eqb n m)|].
  destruct (String.eqb_spec k n) as [->|Hk]; cbn [negb find_data].
  - rewrite IH. destruct (String.eqb_spec n m); reflexivity.
  - rewrite IH. destruct (String.eqb_spec k m) as [->|Hm]; [now rewrite (eqb_false n m) by congruence|reflexivity].
Qed.
Lemma find_In {C} n (l : list (string * list (option C))) v : find_data n l = Some v -> In (n, v) l.
Proof.
  induction l as [|[k x] l IH]; cbn [find_data]; [discriminate|]. destruct (String.eqb_spec k n) as [->|Hk].
  - intros [= ->]. now left.
  - right. auto.
Qed.

Section Rows.
Context {C T U : Type} (op : C -> C -> C).
Notation both a b := (map (fun p => op2 op (fst p) (snd p)) (combine a b)).
Lemma both_app (a b a' b' : list (option C)) : List.length a = List.length b -> both (a ++ a') (b ++ b') = both a b ++ both a' b'.
Proof. revert b. induction a as [|x a IH]; intros [|y b] L; try discriminate L; [reflexivity|]. cbn. f_equal. apply IH. now injection L. Qed.
Lemma transform_all (other : list (option C)) : forall (rows : list (row T U)) s done d,
  List.length done = s -> s + list_sum (map row_size rows) = List.length other -> List.length (done ++ d) = List.length other ->
  (forall i r, nth_error rows i = Some r -> r_offset r = s + list_sum (map row_size (firstn i rows))) ->
  transform_rows op false (done ++ d) other rows = Some (done ++ both d (skipn s other)).
Proof.
  induction rows as [|r rows IH]; intros s done d Hs Ht Hl Ho; cbn [transform_rows].
  - cbn in Ht. rewrite app_length in Hl. assert (d = []) as -> by (apply length_zero_iff_nil; lia). reflexivity.
  - assert (O := Ho 0 r eq_refl). cbn [firstn map list_sum fold_right] in O. rewrite Nat.add_0_r in O.
    cbn [map] in Ht. change (list_sum (row_size r :: map row_size rows)) with (row_size r + list_sum (map row_size rows)) in Ht.
    set (k := row_size r) in *. rewrite app_length in Hl.
    unfold transform. rewrite O, app_length.
    replace (s + k <=? List.length done + List.length d) with true by (symmetry; apply Nat.leb_le; lia).
    replace (s + k <=? List.length other) with true by (symmetry; apply Nat.leb_le; lia). cbn [andb].
    rewrite firstn_app, firstn_all2 by lia. replace (s - List.length done) with 0 by lia. cbn [firstn]. rewrite app_nil_r.
    assert (SK : skipn s (done ++ d) = d) by (rewrite skipn_app, skipn_all2 by lia; replace (s - List.length done) with 0 by lia; reflexivity).
    rewrite SK. replace (skipn (s + k) (done ++ d)) with (skipn k d).
    2:{ rewrite skipn_app, (skipn_all2 done) by lia. replace (s + k - List.length done) with k by lia. reflexivity. }
    rewrite app_assoc. set (new := both (firstn k d) (firstn k (skipn s other))).
    assert (LN : List.length new = k). { unfold new. rewrite map_length, combine_length, !firstn_length, skipn_length. lia. }
    rewrite (IH (s + k)).
    + rewrite <- app_assoc. f_equal. f_equal. unfold new.
      assert (SS : forall (l : list (option C)) a c, skipn (a + c) l = skipn c (skipn a l)).
      { induction l as [|z l IHl]; intros [|a] c; cbn [skipn Nat.add]; try reflexivity; [destruct c; reflexivity|apply IHl]. }
      rewrite SS.
      rewrite <- both_app by (rewrite !firstn_length, skipn_length; lia). now rewrite !firstn_skipn.
    + rewrite app_length, LN. lia.
    + lia.
    + rewrite !app_length, LN, skipn_length. lia.
    + intros i r' H. specialize (Ho (S i) r' H). cbn [firstn map] in Ho.
      change (list_sum (row_size r :: map row_size (firstn i rows))) with (k + list_sum (map row_size (firstn i rows))) in Ho. lia.
Qed.
End Rows.

(** For buffers as the rows are added to them (C05: rows_tile, arrays_full) that hold both visibilities, and a name that is given: the main
    visibilities become the sums or differences one by one, the named ones are gone, all else is what it was. *)
Theorem C65_bda {C W T U} (op : C -> C -> C) (b : bda C W T U) n d other : n <> EmptyString -> rows_tile b -> arrays_full b ->
  find_data "" (b_data b) = Some d -> find_data n (b_data b) = Some other -> 0 < total_size (b_rows b) ->
  exists b' d', process_bda op b n = Ok b' /\ find_data "" (b_data b') = Some d' /\ pointwise (op2 op) d other d' /\
    find_data n (b_data b') = None /\ same_but [EmptyString; n] (fun m => find_data m (b_data b)) (fun m => find_data m (b_data b')) /\
    b_rows b' = b_rows b /\ b_flags b' = b_flags b /\ b_weights b' = b_weights b.
Proof.
  intros Hn Ti (_ & Fu & _) Hd Ho Hp. unfold process_bda. rewrite Ho, Hd.
  assert (L1 := Fu _ _ (find_In _ _ _ Hd)). assert (L2 := Fu _ _ (find_In _ _ _ Ho)).
  assert (TS : total_size (b_rows b) = list_sum (map row_size (b_rows b))).
  { unfold total_size, size_before. rewrite firstn_all. reflexivity. }
  assert (E := transform_all op other (b_rows b) 0 [] d eq_refl ltac:(lia) ltac:(cbn [app]; lia)).
  cbn [app skipn] in E. rewrite (eqb_false n "") by exact Hn.
  destruct other as [|o0 or] eqn:Eo; [cbn in L2; lia|]. rewrite <- Eo in *. destruct d as [|d0 dr] eqn:Ed; [cbn in L1; lia|]. rewrite <- Ed in *.
  rewrite E.
  2:{ intros i r H. rewrite (Ti i r H). reflexivity. }
  do 2 eexists. split; [reflexivity|]. cbn [b_data b_rows b_flags b_weights].
  split; [rewrite find_erase, (eqb_false n "") by exact Hn; rewrite find_put; reflexivity|].
  split; [apply (values2_spec (op2 op)); lia|].
  split; [now rewrite find_erase, String.eqb_refl|]. split; [|repeat split]. intros m Hm.
  assert (m <> EmptyString /\ m <> n) as [H1 H2] by (split; intros ->; apply Hm; cbn; tauto).
  rewrite find_erase, (eqb_false n m) by congruence. rewrite find_put, (eqb_false "" m) by congruence. reflexivity.
Qed.
Print Assumptions C65_bda.
Example C65_bda_case :
  let rw bl off := MkRow 4 2 bl bl 2 1 off (@None nat) in
  let b := MkBda [("", map Some [10; 20; 30; 40]); ("model", map Some [1; 2; 3; 4])]%string [] false (@nil (option nat)) false [rw 0 0; rw 1 2] 4 0 in
  rows_tile b /\ arrays_full b /\ process_bda Nat.sub b "model" =
    Ok (MkBda [("", map Some [9; 18; 27; 36])]%string [] false [] false [rw 0 0; rw 1 2] 4 0).
Proof.
  cbv zeta. split; [|split; [|reflexivity]].
  - intros [|[|i]] r; cbn; [intros [= <-]; reflexivity|intros [= <-]; reflexivity|]. destruct i; discriminate.
  - split; [reflexivity|]. split; [|split; discriminate]. intros n v [H|[H|[]]]; injection H as <- <-; reflexivity.
Qed.
(** Missing: with an empty name, the main visibilities are removed, so that the next step finds none. *)
Theorem C65_bda_empty_refuted : exists (b b' : bda nat nat nat nat) d, rows_tile b /\ arrays_full b /\
  find_data "" (b_data b) = Some d /\ process_bda Nat.sub b "" = Ok b' /\ find_data "" (b_data b') = None.
Proof.
  exists (MkBda [(EmptyString, [Some 1])] [] false [] false [MkRow 4 2 0 0 1 1 0 None] 1 0). do 2 eexists. split; [|split; [|split; [|split]]].
  - intros [|i] r; cbn; [intros [= <-]; reflexivity|destruct i; discriminate].
  - split; [reflexivity|]. split; [|split; discriminate]. intros n v [H|[]]; injection H as <- <-. reflexivity.
  - reflexivity.
  - reflexivity.
  - reflexivity.
Qed.
Print Assumptions C65_bda_empty_refuted.

(** * C65: moving and copying *)
(** Copies and moves between buffers: the target has the visibilities under the new name, the source lost them when moved; all else is what it was. *)
Theorem C65_copy {C R} (t s : buffer C R) from to v : to <> EmptyString -> get_data s from = Ok v ->
  exists t', copy_data t s from to = Ok t' /\ get_data t' to = Ok v /\ same_but [to] (get_data t) (get_data t') /\ rest t' = rest t.
Proof.
  intros Ht Hv. unfold copy_data. rewrite (eqb_false to "") by exact Ht. rewrite Hv. eexists. split; [reflexivity|].
  unfold get_data. cbn [main extra rest]. split; [rewrite (eqb_false to "") by exact Ht; now rewrite lookup_put, String.eqb_refl|].
  split; [|reflexivity]. intros m Hm. rewrite lookup_put, (eqb_false to m); [reflexivity|]. intros ->. apply Hm. now left.
Qed.
Print Assumptions C65_copy.
Theorem C65_move {C R} (t s : buffer C R) from to v : to <> EmptyString -> get_data s from = Ok v ->
  exists t' s', move_data t s from to = Ok (t', s') /\ get_data t' to = Ok v /\ same_but [to] (get_data t) (get_data t') /\ rest t' = rest t /\
    (from <> EmptyString -> get_data s' from = Throw) /\ same_but [from] (get_data s) (get_data s') /\ rest s' = rest s.
Proof.
  intros Ht Hv. unfold move_data. rewrite (eqb_false to "") by exact Ht. rewrite Hv. do 2 eexists. split; [reflexivity|].
  split; [unfold get_data; cbn [main extra rest]; rewrite (eqb_false to "") by exact Ht; now rewrite lookup_put, String.eqb_refl|].
  split. { intros m Hm. unfold get_data. cbn [main extra rest]. rewrite lookup_put, (eqb_false to m); [reflexivity|]. intros ->. apply Hm. now left. }
  split; [reflexivity|]. destruct (String.eqb_spec from "") as [->|Hf].
  - split; [congruence|]. split; [|reflexivity]. intros m Hm. unfold get_data. cbn [main extra]. rewrite (eqb_false m ""); [reflexivity|]. intros ->. apply Hm. now left.
  - split. { intros _. unfold get_data. cbn [main extra]. rewrite (eqb_false from "") by exact Hf. now rewrite lookup_erase, String.eqb_refl. }
    split; [|reflexivity]. intros m Hm. unfold get_data. cbn [main extra]. rewrite lookup_erase, (eqb_false from m); [reflexivity|]. intros ->. apply Hm. now left.
Qed.
Print Assumptions C65_move.
Example C65_move_case :
  let t := {| main := Some [1]; extra := [("a", [2])]%string; rest := tt |} in let s := {| main := Some [7]; extra := [("b", [8])]%string; rest := tt |} in
  move_data t s "b" "a" = Ok ({| main := Some [1]; extra := [("a", [8])]%string; rest := tt |}, {| main := Some [7]; extra := []; rest := tt |}) /\
  copy_data t s "" "c" = Ok {| main := Some [1]; extra := [("a", [2]); ("c", [7])]%string; rest := tt |}.
Proof. split; reflexivity. Qed.
(** Missing: moving within a buffer, from a name to the same name, loses the visibilities (BDA buffers handle this). *)
Theorem C65_move_within_refuted : exists (b b' : buffer nat unit) v, get_data b "a" = Ok v /\ move_within b "a" "a" = Ok b' /\ get_data b' "a" = Throw.
Proof. exists {| main := Some [1]; extra := [("a", [2])]%string; rest := tt |}. do 2 eexists. split; [reflexivity|]. split; reflexivity. Qed.
Print Assumptions C65_move_within_refuted.

(** * C66: solutions *)
Lemma concat_nth {A} (l : list (list A)) n a p d : Forall (fun x => List.length x = n) l -> p < n -> a < List.length l ->
  nth_error (concat l) (a * n + p) = nth_error (nth a l d) p.
Proof.
  revert a. induction l as [|x l IH]; intros a F Hp Ha; [cbn in Ha; lia|]. inversion F as [|? ? F1 F2]; subst. cbn [concat].
  destruct a as [|a].
  - cbn [nth Nat.mul]. rewrite nth_error_app1 by lia. reflexivity.
  - cbn [nth]. rewrite nth_error_app2 by (cbn; lia). cbn in Ha. rewrite <- IH; [f_equal; cbn; lia|exact F2|exact Hp|lia].
Qed.
(** Directions with different names: reading a direction gives, for every channel, antenna and polarization, what was set for it; directions that were
    not set are what they were before. *)
Theorem C66_solutions {G} (d : G) solution n_ant n_pol names old : NoDup names ->
  Forall (fun c => List.length c = n_ant * List.length names * n_pol) solution ->
  let s := set_solution d solution n_ant n_pol names old in
  (forall i name, nth_error names i = Some name ->
    exists r, get_solution s name = Ok r /\ List.length r = List.length solution /\
    forall ch c a p, nth_error solution ch = Some c -> a < n_ant -> p < n_pol ->
      exists x v, nth_error r ch = Some x /\ List.length x = n_ant * n_pol /\ nth_error x (a * n_pol + p) = Some v /\
        nth_error c (position (List.length names) n_pol a i p) = Some v) /\
  (forall name, ~ In name names -> get_solution s name = get_solution old name).
Proof.
  intros ND F. cbv zeta. unfold set_solution. set (nd := List.length names).
  set (val i := map (fun c => of_direction d c n_ant nd n_pol i) solution).
  assert (K : forall l o name, lookup name (fold_left (fun s i => put (nth i names EmptyString) (val i) s) l o) =
    match find (fun i => String.eqb (nth i names EmptyString) name) (rev l) with Some i => Some (val i) | None => lookup name o end).
  { induction l as [|i l IH]; intros o name; [reflexivity|]. cbn [fold_left rev]. rewrite IH.
    assert (FA : forall (f : nat -> bool) l1 l2, find f (l1 ++ l2) = match find f l1 with Some x => Some x | None => find f l2 end).
    { intros f l1 l2. induction l1 as [|y l1 IH1]; [reflexivity|]. cbn. destruct (f y); [reflexivity|exact IH1]. }
    rewrite FA. destruct (find _ (rev l)) as [j|]; [reflexivity|]. cbn [find]. rewrite lookup_put.
    destruct (String.eqb (nth i names EmptyString) name); reflexivity. }
  split.
  - intros i name Hi. assert (Li : i < nd) by (apply nth_error_Some; congruence).
    unfold get_solution. rewrite K.
    destruct (find (fun i0 => String.eqb (nth i0 names EmptyString) name) (rev (seq 0 nd))) as [j|] eqn:E.
    2:{ exfalso. apply find_none with (x := i) in E; [|apply in_rev; rewrite rev_involutive; apply in_seq; lia].
        apply String.eqb_neq in E. apply E. now apply nth_error_nth. }
    apply find_some in E as [E1 E2]. apply in_rev, in_seq in E1. apply String.eqb_eq in E2.
    assert (j = i) as ->. { apply (proj1 (NoDup_nth names EmptyString) ND); [lia|exact Li|]. rewrite E2. symmetry. now apply nth_error_nth. }
    eexists. split; [reflexivity|]. split; [unfold val; now rewrite !map_length|].
    intros ch c a p Hc Ha Hp. rewrite Forall_forall in F. assert (LC := F c (nth_error_In _ _ Hc)).
    assert (LD : Forall (fun x => List.length x = n_pol) (of_direction d c n_ant nd n_pol i)).
    { unfold of_direction. rewrite Forall_map, Forall_forall. intros y _. now rewrite map_length, seq_length. }
    assert (Lsum : forall l : list (list G), Forall (fun x => List.length x = n_pol) l -> List.length (concat l) = List.length l * n_pol).
    { induction l as [|x l IH]; intros FF; [reflexivity|]. inversion FF; subst. cbn. rewrite app_length, IH by assumption. reflexivity. }
    exists (concat (of_direction d c n_ant nd n_pol i)), (nth (position nd n_pol a i p) c d). split.
    { unfold val. rewrite map_map. now rewrite nth_error_map, Hc. }
    split. { rewrite Lsum by exact LD. unfold of_direction. now rewrite map_length, seq_length. }
    split.
    + rewrite (concat_nth _ n_pol a p []); [|exact LD|exact Hp|unfold of_direction; rewrite map_length, seq_length; exact Ha].
      unfold of_direction. set (f := fun a0 => map _ (seq 0 n_pol)).
      rewrite (nth_indep _ [] (f 0)) by (rewrite map_length, seq_length; exact Ha).
      rewrite (map_nth f), seq_nth by exact Ha. unfold f. rewrite nth_error_map. rewrite (nth_error_nth' _ 0) by (rewrite seq_length; exact Hp).
      rewrite seq_nth by exact Hp. reflexivity.
    + apply nth_error_nth'. fold nd in LC. rewrite LC. unfold position.
      assert (a * nd + i < n_ant * nd) by nia. nia.
  - intros name Hn. unfold get_solution. rewrite K.
    destruct (find (fun i0 => String.eqb (nth i0 names EmptyString) name) (rev (seq 0 nd))) as [j|] eqn:E; [|reflexivity].
    exfalso. apply find_some in E as [E1 E2]. apply in_rev, in_seq in E1. apply String.eqb_eq in E2. apply Hn. rewrite <- E2. apply nth_In. fold nd. lia.
Qed.
Print Assumptions C66_solutions.
Example C66_solutions_case :
  let s := set_solution 0 [[1; 2; 3; 4; 5; 6; 7; 8]; [11; 12; 13; 14; 15; 16; 17; 18]] 2 2 ["x"; "y"]%string [("z", [])]%string in
  get_solution s "y" = Ok [[3; 4; 7; 8]; [13; 14; 17; 18]] /\ get_solution s "z" = Ok [] /\ get_solution s "w" = Throw.
Proof. split; [|split]; reflexivity. Qed.
