(** Properties C05 and C06. *)
From Coq Require Import List String Bool Arith Lia.
From Verif Require Import BdaBufferModel BdaBufferSpec BdaBufferProofs.
Import ListNotations.
Open Scope nat_scope.

(** C05, capacity part: holds for every history and every choice of fields. *)
Theorem C05_arrays_full : forall C W T U (cz : C) (wz : W) (te : T -> T -> T -> T -> bool)
    pool fd ff fw ops (b : bda C W T U),
  run cz wz te (bda_new pool fd ff fw) ops = Some b -> arrays_full b.
Proof. intros *. exact (arrays_full_reachable cz wz te pool fd ff fw ops b). Qed.
Print Assumptions C05_arrays_full.

(** C05, layout part, provided some array exists whenever a row is added.  The
    full statement (without that premise) is false, see below. *)
Theorem C05_rows_tile_partial : forall C W T U (cz : C) (wz : W) (te : T -> T -> T -> T -> bool)
    pool fd ff fw ops (b : bda C W T U),
  run cz wz te (bda_new pool fd ff fw) ops = Some b ->
  (forall pre a post b1, ops = pre ++ OpAddRow a :: post ->
     run cz wz te (bda_new pool fd ff fw) pre = Some b1 -> has_storage b1) ->
  rows_tile b.
Proof. intros *. exact (tile_reachable cz wz te pool fd ff fw ops b). Qed.
Print Assumptions C05_rows_tile_partial.

(** With flags or weights enabled the layout is right for every history. *)
Theorem C05_rows_tile_flags_or_weights : forall C W T U (cz : C) (wz : W) (te : T -> T -> T -> T -> bool)
    pool fd ff fw ops (b : bda C W T U),
  (ff = true \/ fw = true) ->
  run cz wz te (bda_new pool fd ff fw) ops = Some b -> 0 < pool -> rows_tile b.
Proof. intros *. exact (tile_reachable_flags_or_weights cz wz te pool fd ff fw ops b). Qed.
Print Assumptions C05_rows_tile_flags_or_weights.

(** Concrete values: visibilities and weights are numbers, times are numbers. *)
Definition ex_te (t i t0 i0 : nat) : bool := 2 * t + i <=? 2 * t0 - i0.
Definition ex_row (t bl : nat) (d : list nat) : row_args nat nat nat nat :=
  MkArgs t 2 bl (List.length d) 1 0 (Some d) None (Some d) None.

Example C05_example :
  exists b, run 0 0 ex_te (bda_new 10 true false true)
      [OpAddRow (ex_row 4 0 [5; 6]); OpAddData "model"; OpAddRow (ex_row 4 1 [7; 8; 9]);
       OpRemoveData EmptyString; OpAddRow (ex_row 4 2 [1; 2; 3; 4; 5; 6])] = Some b /\
    map r_offset (b_rows b) = [0; 2] /\ b_remaining b = 5.
Proof. eexists. repeat split. Qed.

(** The premise is needed: a buffer created without data, flags and weights
    (a reader asked for uvw only) gives both rows offset 0, and the data buffer
    added later by a predict step is shared by the two rows. *)
Theorem C05_rows_tile_refuted :
  exists pool ops (b : bda nat nat nat nat) r1 r2,
    run 0 0 ex_te (bda_new pool false false false) ops = Some b /\
    nth_error (b_rows b) 0 = Some r1 /\ nth_error (b_rows b) 1 = Some r2 /\
    find_data EmptyString (b_data b) <> None /\ rows_overlap r1 r2.
Proof.
  exists 10, [OpAddRow (MkArgs 4 2 0 3 1 0 None None None None);
              OpAddRow (MkArgs 4 2 1 3 1 1 None None None None); OpAddData EmptyString].
  eexists _, _, _. split; [reflexivity|]. split; [reflexivity|]. split; [reflexivity|].
  split; [discriminate|]. exists 0. simpl. lia.
Qed.
Print Assumptions C05_rows_tile_refuted.

(** C06: an accepted row reads back as given whatever is added later.  Missing visibilities and weights
    are zero, missing flags are false, and other data buffers than the main one are filled with zeros. *)
Theorem C06_row_contents_stable : forall C W T U (cz : C) (wz : W) (te : T -> T -> T -> T -> bool)
    name pool fd ff fw ops1 (b1 : bda C W T U) a b2 ops2 b3,
  run cz wz te (bda_new pool fd ff fw) ops1 = Some b1 ->
  find_data name (b_data b1) <> None -> 0 < a_nchan a * a_ncorr a ->
  add_row cz wz te b1 a = Done b2 ->
  (forall o, In o ops2 -> keeps name o) -> run cz wz te b2 ops2 = Some b3 ->
  let n := a_nchan a * a_ncorr a in
  exists r, nth_error (b_rows b3) (List.length (b_rows b1)) = Some r /\
    r_time r = a_time a /\ r_interval r = a_interval a /\ r_baseline r = a_baseline a /\
    r_nchan r = a_nchan a /\ r_ncorr r = a_ncorr a /\ r_rownr r = a_rownr a /\ r_uvw r = a_uvw a /\
    read_data b3 name r = Some (Some (map Some (given n cz (if String.eqb name EmptyString then a_data a else None)))) /\
    (b_flags_on b1 = true -> read_flags b3 r = Some (Some (map Some (given n false (a_flags a))))) /\
    (b_weights_on b1 = true -> read_weights b3 r = Some (Some (map Some (given n wz (a_weights a))))).
Proof. intros *. exact (row_stable cz wz te name pool fd ff fw ops1 b1 a b2 ops2 b3). Qed.
Print Assumptions C06_row_contents_stable.

(** Moving a data buffer to another name moves its contents and changes nothing else. *)
Theorem C06_move_data : forall C W T U (cz : C) (wz : W) (te : T -> T -> T -> T -> bool)
    pool fd ff fw ops (b : bda C W T U) src tgt v,
  run cz wz te (bda_new pool fd ff fw) ops = Some b -> find_data src (b_data b) = Some v -> src <> tgt ->
  exists b', move_data b src tgt = Done b' /\ find_data tgt (b_data b') = Some v /\ find_data src (b_data b') = None /\
    (forall n, n <> src -> n <> tgt -> find_data n (b_data b') = find_data n (b_data b)) /\
    b_rows b' = b_rows b /\ b_flags b' = b_flags b /\ b_weights b' = b_weights b.
Proof. intros * H. apply move_data_spec. exact (inv_run cz wz te ops _ b (inv_new pool fd ff fw) H). Qed.
Print Assumptions C06_move_data.

(** Rows of any data buffer keep their contents. *)
Theorem C06_old_rows_stable : forall C W T U (cz : C) (wz : W) (te : T -> T -> T -> T -> bool)
    pool fd ff fw ops0 n ops (b b' : bda C W T U) i r v,
  run cz wz te (bda_new pool fd ff fw) ops0 = Some b -> rows_tile b ->
  (forall o, In o ops -> keeps n o) -> find_data n (b_data b) = Some v ->
  nth_error (b_rows b) i = Some r -> 0 < r_nchan r * r_ncorr r -> run cz wz te b ops = Some b' ->
  nth_error (b_rows b') i = Some r /\ read_data b' n r = read_data b n r /\
  (b_flags_on b = true -> read_flags b' r = read_flags b r) /\
  (b_weights_on b = true -> read_weights b' r = read_weights b r).
Proof.
  intros * H. apply old_rows_stable with (v := v).
  exact (inv_run cz wz te ops0 _ b (inv_new pool fd ff fw) H).
Qed.
Print Assumptions C06_old_rows_stable.

(** A row is refused exactly when it is out of order (exception) or does not fit
    (false); no assertion inside AddRow can fail.  (In both cases the buffer is
    not modified: the model of AddRow returns no new buffer.) *)
Theorem C06_add_row_decision : forall C W T U (cz : C) (wz : W) (te : T -> T -> T -> T -> bool)
    pool fd ff fw ops (b : bda C W T U) a,
  run cz wz te (bda_new pool fd ff fw) ops = Some b ->
  let n := a_nchan a * a_ncorr a in
  ptr_ok n (a_data a) = true -> ptr_ok n (a_flags a) = true -> ptr_ok n (a_weights a) = true ->
  match add_row cz wz te b a with
  | Thrown => exists pre last, b_rows b = pre ++ [last] /\
                te (a_time a) (a_interval a) (r_time last) (r_interval last) = true
  | Refused => b_remaining b < n
  | Done b' => n <= b_remaining b /\ b_remaining b' = b_remaining b - n /\
               forall pre last, b_rows b = pre ++ [last] -> te (a_time a) (a_interval a) (r_time last) (r_interval last) = false
  | Undefined => False
  end.
Proof.
  intros * H. apply add_row_defined.
  exact (inv_run cz wz te ops _ b (inv_new pool fd ff fw) H).
Qed.
Print Assumptions C06_add_row_decision.

(** A copy has the same rows and, for the requested fields, the same contents. *)
Theorem C06_copy_contents : forall C W T U (cz : C) (wz : W) (te : T -> T -> T -> T -> bool)
    pool fd ff fw ops (b : bda C W T U) cd cf cw,
  run cz wz te (bda_new pool fd ff fw) ops = Some b ->
  let c := bda_copy b cd cf cw in
  b_rows c = b_rows b /\ b_remaining c = 0 /\ arrays_full c /\ (rows_tile b -> rows_tile c) /\
  (cd = true -> forall n r, find_data n (b_data b) <> None -> read_data c n r = read_data b n r) /\
  (cf = true -> b_flags_on b = true -> b_flags c = b_flags b) /\
  (cw = true -> b_weights_on b = true -> b_weights c = b_weights b).
Proof.
  intros * H. pose proof (inv_run cz wz te ops _ b (inv_new pool fd ff fw) H) as Hi.
  pose proof (copy_spec b cd cf cw Hi) as (A & B & _ & D & E). cbv zeta.
  split; [exact A|]. split; [exact B|]. split; [exact (proj1 D)|exact E].
Qed.
Print Assumptions C06_copy_contents.

Example C06_example :
  let b1 := bda_new 10 true true true in
  exists b2 b3, add_row 0 0 ex_te b1 (ex_row 4 0 [5; 6]) = Done b2 /\
    run 0 0 ex_te b2 [OpAddRow (ex_row 4 1 [7; 8; 9]); OpAddData "m"; OpAddRow (ex_row 4 1 [7; 8; 9; 1; 2; 3])] = Some b3 /\
    (exists r, nth_error (b_rows b3) 0 = Some r /\ read_data b3 EmptyString r = Some (Some [Some 5; Some 6]) /\
               read_weights b3 r = Some (Some [Some 5; Some 6])) /\
    add_row 0 0 ex_te b3 (ex_row 1 2 [7]) = Thrown /\ add_row 0 0 ex_te b3 (ex_row 9 2 [7;7;7;7;7;7]) = Refused.
Proof. eexists _, _. repeat split. eexists. repeat split. Qed.
