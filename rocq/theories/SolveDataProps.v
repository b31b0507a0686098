(** Properties of the data that the solvers get. *)
From Coq Require Import QArith Qround Qcanon List Bool Arith ZArith Lia.
From Verif Require Import QcUtil InfoModel InfoProofs AverageModel SolveDataModel SolveDataSpec SolveDataProofs.
Import ListNotations.
Open Scope nat_scope.

Lemma content_map {U U' V} (g : U -> U') a1 a2 n (f : U' -> nat -> V) N cb us :
  content a1 a2 n f N cb (map g us) = content (fun u => a1 (g u)) (fun u => a2 (g u)) (fun u => n (g u)) (fun u => f (g u)) N cb us.
Proof. unfold content. induction us as [|u us IH]; [reflexivity|]. cbn. destruct (a1 (g u) =? a2 (g u)); cbn; [exact IH|]. now rewrite IH. Qed.
Lemma map_list_prod {A B C} (f : A * B -> C) l m : map f (list_prod l m) = flat_map (fun a => map (fun b => f (a, b)) m) l.
Proof. induction l as [|a l IH]; [reflexivity|]. cbn. rewrite map_app, map_map, IH. reflexivity. Qed.
Lemma filter_prod {A B} (p : B -> bool) (l : list A) (m : list B) : length (filter (fun x => p (snd x)) (list_prod l m)) = length l * length (filter p m).
Proof.
  induction l as [|a l IH]; [reflexivity|]. cbn [list_prod]. rewrite filter_app, app_length, IH. cbn [length Nat.mul]. f_equal.
  clear. induction m as [|b m IH]; [reflexivity|]. cbn. destruct (p b); cbn; auto.
Qed.
Lemma filter_combine {A B} (p : B -> bool) (l : list A) (m : list B) : length l = length m -> length (filter (fun x => p (snd x)) (combine l m)) = length (filter p m).
Proof. revert m. induction l as [|a l IH]; intros [|b m] H; try discriminate; [reflexivity|]. cbn. destruct (p b); cbn; rewrite IH; auto. Qed.
Lemma nth_map_seq {A} (f : nat -> A) n i d : i < n -> nth i (map f (seq 0 n)) d = f i.
Proof. intros H. rewrite (nth_indep _ d (f 0)) by now rewrite map_length, seq_length. now rewrite map_nth, seq_nth. Qed.

Lemma limit_nth l T d : nth d (limit l T) 0 = Nat.min (nth d l 0) T.
Proof. unfold limit. change 0 with (Nat.min 0 T) at 1. apply (map_nth (fun k => Nat.min k T)). Qed.
(** A time step with its number, and a baseline with its number *)
Notation step_baseline X W := ((nat * @buffer X W) * (nat * (nat * nat)))%type.
Section Regular.
Context {X M W : Type}.
Variable to_matrix : X -> M.
Definition steps (bufs : list (@buffer X W)) (baselines : list (nat * nat)) : list (step_baseline X W) :=
  list_prod (combine (seq 0 (length bufs)) bufs) (combine (seq 0 (length baselines)) baselines).
(** What is to be stored for a channel; [sol d t]: the solution of direction [d] for a time step, within the direction *)
Definition expected (n_sol : list nat) (sol : nat -> nat -> nat) (u : step_baseline X W) (ch : nat) : @visibility M W :=
  let '((t, buf), (bl, ants)) := u in
  Visibility (to_matrix (buf_data buf bl ch)) ants (map (fun d => to_matrix (buf_models buf d bl ch)) (seq 0 (length n_sol)))
    (map (fun d => first_solution n_sol d + sol d t) (seq 0 (length n_sol))) (buf_weights buf bl ch).
Definition expected_block (n N cb : nat) (n_sol : list nat) (sol : nat -> nat -> nat) (bufs : list (@buffer X W)) (baselines : list (nat * nat)) : list (@visibility M W) :=
  content (fun u : step_baseline X W => fst (snd (snd u))) (fun u => snd (snd (snd u))) (fun _ => n) (expected n_sol sol) N cb (steps bufs baselines).

Lemma regular_samples_map n n_sol (bufs : list (@buffer X W)) baselines :
  regular_samples to_matrix n n_sol bufs baselines =
  map (fun u : step_baseline X W => regular_sample to_matrix n (length bufs) n_sol (fst (fst u)) (snd (fst u)) (fst (snd u)) (snd (snd u))) (steps bufs baselines).
Proof. unfold regular_samples, steps. now rewrite map_list_prod. Qed.
End Regular.

(** * C69: regular data *)
(** For any time steps, channels, channel blocks, directions and baselines: every block has the visibilities of all cross-correlations for its own channels, in order of
    time and baseline, with their antennas, model data of all directions and solutions; nothing is left out or written twice. *)
Theorem C69_regular : forall X M W (to_matrix : X -> M) (bufs : list (@buffer X W)) n N requested baselines,
  bufs <> [] -> 0 < N ->
  exists r sol, regular to_matrix bufs n N requested baselines = Ok r /\
    n_solutions r = map (fun k => Nat.min k (length bufs)) requested /\ length (blocks r) = N /\
    (forall d t, d < length requested -> 0 < nth d requested 0 -> t < length bufs -> part_of (Nat.min (nth d requested 0) (length bufs)) (length bufs) t (sol d t)) /\
    forall cb, cb < N -> nth cb (blocks r) [] = map Some (expected_block to_matrix n N cb (n_solutions r) sol bufs baselines).
Proof.
  intros X M W to_matrix bufs n N requested baselines Hb HN.
  assert (LT : 0 < length bufs) by (destruct bufs; [congruence|cbn; lia]).
  set (n_sol := limit requested (length bufs)). set (sol := fun d t => t * nth d n_sol 0 / length bufs).
  assert (E : forall cb, content ant1 ant2 channels stored N cb (regular_samples to_matrix n n_sol bufs baselines) = expected_block to_matrix n N cb n_sol sol bufs baselines).
  { intros cb. rewrite regular_samples_map, content_map. unfold expected_block, content.
    apply flat_map_ext. intros [[t buf] [bl ants]]. cbn [channels stored regular_sample fst snd]. apply map_ext. intros ch. unfold expected. f_equal.
    apply map_ext_in. intros d I. apply in_seq in I. rewrite start_indices_spec by lia. unfold sol. lia. }
  assert (L : forall cb, cb < N -> length (content ant1 ant2 channels stored N cb (regular_samples to_matrix n n_sol bufs baselines)) =
    length bufs * n_cross baselines * (channel_begin n N (S cb) - channel_begin n N cb)).
  { intros cb Hc. rewrite E. unfold expected_block. rewrite (content_length_regular _ _ _ _ N cb n) by reflexivity. rewrite channels_of_length by auto. f_equal.
    unfold steps. rewrite (filter_prod (fun x : nat * (nat * nat) => negb (fst (snd x) =? snd (snd x)))), combine_length, seq_length, Nat.min_id. f_equal.
    rewrite (filter_combine (fun x => negb (fst x =? snd x))) by now rewrite seq_length. reflexivity. }
  exists (SolveData (map (fun cb => map Some (expected_block to_matrix n N cb n_sol sol bufs baselines)) (seq 0 N)) n_sol), sol.
  split; [|split; [reflexivity|split; [cbn; now rewrite map_length, seq_length|split]]].
  - unfold regular. destruct (Nat.eqb_spec (length bufs) 0) as [C|_]; [lia|]. destruct (Nat.eqb_spec N 0) as [C|_]; [lia|]. cbn [orb]. cbv zeta. fold n_sol.
    pose proof (fill_all N (regular_samples to_matrix n n_sol bufs baselines) HN) as F.
    rewrite (map_ext_in _ (fun cb => (repeat None (length bufs * n_cross baselines * (channel_begin n N (S cb) - channel_begin n N cb)), 0))) in F
      by (intros cb I; apply in_seq in I; rewrite L by lia; reflexivity).
    rewrite F. rewrite map_map. cbn [fst]. f_equal. f_equal. apply map_ext. intros cb. now rewrite E.
  - intros d t Hd Hr Ht. apply part_div; [lia|exact Ht|]. unfold sol, n_sol. now rewrite limit_nth.
  - intros cb Hc. cbn [blocks n_solutions]. now rewrite nth_map_seq.
Qed.
Print Assumptions C69_regular.
(** The case: three time steps, two baselines of which one is an autocorrelation, three channels in two blocks, two directions with one and two solutions. *)
Definition case_buffer (k : nat) : @buffer nat nat := Buffer (fun bl ch => 100 * k + 10 * bl + ch) (fun _ _ => []) (fun d bl ch => 1000 * S d + 100 * k + 10 * bl + ch).
Example C69_regular_case : exists r, regular (fun x => x) (map case_buffer [1; 2; 3]) 3 2 [1; 2] [(0, 0); (0, 1)] = Ok r /\
  map (map (fun o => match o with Some v => (vis_data v, vis_models v, vis_solutions v) | None => (0, [], []) end)) (blocks r) =
  [[(110, [1110; 2110], [0; 1]); (210, [1210; 2210], [0; 1]); (310, [1310; 2310], [0; 2])];
   [(111, [1111; 2111], [0; 1]); (112, [1112; 2112], [0; 1]); (211, [1211; 2211], [0; 1]); (212, [1212; 2212], [0; 1]); (311, [1311; 2311], [0; 2]); (312, [1312; 2312], [0; 2])]].
Proof. eexists. split; reflexivity. Qed.

(** Every channel is in exactly one block; blocks have about the same number of channels, at least one if there are at least as many channels as blocks. *)
Theorem C69_blocks : forall n N, 0 < N ->
  (forall ch, ch < n -> exists cb, cb < N /\ In ch (channels_of n N cb) /\ forall cb', cb' < N -> In ch (channels_of n N cb') -> cb' = cb) /\
  forall cb, cb < N -> n / N <= length (channels_of n N cb) <= n / N + 1.
Proof.
  intros n N HN. split.
  - intros ch Hc. exists (block_of n N ch). split; [now apply block_of_lt|]. unfold channels_of. split.
    + apply filter_In. split; [apply in_seq; lia|apply Nat.eqb_refl].
    + intros cb' _ I. apply filter_In in I as [_ I]. apply Nat.eqb_eq in I. auto.
  - intros cb Hc. rewrite channels_of_length by auto. unfold channel_begin.
    pose proof (Nat.div_mod n N ltac:(lia)) as D. pose proof (Nat.mod_upper_bound n N ltac:(lia)).
    pose proof (Nat.div_mod (cb * n) N ltac:(lia)) as D1. pose proof (Nat.mod_upper_bound (cb * n) N ltac:(lia)).
    pose proof (Nat.div_mod (S cb * n) N ltac:(lia)) as D2. pose proof (Nat.mod_upper_bound (S cb * n) N ltac:(lia)).
    set (a := cb * n / N) in *. set (b := S cb * n / N) in *. set (q := n / N) in *. nia.
Qed.
Print Assumptions C69_blocks.
Example C69_blocks_case : map (channels_of 7 3) [0; 1; 2] = [[0; 1]; [2; 3]; [4; 5; 6]].
Proof. reflexivity. Qed.

(** The solution numbers of regular data: those of a direction are in its own range, the first visibility has the lowest, and all occur if the block has data. *)
Lemma first_solution_le l d : d < length l -> first_solution l d + nth d l 0 <= list_sum l.
Proof.
  unfold first_solution. revert d. induction l as [|n l IH]; intros d H; [cbn in H; lia|]. destruct d as [|d]; cbn; [unfold list_sum; lia|].
  specialize (IH d ltac:(cbn in H; lia)). unfold list_sum in *. lia.
Qed.
Lemma part_exists n T k : 0 < n -> n <= T -> k < n -> exists t, t < T /\ part_of n T t k.
Proof.
  intros Hn HT Hk. exists ((k * T + n - 1) / n). pose proof (Nat.div_mod (k * T + n - 1) n ltac:(lia)) as D. pose proof (Nat.mod_upper_bound (k * T + n - 1) n ltac:(lia)).
  set (t := (k * T + n - 1) / n) in *. assert (B : k * T <= t * n < k * T + n) by nia. split; [|unfold part_of; nia].
  assert (t * n < T * n) by nia. nia.
Qed.
Lemma flat_map_In_content {U V} (a1 a2 n : U -> nat) (f : U -> nat -> V) N cb us v :
  In v (content a1 a2 n f N cb us) <-> exists u ch, In u us /\ a1 u <> a2 u /\ In ch (channels_of (n u) N cb) /\ v = f u ch.
Proof.
  unfold content. rewrite in_flat_map. split.
  - intros (u & I & J). apply filter_In in I as [I C]. apply in_map_iff in J as (ch & <- & J). apply negb_true_iff, Nat.eqb_neq in C. now exists u, ch.
  - intros (u & ch & I & C & J & ->). exists u. split; [|now apply in_map]. apply filter_In. split; auto. now apply negb_true_iff, Nat.eqb_neq.
Qed.
Lemma combine_seq_In {A} (l : list A) a t x : In (t, x) (combine (seq a (length l)) l) <-> a <= t /\ nth_error l (t - a) = Some x.
Proof.
  revert a. induction l as [|y l IH]; intros a; cbn [length seq combine In].
  - split; [intros []|]. intros [_ H]. destruct (t - a); discriminate.
  - rewrite IH. split.
    + intros [E|[H1 H2]]; [injection E as <- <-; split; [lia|now rewrite Nat.sub_diag]|]. split; [lia|]. replace (t - a) with (S (t - S a)) by lia. exact H2.
    + intros [H1 H2]. destruct (Nat.eq_dec t a) as [->|]; [left; rewrite Nat.sub_diag in H2; cbn in H2; congruence|right].
      replace (t - a) with (S (t - S a)) in H2 by lia. split; [lia|exact H2].
Qed.
Theorem C69_solutions : forall X M W (to_matrix : X -> M) (bufs : list (@buffer X W)) n N requested baselines r cb d,
  regular to_matrix bufs n N requested baselines = Ok r -> cb < N -> d < length requested -> 0 < nth d requested 0 ->
  let b := nth cb (blocks r) [] in
  let first := first_solution (n_solutions r) d in
  let count := Nat.min (nth d requested 0) (length bufs) in
  (forall v, In (Some v) b -> first <= nth d (vis_solutions v) 0 < first + count) /\
  (forall v, nth 0 b None = Some v -> nth d (vis_solutions v) 0 = first) /\
  (b <> [] -> forall k, k < count -> exists v, In (Some v) b /\ nth d (vis_solutions v) 0 = first + k).
Proof.
  intros X M W to_matrix bufs n N requested baselines r cb d Hr Hc Hd Hn.
  assert (Hb : bufs <> []) by (intros ->; unfold regular in Hr; cbn in Hr; discriminate).
  destruct (C69_regular X M W to_matrix bufs n N requested baselines Hb ltac:(lia)) as (r' & sol & E & E1 & E2 & E3 & E4).
  rewrite Hr in E. injection E as <-. cbv zeta. rewrite E4 by auto. set (n_sol := n_solutions r) in *.
  assert (LT : 0 < length bufs) by (destruct bufs; [congruence|cbn; lia]).
  assert (LS : length n_sol = length requested) by (rewrite E1; now rewrite map_length).
  assert (X1 : forall t (buf : @buffer X W) bl ants ch, nth d (vis_solutions (expected to_matrix n_sol sol ((t, buf), (bl, ants)) ch)) 0 = first_solution n_sol d + sol d t).
  { intros. unfold expected. cbn [vis_solutions]. now rewrite nth_map_seq by lia. }
  split; [|split].
  - intros v I. apply in_map_iff in I as (v' & E & I). injection E as <-. unfold expected_block in I. apply flat_map_In_content in I as ([[t buf] [bl ants]] & ch & I & _ & _ & ->).
    rewrite X1. unfold steps in I. apply in_prod_iff in I as [I _]. apply combine_seq_In in I as [_ I]. rewrite Nat.sub_0_r in I.
    assert (t < length bufs) by (apply nth_error_Some; congruence). pose proof (E3 d t Hd Hn H) as [K _]. lia.
  - intros v Hv. unfold expected_block, steps in Hv. destruct bufs as [|buf bufs]; [congruence|]. cbn [length seq combine list_prod] in Hv.
    set (bls := combine (seq 0 (length baselines)) baselines) in *. unfold content in Hv. rewrite filter_app, flat_map_app, map_app in Hv.
    set (l1 := map Some _) in Hv. destruct l1 as [|o l2] eqn:E5.
    + (* no visibility at the first time step: none at all *)
      exfalso. assert (E6 : forall l : list (nat * @buffer X W), flat_map (fun u : step_baseline X W => map (expected to_matrix n_sol sol u) (channels_of n N cb))
          (filter (fun u : step_baseline X W => negb (fst (snd (snd u)) =? snd (snd (snd u)))) (list_prod l bls)) = []).
      { unfold l1 in E5. apply map_eq_nil in E5. clearbody bls. clear - E5. revert E5. generalize (0, buf) as tb. intros tb E5.
        induction l as [|x l IH]; [reflexivity|]. cbn [list_prod]. rewrite filter_app, flat_map_app, IH, app_nil_r. clear - E5.
        induction bls as [|b bls IH]; [reflexivity|]. cbn [map filter fst snd] in E5 |- *. destruct (fst (snd b) =? snd (snd b)); cbn [negb flat_map] in E5 |- *; [exact (IH E5)|].
        apply app_eq_nil in E5 as [E5 E7]. apply map_eq_nil in E5. rewrite (IH E7), E5. reflexivity. }
      rewrite E6 in Hv. discriminate.
    + cbn [app nth] in Hv. subst o. assert (I : In (Some v) (Some v :: l2)) by now left. rewrite <- E5 in I. unfold l1 in I. clear E5.
      apply in_map_iff in I as (v' & E & I). injection E as ->. apply in_flat_map in I as ([[t b'] [bl ants]] & I & J). apply filter_In in I as [I _].
      apply in_map_iff in I as (x & E & _). injection E as <- <- ->. apply in_map_iff in J as (ch & <- & _). rewrite X1.
      pose proof (E3 d 0 Hd Hn ltac:(cbn; lia)) as (K1 & K2 & K3). cbn [length] in K2, LT. assert (sol d 0 = 0) by nia. lia.
  - intros Ne k Hk. destruct (expected_block to_matrix n N cb n_sol sol bufs baselines) as [|v0 l0] eqn:E0; [now elim Ne|].
    assert (I : In v0 (expected_block to_matrix n N cb n_sol sol bufs baselines)) by (rewrite E0; now left). unfold expected_block in I.
    apply flat_map_In_content in I as ([[t0 b0] [bl ants]] & ch & I & C & J & _). unfold steps in I. apply in_prod_iff in I as [_ I].
    destruct (part_exists (Nat.min (nth d requested 0) (length bufs)) (length bufs) k ltac:(lia) ltac:(lia) Hk) as (t & Ht & P).
    destruct (nth_error bufs t) as [buf|] eqn:Eb; [|apply nth_error_None in Eb; lia].
    exists (expected to_matrix n_sol sol ((t, buf), (bl, ants)) ch). split.
    + rewrite <- E0. apply in_map. unfold expected_block. apply flat_map_In_content. exists ((t, buf), (bl, ants)), ch. split; [|split; [exact C|split; [exact J|reflexivity]]].
      unfold steps. apply in_prod; [|exact I]. apply combine_seq_In. split; [lia|]. now rewrite Nat.sub_0_r.
    + rewrite X1. f_equal. pose proof (E3 d t Hd Hn Ht) as P2. destruct P as (P1 & P3 & P4), P2 as (Q1 & Q3 & Q4).
      set (m := Nat.min (nth d requested 0) (length bufs)) in *. nia.
Qed.
Print Assumptions C69_solutions.
(** If the time steps can be divided evenly, every solution has the same number of consecutive time steps. *)
Theorem C69_even : forall n c t k, 0 < n -> 0 < c -> t < n * c -> (part_of n (n * c) t k <-> k = t / c).
Proof.
  intros n c t k Hn Hc Ht. rewrite <- part_div by lia. replace (t * n / (n * c)) with (t / c); [intuition|].
  rewrite (Nat.mul_comm t n), Nat.div_mul_cancel_l by lia. reflexivity.
Qed.
Print Assumptions C69_even.
Example C69_even_case : map (fun t => t * 3 / 6) (seq 0 6) = [0; 0; 1; 1; 2; 2].
Proof. reflexivity. Qed.

(** * C69: BDA data *)
Section Bda.
Context {X M W : Type}.
Variable to_matrix : X -> M.
Definition bda_expected (n_sol : list nat) (sol : @row X -> nat -> nat) (baselines : list (nat * nat)) (r : row) (ch : nat) : @visibility M W :=
  Visibility (to_matrix (row_data r ch)) (nth (row_baseline r) baselines (0, 0)) (map (fun d => to_matrix (row_models r d ch)) (seq 0 (length n_sol)))
    (map (fun d => first_solution n_sol d + sol r d) (seq 0 (length n_sol))) [].
Definition bda_block (N cb : nat) (n_sol : list nat) (sol : @row X -> nat -> nat) (baselines : list (nat * nat)) (rows : list row) : list (@visibility M W) :=
  content (fun r => fst (nth (row_baseline r) baselines (0, 0))) (fun r => snd (nth (row_baseline r) baselines (0, 0))) row_channels (bda_expected n_sol sol baselines) N cb rows.
Definition offset_of (n_sol : list nat) (start duration : Qc) (r : @row X) (d : nat) : nat :=
  match index_offset (nth d n_sol 0) (row_time r - start)%Qc duration with Ok k => k | _ => 0 end.
Lemma offset_total n mid duration : 0 < n -> (0 < duration)%Qc -> (0 <= mid)%Qc -> exists k, index_offset n mid duration = Ok k.
Proof.
  intros Hn Hd Hm. unfold index_offset. set (z := Qfloor _). assert (0 <= z)%Z.
  { unfold z. change 0%Z with (Qfloor 0). apply Qfloor_resp_le. change (0 <= mid * qn n / duration)%Qc. unfold Qcdiv.
    replace 0%Qc with (0 * / duration)%Qc by ring. apply Qcmult_le_compat_r; [|now apply Qclt_le_weak, qc_inv_pos].
    replace 0%Qc with (0 * qn n)%Qc by ring. apply Qcmult_le_compat_r; [exact Hm|apply qn_nonneg]. }
  destruct (Z.ltb_spec z 0); [lia|]. eexists. reflexivity.
Qed.
Lemma row_solutions_spec n_sol start duration (r : @row X) : Forall (fun n => 0 < n) n_sol -> (0 < duration)%Qc -> (start <= row_time r)%Qc ->
  row_solutions n_sol (start_indices 0 n_sol) (row_time r - start)%Qc duration = Ok (map (fun d => first_solution n_sol d + offset_of n_sol start duration r d) (seq 0 (length n_sol))).
Proof.
  intros Hn Hd Ht. unfold first_solution, offset_of.
  assert (Hm : (0 <= row_time r - start)%Qc) by qclra.
  assert (G : forall l c, Forall (fun n => 0 < n) l -> row_solutions l (start_indices c l) (row_time r - start)%Qc duration =
    Ok (map (fun d => c + list_sum (firstn d l) + match index_offset (nth d l 0) (row_time r - start)%Qc duration with Ok k => k | _ => 0 end) (seq 0 (length l)))).
  { induction l as [|n l IH]; intros c H; [reflexivity|]. inversion H; subst. cbn [start_indices row_solutions].
    destruct (offset_total n (row_time r - start)%Qc duration) as [k E]; auto. rewrite E. rewrite IH by auto. cbn [length seq map firstn list_sum fold_right nth]. rewrite E. f_equal. f_equal; [lia|].
    rewrite <- seq_shift, map_map. apply map_ext. intros d. cbn [firstn list_sum fold_right nth]. unfold list_sum. cbn. lia. }
  rewrite (G n_sol 0 Hn). reflexivity.
Qed.
End Bda.

Theorem C69_bda : forall X M W (to_matrix : X -> M) (rows : list (@row X)) start duration N requested baselines,
  0 < N -> (0 < duration)%Qc -> Forall (fun n => 0 < n) requested ->
  Forall (fun r => row_baseline r < length baselines /\ (start <= row_time r)%Qc) rows ->
  exists (r : @solve_data M W) sol, bda to_matrix rows start duration N requested baselines false = Ok r /\
    n_solutions r = map (fun k => Nat.min k (length rows)) requested /\ length (blocks r) = N /\
    (forall d x, d < length requested -> In x rows -> part_at (Nat.min (nth d requested 0) (length rows)) (row_time x - start)%Qc duration (sol x d)) /\
    forall cb, cb < N -> nth cb (blocks r) [] = map Some (bda_block to_matrix N cb (n_solutions r) sol baselines rows).
Proof.
  intros X M W to_matrix rows start duration N requested baselines HN Hd Hq Hr.
  set (n_sol := limit requested (length rows)). set (sol := @offset_of X n_sol start duration).
  assert (Pos : rows <> [] -> Forall (fun n => 0 < n) n_sol).
  { intros Ne. assert (0 < length rows) by (destruct rows; [congruence|cbn; lia]). unfold n_sol, limit. apply Forall_map. eapply Forall_impl; [|exact Hq]. cbn. intros; lia. }
  set (sm := fun r : @row X => Sample (fst (nth (row_baseline r) baselines (0, 0))) (snd (nth (row_baseline r) baselines (0, 0))) (row_channels r)
     (fun ch => Visibility (to_matrix (row_data r ch)) (nth (row_baseline r) baselines (0, 0)) (map (fun d => to_matrix (row_models r d ch)) (seq 0 (length n_sol)))
       (if fst (nth (row_baseline r) baselines (0, 0)) =? snd (nth (row_baseline r) baselines (0, 0)) then [] else map (fun d => first_solution n_sol d + sol r d) (seq 0 (length n_sol))) ([] : list W))).
  assert (S1 : row_samples to_matrix n_sol start duration baselines rows = Ok (map sm rows)).
  { assert (P : rows = [] \/ Forall (fun n => 0 < n) n_sol) by (destruct rows; [now left|right; apply Pos; discriminate]). clearbody n_sol. clear Pos.
    induction rows as [|x rows IH]; [reflexivity|]. destruct P as [|P]; [discriminate|]. inversion Hr as [|? ? [R1 R2] R3]; subst. cbn [row_samples].
    destruct (nth_error baselines (row_baseline x)) as [ants|] eqn:E; [|apply nth_error_None in E; lia]. pose proof (nth_error_nth baselines (row_baseline x) (0, 0) E) as E2.
    rewrite IH by (auto; now right). cbn [map]. unfold sm at 2. rewrite E2. destruct (fst ants =? snd ants) eqn:E3; [reflexivity|].
    rewrite row_solutions_spec by auto. reflexivity. }
  assert (E : forall cb, content ant1 ant2 channels stored N cb (map sm rows) = bda_block to_matrix N cb n_sol sol baselines rows).
  { intros cb. rewrite content_map. unfold bda_block, content. clear - n_sol sol. clearbody n_sol. subst sm. cbn [ant1 ant2 channels stored].
    induction rows as [|x rows IH]; [reflexivity|]. cbn [filter]. destruct (fst (nth (row_baseline x) baselines (0, 0)) =? snd (nth (row_baseline x) baselines (0, 0))) eqn:E3; cbn [negb]; [exact IH|].
    cbn [flat_map]. rewrite IH. f_equal. apply map_ext. intros ch. rewrite E3. reflexivity. }
  exists (SolveData (map (fun cb => map Some (bda_block to_matrix N cb n_sol sol baselines rows)) (seq 0 N)) n_sol), sol.
  split; [|split; [reflexivity|split; [cbn; now rewrite map_length, seq_length|split]]].
  - unfold bda. destruct (Nat.eqb_spec N 0) as [C|_]; [lia|]. cbn [orb]. cbv zeta. fold n_sol. rewrite S1.
    pose proof (fill_all N (map sm rows) HN) as F.
    rewrite (map_ext_in _ (fun cb => (repeat None (bda_count N cb (map sm rows)), 0))) in F
      by (intros cb I; apply in_seq in I; unfold bda_count; rewrite (content_length_sum _ _ _ stored N cb) by lia; reflexivity).
    rewrite F. rewrite map_map. cbn [fst]. f_equal. f_equal. apply map_ext. intros cb. now rewrite E.
  - intros d x Hdd I. assert (Ne : rows <> []) by (intros ->; destruct I). specialize (Pos Ne).
    assert (Nd : nth d n_sol 0 = Nat.min (nth d requested 0) (length rows)) by apply limit_nth.
    rewrite <- Nd. assert (P0 : 0 < nth d n_sol 0) by (apply (proj1 (Forall_forall _ _) Pos), nth_In; unfold n_sol, limit; now rewrite map_length).
    rewrite Forall_forall in Hr. destruct (Hr x I) as [_ R2]. assert (Hm : (0 <= row_time x - start)%Qc) by qclra.
    apply offset_spec; auto. unfold sol, offset_of. destruct (offset_total (nth d n_sol 0) (row_time x - start)%Qc duration) as [k Ek]; auto. now rewrite Ek.
  - intros cb Hc. cbn [blocks n_solutions]. now rewrite nth_map_seq.
Qed.
Print Assumptions C69_bda.
Definition case_row (bl : nat) (t : Z) (n k : nat) : @row nat := Row bl (Q2Qc (inject_Z t)) n (fun ch => 10 * k + ch) (fun d ch => 100 * S d + 10 * k + ch).
Example C69_bda_case : exists r : @solve_data nat nat,
  bda (fun x => x) [case_row 0 1 3 1; case_row 1 4 2 2; case_row 0 7 3 3] (Q2Qc 0) (Q2Qc 8) 2 [1; 2] [(0, 1); (0, 2)] false = Ok r /\
  map (map (fun o => match o with Some v => (vis_data v, vis_antennas v, vis_solutions v) | None => (0, (0, 0), []) end)) (blocks r) =
  [[(10, (0, 1), [0; 1]); (20, (0, 2), [0; 2]); (30, (0, 1), [0; 2])];
   [(11, (0, 1), [0; 1]); (12, (0, 1), [0; 1]); (21, (0, 2), [0; 2]); (31, (0, 1), [0; 2]); (32, (0, 1), [0; 2])]].
Proof. eexists. split; vm_compute; reflexivity. Qed.

(** * What does not hold *)
(** The first visibility of BDA data need not have the lowest solution number, as the header says and the solvers need: a long row comes before a short one that starts at
    the same time. *)
Theorem C69_first_refuted : exists (rows : list (@row nat)) start duration (r : @solve_data nat nat) v0 v1,
  (0 < duration)%Qc /\ Forall (fun x => (start <= row_time x)%Qc /\ (row_time x < start + duration)%Qc) rows /\
  bda (fun x => x) rows start duration 1 [2] [(0, 1); (0, 2)] false = Ok r /\
  nth 0 (nth 0 (blocks r) []) None = Some v0 /\ nth 1 (nth 0 (blocks r) []) None = Some v1 /\ nth 0 (vis_solutions v1) 0 < nth 0 (vis_solutions v0) 0.
Proof.
  exists [case_row 0 4 1 1; case_row 1 1 1 2], (Q2Qc 0), (Q2Qc 8). do 3 eexists. split; [apply qltb_true; vm_compute; reflexivity|]. split.
  { repeat constructor; try (apply qleb_true; vm_compute; reflexivity); apply qltb_true; vm_compute; reflexivity. }
  split; [vm_compute; reflexivity|]. split; [vm_compute; reflexivity|]. split; [vm_compute; reflexivity|]. vm_compute. lia.
Qed.
Print Assumptions C69_first_refuted.

(** If an interval has fewer rows than a direction has solutions, the solutions of the next directions are numbered from a lower number than in the array of the
    solver, which has the numbers that were asked for: a direction uses the solutions of another. *)
Theorem C69_limit_refuted : exists (rows : list (@row nat)) start duration requested (r : @solve_data nat nat) v d,
  (0 < duration)%Qc /\ Forall (fun n => 0 < n) requested /\ Forall (fun x => (start <= row_time x)%Qc /\ (row_time x < start + duration)%Qc) rows /\
  bda (fun x => x) rows start duration 1 requested [(0, 1)] false = Ok r /\ In (Some v) (nth 0 (blocks r) []) /\
  d < length requested /\ nth d (vis_solutions v) 0 < first_solution requested d.
Proof.
  exists [case_row 0 4 1 1], (Q2Qc 0), (Q2Qc 8), [2; 1]. do 2 eexists. exists 1. split; [apply qltb_true; vm_compute; reflexivity|].
  split; [repeat constructor; lia|]. split.
  { repeat constructor; try (apply qleb_true; vm_compute; reflexivity); apply qltb_true; vm_compute; reflexivity. }
  split; [vm_compute; reflexivity|]. split; [left; reflexivity|]. split; [cbn; lia|]. vm_compute. lia.
Qed.
Print Assumptions C69_limit_refuted.

(** The step adds the weights of a channel to another block than the one where the channel is solved, if the blocks do not have the same number of channels. *)
Theorem C69_weight_block_refuted : exists ch n N cb, ch < n /\ N <= n /\ weight_block ch n N = Ok cb /\ block_of n N ch <> cb.
Proof. exists 2, 5, 2, 0. repeat split; try lia; try reflexivity. vm_compute. lia. Qed.
Print Assumptions C69_weight_block_refuted.
(** If they do, it is the same block. *)
Theorem C69_weight_block : forall ch N c, 0 < N -> 0 < c -> ch < c * N -> weight_block ch (c * N) N = Ok (block_of (c * N) N ch).
Proof.
  intros ch N c HN Hc H. unfold weight_block, block_of. destruct (Nat.ltb_spec (c * N) N); [nia|]. f_equal.
  rewrite Nat.div_mul_cancel_r by lia. pose proof (Nat.div_mod ch c ltac:(lia)) as D. pose proof (Nat.mod_upper_bound ch c ltac:(lia)).
  apply (Nat.div_unique _ _ _ (S ch * N - 1 - c * N * (ch / c))); nia.
Qed.
Print Assumptions C69_weight_block.
Example C69_weight_block_case : weight_block 5 6 3 = Ok 2 /\ block_of 6 3 5 = 2.
Proof. split; reflexivity. Qed.

(** With weights, which a solver in linear mode asks for, the constructor for BDA data reads a third size of a matrix. *)
Theorem C69_bda_weights_refuted : exists (rows : list (@row nat)), bda (W := nat) (fun x => x) rows (Q2Qc 0) (Q2Qc 8) 1 [1] [(0, 1)] true = Undefined.
Proof. exists [case_row 0 4 1 1]. reflexivity. Qed.
Print Assumptions C69_bda_weights_refuted.

(** * C69: counts and weights *)
Definition has_antenna {M W} (a : nat) (v : @visibility M W) : bool := (fst (vis_antennas v) =? a) || (snd (vis_antennas v) =? a).
Lemma nth_incr counts i a : i < length counts -> nth a (set_nth counts i (S (nth i counts 0))) 0 = nth a counts 0 + (if i =? a then 1 else 0).
Proof. intros H. destruct (Nat.eqb_spec i a) as [<-|N]; [rewrite set_nth_same by auto; lia|rewrite set_nth_other by auto; lia]. Qed.
(** For every antenna the number of visibilities it participates in *)
Theorem C69_antennas : forall M W (b : list (@visibility M W)) n, Forall (fun v => fst (vis_antennas v) < n /\ snd (vis_antennas v) < n /\ fst (vis_antennas v) <> snd (vis_antennas v)) b ->
  exists counts, count_antennas (repeat 0 n) b = Ok counts /\ length counts = n /\ forall a, a < n -> nth a counts 0 = length (filter (has_antenna a) b).
Proof.
  intros M W b n H.
  assert (G : forall c0, length c0 = n -> exists counts, count_antennas c0 b = Ok counts /\ length counts = n /\ forall a, a < n -> nth a counts 0 = nth a c0 0 + length (filter (has_antenna a) b)).
  { induction b as [|v b IH]; intros c0 L.
    - exists c0. cbn. repeat split; auto.
    - inversion H as [|? ? (H1 & H2 & H3) H4]; subst. cbn [count_antennas]. unfold count_one.
      destruct (Nat.ltb_spec (fst (vis_antennas v)) (length c0)); [|lia]. rewrite set_nth_length. destruct (Nat.ltb_spec (snd (vis_antennas v)) (length c0)); [|lia].
      match goal with |- context [count_antennas ?c b] => destruct (IH H4 c) as (counts & E & E1 & E2) end; [now rewrite !set_nth_length|].
      exists counts. split; [exact E|]. split; [exact E1|]. intros a Ha. rewrite E2 by auto. cbn [filter]. rewrite !nth_incr by (rewrite ?set_nth_length; auto).
      unfold has_antenna at 2. destruct (Nat.eqb_spec (fst (vis_antennas v)) a), (Nat.eqb_spec (snd (vis_antennas v)) a); cbn [orb length]; lia. }
  destruct (G (repeat 0 n)) as (counts & E & E1 & E2); [apply repeat_length|]. exists counts. repeat split; auto. intros a Ha. rewrite E2 by auto. now rewrite nth_repeat.
Qed.
Print Assumptions C69_antennas.
Example C69_antennas_case : count_antennas (repeat 0 3) [Visibility 1 (0, 1) [] [] []; Visibility 2 (0, 2) [] [] ([] : list nat)] = Ok [2; 1; 1].
Proof. reflexivity. Qed.
(** The number of visibilities of a solution *)
Theorem C69_solution_visibilities : forall M W (b : list (@visibility M W)) d s,
  n_solution_visibilities b d s = length (filter (fun v => nth d (vis_solutions v) 0 =? s) b).
Proof.
  intros M W b d s. unfold n_solution_visibilities.
  assert (G : forall k, fold_left (fun n v => if nth d (vis_solutions v) 0 =? s then S n else n) b k = k + length (filter (fun v => nth d (vis_solutions v) 0 =? s) b)).
  { induction b as [|v b IH]; intros k; cbn [fold_left filter]; [cbn; lia|]. rewrite IH. destruct (nth d (vis_solutions v) 0 =? s); cbn [length]; lia. }
  apply G.
Qed.
Print Assumptions C69_solution_visibilities.
Example C69_solution_visibilities_case :
  n_solution_visibilities [Visibility 1 (0, 1) [] [0; 1] []; Visibility 2 (0, 2) [] [0; 2] []; Visibility 2 (0, 2) [] [0; 2] ([] : list nat)] 1 2 = 2.
Proof. reflexivity. Qed.

Section SolutionWeights.
Context {M W : Type}.
Variables (norm : M -> Qc) (m0 : M).
(** The weight that a visibility in block [c] gives to solution [s] of an antenna in block [cb], in one direction *)
Definition contribution (s a cb c d : nat) (v : @visibility M W) : Qc :=
  if (c =? cb) && (nth d (vis_solutions v) 0 =? s) && has_antenna a v then norm (nth d (vis_models v) m0) else 0%Qc.
Definition rect (m : list (list Qc)) (n k : nat) : Prop := length m = n /\ Forall (fun r => length r = k) m.
Lemma add_at_spec m i j w n k : rect m n k -> i < n -> j < k -> exists m', add_at m i j w = Ok m' /\ rect m' n k /\
  forall i' j', nth j' (nth i' m' []) 0%Qc = (nth j' (nth i' m []) 0 + if (i' =? i) && (j' =? j) then w else 0)%Qc.
Proof.
  intros [R1 R2] Hi Hj. unfold add_at. destruct (nth_error m i) as [r|] eqn:E; [|apply nth_error_None in E; lia].
  assert (Lr : length r = k) by (apply (proj1 (Forall_forall _ _) R2), (nth_error_In _ _ E)).
  destruct (Nat.ltb_spec j (length r)); [|lia]. eexists. split; [reflexivity|]. split.
  - split; [now rewrite set_nth_length|]. apply Forall_forall. intros x I. apply (In_nth _ _ []) in I as (p & Hp & <-). rewrite set_nth_length in Hp.
    destruct (Nat.eq_dec p i) as [->|Ne]; [rewrite set_nth_same by auto; now rewrite set_nth_length|]. rewrite set_nth_other by auto.
    apply (proj1 (Forall_forall _ _) R2), nth_In. exact Hp.
  - intros i' j'. pose proof (nth_error_nth m i [] E) as E2. destruct (Nat.eqb_spec i' i) as [->|Ne]; cbn [andb].
    + rewrite set_nth_same by lia. rewrite E2. destruct (Nat.eqb_spec j' j) as [->|Nj]; [now rewrite set_nth_same by auto|rewrite set_nth_other by auto; ring].
    + rewrite set_nth_other by auto. ring.
Qed.
Definition fits (n_antennas n d : nat) (v : @visibility M W) : Prop :=
  nth d (vis_solutions v) 0 < n /\ fst (vis_antennas v) < n_antennas /\ snd (vis_antennas v) < n_antennas /\ fst (vis_antennas v) <> snd (vis_antennas v).
Lemma add_weight_spec N c d m v n n_antennas : c < N -> rect m n (n_antennas * N) -> fits n_antennas n d v ->
  exists m', add_weight norm m0 N c d m v = Ok m' /\ rect m' n (n_antennas * N) /\
  forall s a cb, cb < N -> nth (a * N + cb) (nth s m' []) 0%Qc = (nth (a * N + cb) (nth s m []) 0 + contribution s a cb c d v)%Qc.
Proof.
  intros Hc R (F1 & F2 & F3 & F4). unfold add_weight.
  destruct (add_at_spec m (nth d (vis_solutions v) 0) (fst (vis_antennas v) * N + c) (norm (nth d (vis_models v) m0)) n (n_antennas * N) R F1) as (m1 & E1 & R1 & P1); [nia|].
  rewrite E1.
  destruct (add_at_spec m1 (nth d (vis_solutions v) 0) (snd (vis_antennas v) * N + c) (norm (nth d (vis_models v) m0)) n (n_antennas * N) R1 F1) as (m2 & E2 & R2 & P2); [nia|].
  rewrite E2. exists m2. split; [reflexivity|]. split; [exact R2|]. intros s a cb Hcb. rewrite P2, P1. unfold contribution, has_antenna.
  assert (X : forall x, (a * N + cb =? x * N + c) = (c =? cb) && (x =? a)).
  { intros x. destruct (Nat.eqb_spec (a * N + cb) (x * N + c)) as [E|E], (Nat.eqb_spec c cb) as [->|E3], (Nat.eqb_spec x a) as [->|E4]; cbn; auto; exfalso.
    - assert (a * N = x * N) by lia. assert (a = x) by nia. congruence.
    - lia.
    - assert (D : (a * N + cb) mod N = (x * N + c) mod N) by now rewrite E. rewrite !(Nat.add_comm (_ * N)), !Nat.mod_add, !Nat.mod_small in D by lia. congruence. }
  rewrite !X, (Nat.eqb_sym s). destruct (nth d (vis_solutions v) 0 =? s), (c =? cb); cbn [andb orb]; try ring.
  destruct (Nat.eqb_spec (fst (vis_antennas v)) a), (Nat.eqb_spec (snd (vis_antennas v)) a); cbn [orb]; try ring. congruence.
Qed.
Lemma add_weights_spec N c d n n_antennas b : c < N -> forall m, rect m n (n_antennas * N) -> Forall (fits n_antennas n d) b ->
  exists m', add_weights norm m0 N c d m b = Ok m' /\ rect m' n (n_antennas * N) /\
  forall s a cb, cb < N -> nth (a * N + cb) (nth s m' []) 0%Qc = (nth (a * N + cb) (nth s m []) 0 + qsum (map (contribution s a cb c d) b))%Qc.
Proof.
  intros Hc. induction b as [|v b IH]; intros m R F; cbn [add_weights].
  - exists m. split; [reflexivity|]. split; [exact R|]. intros. cbn. ring.
  - inversion F; subst. destruct (add_weight_spec N c d m v n n_antennas Hc R) as (m1 & E1 & R1 & P1); auto. rewrite E1.
    destruct (IH m1 R1) as (m2 & E2 & R2 & P2); auto. exists m2. split; [exact E2|]. split; [exact R2|]. intros. rewrite P2, P1 by auto. cbn [map qsum fold_right].
    fold (qsum (map (contribution s a cb c d) b)). ring.
Qed.
Lemma add_directions_spec N c n n_antennas b ds : c < N -> forall m, rect m n (n_antennas * N) -> (forall d, In d ds -> Forall (fits n_antennas n d) b) ->
  exists m', add_directions norm m0 N c ds m b = Ok m' /\ rect m' n (n_antennas * N) /\
  forall s a cb, cb < N -> nth (a * N + cb) (nth s m' []) 0%Qc = (nth (a * N + cb) (nth s m []) 0 + qsum (flat_map (fun d => map (contribution s a cb c d) b) ds))%Qc.
Proof.
  intros Hc. induction ds as [|d ds IH]; intros m R F; cbn [add_directions].
  - exists m. split; [reflexivity|]. split; [exact R|]. intros. cbn. ring.
  - destruct (add_weights_spec N c d n n_antennas b Hc m R) as (m1 & E1 & R1 & P1); [apply F; now left|]. rewrite E1.
    destruct (IH m1 R1) as (m2 & E2 & R2 & P2); [intros; apply F; now right|]. exists m2. split; [exact E2|]. split; [exact R2|]. intros. rewrite P2, P1 by auto.
    cbn [flat_map]. rewrite qsum_app. ring.
Qed.
Lemma add_blocks_spec N n n_antennas nd bs : forall c m, c + length bs <= N -> rect m n (n_antennas * N) -> (forall d, d < nd -> Forall (Forall (fits n_antennas n d)) bs) ->
  exists m', add_blocks norm m0 N c nd m bs = Ok m' /\ rect m' n (n_antennas * N) /\
  forall s a cb, cb < N -> nth (a * N + cb) (nth s m' []) 0%Qc = (nth (a * N + cb) (nth s m []) 0 +
    qsum (flat_map (fun cbb => flat_map (fun d => map (contribution s a cb (fst cbb) d) (snd cbb)) (seq 0 nd)) (combine (seq c (length bs)) bs)))%Qc.
Proof.
  induction bs as [|b bs IH]; intros c m Hc R F; cbn [add_blocks].
  - exists m. split; [reflexivity|]. split; [exact R|]. intros. cbn. ring.
  - cbn [length] in Hc. destruct (add_directions_spec N c n n_antennas b (seq 0 nd) ltac:(lia) m R) as (m1 & E1 & R1 & P1).
    { intros d I. apply in_seq in I. specialize (F d ltac:(lia)). now inversion F. }
    rewrite E1. destruct (IH (S c) m1 ltac:(lia) R1) as (m2 & E2 & R2 & P2).
    { intros d Hd. specialize (F d Hd). now inversion F. }
    exists m2. split; [exact E2|]. split; [exact R2|]. intros. rewrite P2, P1 by auto. cbn [length seq combine flat_map fst snd]. rewrite qsum_app. ring.
Qed.
End SolutionWeights.

(** The weight of a solution of an antenna and block: the sum of the norms of the model data, over all directions and visibilities of the block that use that solution and
    have that antenna. *)
Theorem C69_solution_weights : forall M W norm (m0 : M) n_antennas n_sol (bs : list (list (@visibility M W))),
  (forall d, d < length n_sol -> Forall (Forall (fits n_antennas (list_sum n_sol) d)) bs) ->
  exists m, solution_weights norm m0 n_antennas n_sol bs = Ok m /\ length m = list_sum n_sol /\ Forall (fun r => length r = n_antennas * length bs) m /\
  forall s a cb, cb < length bs -> nth (a * length bs + cb) (nth s m []) 0%Qc =
    qsum (flat_map (fun d => map (fun v => norm (nth d (vis_models v) m0)) (filter (fun v => (nth d (vis_solutions v) 0 =? s) && has_antenna a v) (nth cb bs []))) (seq 0 (length n_sol))).
Proof.
  intros M W norm m0 n_antennas n_sol bs F. set (z := repeat (repeat 0%Qc (n_antennas * length bs)) (list_sum n_sol)).
  destruct (add_blocks_spec norm m0 (length bs) (list_sum n_sol) n_antennas (length n_sol) bs 0 z) as (m & E & (R1 & R2) & P); auto.
  { split; [apply repeat_length|]. apply Forall_forall. intros x I. apply repeat_spec in I. subst. apply repeat_length. }
  exists m. split; [exact E|]. split; [exact R1|]. split; [exact R2|]. intros s a cb Hcb. rewrite P by auto.
  assert (Z : nth (a * length bs + cb) (nth s z []) 0%Qc = 0%Qc).
  { unfold z. destruct (Nat.lt_ge_cases s (list_sum n_sol)) as [G|G].
    - rewrite (nth_indep _ [] (repeat 0%Qc (n_antennas * length bs))) by now rewrite repeat_length. rewrite nth_repeat. apply nth_repeat.
    - rewrite (nth_overflow (repeat _ _)) by now rewrite repeat_length. now destruct (a * length bs + cb). }
  rewrite Z, Qcplus_0_l. clear - Hcb.
  assert (G : forall (bs : list (list (@visibility M W))) c, c <= cb < c + length bs ->
    qsum (flat_map (fun cbb => flat_map (fun d => map (contribution norm m0 s a cb (fst cbb) d) (snd cbb)) (seq 0 (length n_sol))) (combine (seq c (length bs)) bs)) =
    qsum (flat_map (fun d => map (contribution norm m0 s a cb cb d) (nth (cb - c) bs [])) (seq 0 (length n_sol)))).
  { clear. assert (Z : forall (bs : list (list (@visibility M W))) c, cb < c ->
      qsum (flat_map (fun cbb => flat_map (fun d => map (contribution norm m0 s a cb (fst cbb) d) (snd cbb)) (seq 0 (length n_sol))) (combine (seq c (length bs)) bs)) = 0%Qc).
    { induction bs as [|b bs IH]; intros c H; [reflexivity|]. cbn [length seq combine flat_map fst snd]. rewrite qsum_app, IH by lia. rewrite qsum_flat_map, qsum_map_0; [ring|].
      intros d _. apply qsum_map_0. intros v _. unfold contribution. destruct (Nat.eqb_spec c cb); [lia|reflexivity]. }
    induction bs as [|b bs IH]; intros c H; [cbn in H; lia|]. cbn [length seq combine flat_map fst snd]. rewrite qsum_app. destruct (Nat.eq_dec c cb) as [->|Ne].
    - rewrite Z by lia. rewrite Nat.sub_diag. cbn [nth]. ring.
    - cbn [length] in H. rewrite IH by lia. replace (cb - c) with (S (cb - S c)) by lia. cbn [nth]. rewrite qsum_flat_map at 1. rewrite qsum_map_0; [ring|].
      intros d _. apply qsum_map_0. intros v _. unfold contribution. destruct (Nat.eqb_spec c cb); [lia|reflexivity]. }
  rewrite G by lia. rewrite Nat.sub_0_r, !qsum_flat_map. f_equal. apply map_ext. intros d. unfold contribution. rewrite Nat.eqb_refl. cbn [andb]. clear.
  induction (nth cb bs []) as [|v l IH]; [reflexivity|]. cbn [map filter]. destruct ((nth d (vis_solutions v) 0 =? s) && has_antenna a v); cbn [map]; rewrite ?qsum_cons, IH; [reflexivity|ring].
Qed.
Print Assumptions C69_solution_weights.
Example C69_solution_weights_case : exists m,
  solution_weights (fun m : nat => qn m) 0 2 [1; 1] [[Visibility 7 (0, 1) [3; 4] [0; 1] ([] : list nat); Visibility 8 (0, 1) [5; 6] [0; 1] []]] = Ok m /\
  map (map this) m = [[8; 8]; [10; 10]]%Q.
Proof. eexists. split; vm_compute; reflexivity. Qed.
