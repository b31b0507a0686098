(** Properties of the bookkeeping of DDECal. *)
From Coq Require Import List Bool Arith Lia.
From Verif Require Import AverageModel GainModel DdecalModel DdecalSpec DdecalProofs.
Import ListNotations.
Open Scope nat_scope.

Section C74.
Context {D F W M S : Type}.
Variables (cfg : settings) (uvw : buffer D F W M -> F) (predict : nat -> buffer D F W M -> M) (low : list (buffer D F W M) -> F -> F) (all_flagged : F -> F)
  (fresh : list (buffer D F W M) -> S) (solver : list (buffer D F W M) -> list (D * F * W * list M) -> S -> S * nat) (correct : S -> D * list M -> D * list M)
  (sum : list M -> D).
Notation run := (run cfg uvw predict low all_flagged fresh solver correct sum).
Variable l : list (buffer D F W M).
Hypotheses (Hs : 0 < solint cfg) (HN : 0 < n_intervals cfg) (Hl : Forall (fun b => length (models b) = length (has_step cfg)) l).

(** Data is accepted exactly if the model data that should come with it is there, there is room for the solutions of all intervals, and solutions do not have to be
    applied when directions have several solutions.  Otherwise there is an exception; nothing is undefined. *)
Theorem C74_accepted :
  ((exists st, run l = Ok st) <->
   (forall b, In b l -> models_there (has_step cfg) b) /\ parts (solint cfg) (length l) <= n_sol cfg /\
   (l <> [] -> only_predict cfg = false -> subtract cfg = true \/ keep_model cfg = true -> one_per_direction cfg = true)) /\
  (run l = Throw \/ exists st, run l = Ok st).
Proof.
  pose proof (run_spec cfg uvw predict low all_flagged fresh solver correct sum Hs HN l Hl) as R.
  assert (A : accepts cfg l = true <-> (forall b, In b l -> models_there (has_step cfg) b) /\ parts (solint cfg) (length l) <= n_sol cfg /\
   (l <> [] -> only_predict cfg = false -> subtract cfg = true \/ keep_model cfg = true -> one_per_direction cfg = true)).
  { unfold accepts. rewrite andb_true_iff, forallb_forall.
    assert (B1 : (forall b, In b l -> has_models cfg b = true) <-> (forall b, In b l -> models_there (has_step cfg) b)).
    { rewrite Forall_forall in Hl. split; intros H b I; apply (has_models_there cfg uvw predict low all_flagged Hs HN b (Hl b I)), H, I. }
    rewrite B1. destruct l as [|x r] eqn:El.
    - cbn [length]. rewrite Nat.eqb_refl, orb_true_r. rewrite parts_zero by assumption. split; [|easy]. intros [H _]. split; [exact H|]. split; [lia|easy].
    - cbn [length]. replace (Datatypes.S (length r) =? 0) with false by reflexivity. rewrite orb_false_r. unfold accept, needs_one. rewrite andb_true_iff, Nat.leb_le.
      assert (B2 : negb ((subtract cfg || keep_model cfg) && negb (only_predict cfg)) || one_per_direction cfg = true <->
        (x :: r <> [] -> only_predict cfg = false -> subtract cfg = true \/ keep_model cfg = true -> one_per_direction cfg = true)).
      { destruct (subtract cfg), (keep_model cfg), (only_predict cfg), (one_per_direction cfg); cbn; intuition discriminate. }
      rewrite B2. reflexivity. }
  rewrite <- A. destruct (accepts cfg l).
  - destruct R as (st & E & _). split; [|right; eauto]. split; [reflexivity|]. intros _. eauto.
  - split; [|now left]. split; [|discriminate]. intros [st E]. congruence.
Qed.

(** Every buffer is passed on once, in order, with its flags and all else, and with its own data; only if it was asked for, the data is that of the models of that
    buffer, or corrected with the solution of its own interval *)
Theorem C74_passed st : run l = Ok st -> (save_flags cfg = false -> use_min_vis cfg = false /\ forall b, uvw b = flags b) ->
  length (sent st) = length l /\
  forall i b, nth_error l i = Some b -> exists b' ms, nth_error (sent st) i = Some b' /\ own_models (has_step cfg) uvw predict b ms /\
    flags b' = flags b /\ rest b' = rest b /\
    if only_predict cfg then
      if keep_model cfg then data b' = data b /\ models b' = map Some ms else data b' = sum ms /\ models b' = map (fun _ => None) ms
    else exists v n, sols st (i / solint cfg) = Some (v, n) /\
      if subtract cfg || keep_model cfg then
        data b' = fst (correct v (data b, ms)) /\
        models b' = (if keep_model cfg then map Some (snd (correct v (data b, ms))) else map (fun _ => None) (snd (correct v (data b, ms))))
      else data b' = data b /\ models b' = map (fun _ => None) ms.
Proof.
  intros E Hf. pose proof (run_spec cfg uvw predict low all_flagged fresh solver correct sum Hs HN l Hl) as R.
  destruct (accepts cfg l) eqn:Ac; [|congruence]. destruct R as (st' & E' & P). assert (st' = st) by congruence. subst st'.
  pose proof (post_sols cfg uvw predict low all_flagged fresh solver correct sum l st P) as Hsol.
  destruct P as (P1 & P2 & _ & P4). split; [exact P1|]. intros i b Eb. specialize (P2 i b Eb).
  assert (Cb : complete cfg b).
  { apply andb_true_iff in Ac as [Ac _]. rewrite forallb_forall in Ac. rewrite Forall_forall in Hl. apply nth_error_In in Eb. split; [now apply Hl|].
    apply (has_models_there cfg uvw predict low all_flagged Hs HN); [now apply Hl|now apply Ac]. }
  destruct (final_some cfg uvw predict low all_flagged Hs HN b Cb) as [_ Own]. set (ms := strip (final cfg uvw predict b)) in *.
  eexists. exists ms. split; [exact P2|]. split; [exact Own|]. unfold setf. cbn [flags rest data models].
  assert (Fl : save_flags cfg = false -> cond_low cfg low (all_of cfg uvw l (i / solint cfg)) (uvw b) = flags b /\ uvw b = flags b).
  { intros Sv. destruct (Hf Sv) as [U1 U2]. unfold cond_low. rewrite U1. auto. }
  unfold after, x_of. fold ms. destruct (only_predict cfg) eqn:Op.
  - split; [|split].
    + destruct (save_flags cfg); [reflexivity|]. destruct (Fl eq_refl). now destruct (keep_model cfg).
    + now destruct (keep_model cfg).
    + destruct (keep_model cfg); split; reflexivity.
  - assert (Hk : i / solint cfg < parts (solint cfg) (length l)) by (apply div_lt_parts; [assumption|]; apply nth_error_Some; congruence).
    specialize (Hsol eq_refl _ Hk). destruct (sols st (i / solint cfg)) as [[v n]|]; [|easy].
    destruct (subtract cfg || keep_model cfg) eqn:Sk.
    + destruct (correct v (data b, ms)) as [d' m'] eqn:Ec. cbn [flags rest data models fst snd]. split; [|split; [reflexivity|]].
      * destruct (save_flags cfg); [reflexivity|]. now destruct (Fl eq_refl).
      * exists v, n. split; [reflexivity|]. rewrite Ec. split; reflexivity.
    + cbn [flags rest data models]. split; [|split; [reflexivity|]].
      * destruct (save_flags cfg); [reflexivity|]. now destruct (Fl eq_refl).
      * exists v, n. repeat split.
Qed.

(** Every interval is solved once, in order, from its own slots, with their own flags and model data; a last interval that is not complete is filled with copies of its
    first slot in which all is flagged.  The solver starts with the solutions of the previous interval if that was asked for.  What depends on the buffers of more than one
    interval, if these are handled together, is [all]. *)
Theorem C74_solved st : run l = Ok st -> only_predict cfg = false ->
  length (calls st) = parts (solint cfg) (length l) /\
  forall k, k < parts (solint cfg) (length l) -> exists seen s0 v n,
    let all := map (flagged uvw) (part (n_intervals cfg * solint cfg) (k / n_intervals cfg) l) in
    let f b := if use_min_vis cfg then low all (uvw b) else uvw b in
    nth_error (calls st) k = Some (seen, s0) /\ sols st k = Some (v, n) /\ solver all seen s0 = (v, n) /\
    length seen = solint cfg /\
    (forall t, t < solint cfg -> exists b ms, own_models (has_step cfg) uvw predict b ms /\
       if k * solint cfg + t <? length l
       then nth_error l (k * solint cfg + t) = Some b /\ nth_error seen t = Some (data b, f b, rest b, ms)
       else nth_error l (k * solint cfg) = Some b /\ nth_error seen t = Some (data b, all_flagged (f b), rest b, ms)) /\
    match k with
    | 0 => s0 = fresh all
    | Datatypes.S k' => if propagate cfg then exists v' n', sols st k' = Some (v', n') /\ s0 = (if (max_iterations cfg <? n') && converged_only cfg then fresh all else v')
                        else s0 = fresh all
    end.
Proof.
  intros E Op. pose proof (run_spec cfg uvw predict low all_flagged fresh solver correct sum Hs HN l Hl) as R.
  destruct (accepts cfg l) eqn:Ac; [|congruence]. destruct R as (st' & E' & P). assert (st' = st) by congruence. subst st'.
  assert (Cb : forall b, In b l -> complete cfg b).
  { apply andb_true_iff in Ac as [Ac _]. rewrite forallb_forall in Ac. rewrite Forall_forall in Hl. intros b Eb. split; [now apply Hl|].
    apply (has_models_there cfg uvw predict low all_flagged Hs HN); [now apply Hl|now apply Ac]. }
  destruct P as (_ & _ & _ & P4). destruct (P4 Op) as [L C]. split; [exact L|]. intros k Hk. destruct (C k Hk) as (call & Ec & s0 & -> & Es & St). clear C P4.
  fold (all_of cfg uvw l k). set (all := all_of cfg uvw l k) in *.
  assert (Pos : k * solint cfg < length l) by (apply parts_le; assumption).
  set (xs := map (x_of cfg uvw predict) (part (solint cfg) k l)) in *.
  assert (Lx : length xs = min (solint cfg) (length l - k * solint cfg)) by (unfold xs; rewrite map_length; apply part_length).
  destruct (solver all (seen_of cfg low all_flagged all xs) s0) as [v n] eqn:Ev.
  exists (seen_of cfg low all_flagged all xs), s0, v, n. cbv zeta. split; [exact Ec|]. split; [exact Es|]. split; [exact Ev|].
  destruct (nth_error l (k * solint cfg)) as [b0|] eqn:Eb0; [|apply nth_error_None in Eb0; lia].
  assert (X : exists ys, xs = x_of cfg uvw predict b0 :: ys).
  { assert (N0 : nth_error xs 0 = Some (x_of cfg uvw predict b0)).
    { unfold xs. rewrite nth_error_map, part_nth. apply Nat.ltb_lt in Hs as Hs'. rewrite Hs', Nat.add_0_r, Eb0. reflexivity. }
    destruct xs as [|x ys]; [discriminate|]. injection N0 as ->. eauto. }
  destruct X as [ys X].
  assert (Sn : seen_of cfg low all_flagged all xs = map (mask cfg low all) xs ++ repeat (padding all_flagged (mask cfg low all (x_of cfg uvw predict b0))) (solint cfg - length xs)).
  { unfold seen_of. rewrite X. reflexivity. }
  split; [rewrite Sn, app_length, map_length, repeat_length; lia|]. split; [|exact St].
  intros t Ht. destruct (Nat.ltb_spec (k * solint cfg + t) (length l)) as [H|H].
  - destruct (nth_error l (k * solint cfg + t)) as [b|] eqn:Eb; [|apply nth_error_None in Eb; lia].
    exists b, (strip (final cfg uvw predict b)). split; [apply (final_some cfg uvw predict low all_flagged Hs HN), Cb, (nth_error_In _ _ Eb)|]. split; [reflexivity|].
    rewrite Sn, nth_error_app1 by (rewrite map_length; lia). unfold xs. rewrite !nth_error_map, part_nth. apply Nat.ltb_lt in Ht. rewrite Ht, Eb. reflexivity.
  - exists b0, (strip (final cfg uvw predict b0)). split; [apply (final_some cfg uvw predict low all_flagged Hs HN), Cb, (nth_error_In _ _ Eb0)|]. split; [reflexivity|].
    rewrite Sn, nth_error_app2 by (rewrite map_length; lia). rewrite map_length.
    assert (Rp : forall T (y : T) m j, j < m -> nth_error (repeat y m) j = Some y).
    { intros T y m. induction m as [|m IH]; intros j Hj; [lia|]. destruct j; [reflexivity|]. apply IH. lia. }
    rewrite Rp by lia. reflexivity.
Qed.
End C74.
Print Assumptions C74_accepted.
Print Assumptions C74_passed.
Print Assumptions C74_solved.

(** An example: five slots in intervals of two, two intervals at a time; the first direction is predicted, the second comes with the data.  The data is a number, the model
    data also; the solution is the sum of all data without flag. *)
Definition ex_cfg (sub prop : bool) (n : nat) : settings := Settings 2 2 n false sub false prop true true false 10 [true; false] true.
Definition ex_buffer (i : nat) : buffer nat bool nat nat := Buffer (10 * i) (i =? 1) i [None; Some (i + 1)].
Definition ex_solver (all : list (buffer nat bool nat nat)) (seen : list (nat * bool * nat * list nat)) (s0 : nat) : nat * nat :=
  (fold_left (fun a x => let '(d, f, w, m) := x in if f : bool then a else a + d) seen s0, 5).
Definition ex_run sub prop n := run (ex_cfg sub prop n) (fun b => flags b || (rest b =? 4)) (fun d b => rest b + d) (fun _ f => f) (fun _ => true) (fun _ => 1) ex_solver
  (fun v p => (fst p + v + fold_left Nat.add (snd p) 0, snd p)) (fun m => fold_left Nat.add m 0) (map ex_buffer (seq 0 5)).
Example C74_example : match ex_run true true 3 with
  | Ok st => map data (sent st) = [2; 14; 76; 88; 100] /\ map flags (sent st) = [false; true; false; false; false] /\
             map (fun c => map (fun x => snd (fst (fst x))) (fst c)) (calls st) = [[false; true]; [false; false]; [true; true]] /\
             map snd (calls st) = [1; 1; 51] /\ map (sols st) [0; 1; 2] = [Some (1, 5); Some (51, 5); Some (51, 5)]
  | _ => False end.
Proof. vm_compute. repeat split. Qed.
Example C74_refused_example : ex_run true true 2 = Throw.
Proof. vm_compute. reflexivity. Qed.
