(** C80: the AOFlagger step *)
From Coq Require Import List Bool Arith Lia ZifyBool.
From Verif Require Import AverageModel InfoModel GainModel AoFlagModel AoFlagSpec AoFlagProofs DdecalProofs.
Import ListNotations.
Open Scope nat_scope.

(** Every time slot leaves once and in order, and only flags change.  If all correlations of each visibility have the same flag at the start, a visibility is flagged in all correlations if it was flagged,
    or interference was found in it in a window that contains it; and the counter of a baseline and channel is the number of time slots for which it was flagged by this step. *)
Theorem C80_flags_partial {D T} window overlap n_bl selected (detect : nat -> list (T * list D) -> nat -> nat -> bool) (l : list (slot D T)) : 0 < window ->
  Forall (fun s => length (flags s) = n_bl) l -> Forall uniform l ->
  exists st, run window overlap 4 n_bl selected detect l = Ok st /\ length (sent st) = length l /\
    (forall t s, nth_error l t = Some s -> exists s', nth_error (sent st) t = Some s' /\ time s' = time s /\ data s' = data s /\
      forall bl ch, (at_ s bl ch = None -> at_ s' bl ch = None) /\
        forall b, at_ s bl ch = Some (repeat b 4) -> exists b', at_ s' bl ch = Some (repeat b' 4) /\ (b' = true <-> b = true \/ found window overlap selected detect l t bl ch)) /\
    forall bl ch, count_occ pair_dec (counted st) (bl, ch) = newly l (sent st) bl ch.
Proof.
  intros Hw Fl Fu. destruct (run_ok window overlap n_bl selected detect l Hw) as (st & ws & E & Es & Eh & W). exists st. split; [exact E|]. split; [now rewrite Es, mapi_len|].
  assert (G : forall t s, nth_error l t = Some s -> exists s', nth_error (sent st) t = Some s' /\ time s' = time s /\ data s' = data s /\
      forall bl ch, (at_ s bl ch = None -> at_ s' bl ch = None) /\
        forall b, at_ s bl ch = Some (repeat b 4) -> exists b', at_ s' bl ch = Some (repeat b' 4) /\ (b' = true <-> b = true \/ found window overlap selected detect l t bl ch)).
  { intros t s El. eexists. split; [rewrite Es, mapi_get, El; reflexivity|]. destruct (judge_view n_bl selected detect l ws t s) as [A B]. split; [exact A|]. split; [exact B|].
    intros bl ch. split; [intros N; now apply at_judge_none|]. intros b Eb.
    assert (Hb : bl < n_bl). { rewrite Forall_forall in Fl. rewrite <- (Fl s (nth_error_In _ _ El)). apply nth_error_Some. unfold at_ in Eb. intros N. rewrite N in Eb. discriminate. }
    eexists. split; [apply (at_judge n_bl selected detect l ws t s bl ch b Hb Eb)|]. rewrite orb_true_iff, andb_true_iff, existsb_exists. unfold found. split.
    - intros [H|[H ([a c] & I & P)]]; [now left|]. right. split; [exact H|]. apply andb_true_iff in P. destruct P as [P Q]. unfold covers in P. cbn [fst snd] in P, Q. exists a, c.
      split; [now apply W|]. split; [lia|exact Q].
    - intros [H|(H & a & c & I & P & Q)]; [now left|]. right. split; [exact H|]. exists (a, c). split; [now apply W|]. apply andb_true_iff. split; [unfold covers; cbn [fst snd]; lia|exact Q]. }
  split; [exact G|]. intros bl ch. pose proof (run_count window overlap n_bl selected detect l st bl ch E) as C. rewrite Eh, app_nil_r in C.
  assert (N : newly l (sent st) bl ch + total (sent st) bl ch = total l bl ch); [|lia].
  refine (newly_total selected detect l (sent st) bl ch _ _); [now rewrite Es, mapi_len|]. intros t s s' El Es' O. destruct (G t s El) as (s2 & E2 & _ & _ & H). assert (s2 = s') by congruence. subst s2.
  destruct (H bl ch) as [H1 H2]. unfold open_ in *. destruct (at_ s bl ch) as [f|] eqn:Ef; [|now rewrite H1 in O].
  rewrite Forall_forall in Fu. destruct (Fu s (nth_error_In _ _ El) bl ch f Ef) as [b ->]. destruct (H2 b eq_refl) as (b' & E' & I). rewrite E' in O. destruct b; [|reflexivity].
  destruct I as [_ I]. rewrite (I (or_introl eq_refl)) in O. discriminate.
Qed.
Print Assumptions C80_flags_partial.

(** Every time slot is in a window with at least the overlap before and after it, as far as there is data; for any positive window size *)
Theorem C80_context window overlap total t : 0 < window -> t < total ->
  exists a b, is_window window overlap total a b /\ a <= t < b /\ a <= t - overlap /\ (t + overlap < b \/ b = total).
Proof.
  intros Hw Ht. set (k := (t - overlap) / window). assert (K1 : k * window <= t - overlap) by (unfold k; rewrite Nat.mul_comm; apply Nat.mul_div_le; lia).
  assert (K2 : t - overlap < k * window + window) by (pose proof (Nat.mul_succ_div_gt (t - overlap) window ltac:(lia)) as H; fold k in H; lia).
  destruct (Nat.le_gt_cases (k * window + window + 2 * overlap) total) as [L|L].
  - exists (k * window), (k * window + window + 2 * overlap). split; [exists k; split; [reflexivity|left; lia]|]. lia.
  - (* the last window: the first one that is not full *)
    assert (X : exists j, j <= k /\ (j = 0 \/ j * window + 2 * overlap <= total) /\ total < j * window + window + 2 * overlap).
    { clear - L Hw. revert L. induction k as [|k IH]; intros L; [exists 0; lia|]. destruct (Nat.le_gt_cases (S k * window + 2 * overlap) total) as [G|G]; [exists (S k); lia|].
      destruct IH as (j & A & B & C); [cbn [Nat.mul] in G; lia|]. exists j. lia. }
    destruct X as (j & A & B & C). assert (j * window <= k * window) by nia. exists (j * window), total. split; [exists j; split; [reflexivity|right; lia]|]. lia.
Qed.
Print Assumptions C80_context.

(** One or two correlations are refused *)
Theorem C80_correlations {D T} window overlap n_corr n_bl selected (detect : nat -> list (T * list D) -> nat -> nat -> bool) s l : n_corr <> 4 -> run window overlap n_corr n_bl selected detect (s :: l) = Throw.
Proof.
  intros N. unfold run. assert (F : forall n st, flag n_corr n_bl selected detect n st = Throw) by (intros; unfold flag; now rewrite (proj2 (Nat.eqb_neq n_corr 4) N)).
  assert (G : forall l (st : state D T), held st <> [] \/ l <> [] -> (let! st := process_all window overlap n_corr n_bl selected detect st l in finish n_corr n_bl selected detect st) = Throw).
  { clear s l. induction l as [|s l IH]; intros st H.
    - cbn [process_all bind]. unfold finish. destruct (held st); [destruct H; congruence|apply F].
    - cbn [process_all]. unfold process. cbn [held]. rewrite F. destruct (_ =? _); [reflexivity|]. cbn [bind]. apply IH. left. cbn [held]. now destruct (held st). }
  apply G. right. discriminate.
Qed.
Print Assumptions C80_correlations.

(** Six time slots of one baseline with one channel, windows of two with one before and after: interference is what is larger than nine, in a window that begins with a one; it is found in time slot 3 in the first window only *)
Definition ex_slot (v : nat) : slot nat nat := Slot v [[v]] [[[false; false; false; false]]].
Definition ex_detect (_ : nat) (im : list (nat * list nat)) (i j : nat) : bool :=
  match im with (_, [1]) :: _ => match nth_error im i with Some (_, [v]) => 9 <? v | _ => false end | _ => false end.
Example C80_example : match run 2 1 4 1 (fun _ => true) ex_detect (map ex_slot [1; 2; 3; 10; 11; 6]) with
  | Ok st => map (fun s => at_ s 0 0) (sent st) = map (fun b => Some (repeat b 4)) [false; false; false; true; false; false] /\ counted st = [(0, 0)] | _ => False end.
Proof. vm_compute. split; reflexivity. Qed.
Example C80_hypotheses_example : Forall (fun s => length (flags s) = 1) (map ex_slot [1; 2; 3; 10; 11; 6]) /\ Forall uniform (map ex_slot [1; 2; 3; 10; 11; 6]).
Proof.
  split; [repeat constructor|]. apply Forall_map, Forall_forall. intros v _ bl ch f E. unfold at_ in E. cbn [ex_slot flags] in E. destruct bl as [|[|bl]]; try discriminate. destruct ch as [|[|ch]]; try discriminate.
  injection E as <-. now exists false.
Qed.

(** If only the first correlation of a visibility was flagged, interference that is found in it does not flag the other correlations: only the first flag is looked at.
    (The documentation says that all correlations are flagged if one is.) *)
Theorem C80_correlation_refuted : exists (l : list (slot nat nat)) s, nth_error l 1 = Some s /\ at_ s 0 0 = Some [true; false; false; false] /\ found 2 1 (fun _ => true) ex_detect l 1 0 0 /\
  match run 2 1 4 1 (fun _ => true) ex_detect l with Ok st => nth_error (sent st) 1 = Some s | _ => False end.
Proof.
  exists [ex_slot 1; Slot 12 [[12]] [[[true; false; false; false]]]]. eexists. split; [reflexivity|]. split; [reflexivity|]. split; [|vm_compute; reflexivity].
  split; [reflexivity|]. exists 0, 2. split; [exists 0; cbn; lia|]. split; [lia|reflexivity].
Qed.
Print Assumptions C80_correlation_refuted.

(** With an overlap the statistics of quality have the time slots of the overlaps twice (or more often), and the second time the flags that this step has set as original flags *)
Theorem C80_statistics_refuted : exists (l : list (slot nat nat)), Forall uniform l /\ Forall (fun s => open_ s 0 0 = true) l /\
  match run 2 1 4 1 (fun _ => true) ex_detect l with
  | Ok st => map (fun x => map fst (snd (fst x))) (stats st) = [[1; 2; 3; 10]; [3; 10; 11; 6]; [11; 6]] /\ map (fun x => snd x) (stats st) = [[[false]; [false]; [false]; [false]]; [[false]; [true]; [false]; [false]]; [[false]; [false]]]
  | _ => False end.
Proof.
  exists (map ex_slot [1; 2; 3; 10; 11; 6]). split; [apply C80_hypotheses_example|]. split; [repeat constructor|]. vm_compute. split; reflexivity.
Qed.
Print Assumptions C80_statistics_refuted.

(** The window size is adapted to the number of time slots: it does not grow, the number of windows (without overlap) stays the same, and the last window is smaller than the others by less than this number *)
Theorem C80_fit n_time window : 0 < window -> 0 < n_time -> let n := fit_window n_time window in
  0 < n <= window /\ exists count, (count - 1) * window < n_time <= count * window /\ (count - 1) * n < n_time <= count * n /\ n < (n_time - (count - 1) * n) + count.
Proof.
  intros Hw Ht n. unfold n, fit_window. set (q := (n_time - 1) / window). cbn zeta. set (r := (n_time - 1) / (1 + q)).
  assert (Q1 : window * q <= n_time - 1) by (apply Nat.mul_div_le; lia). assert (Q2 : n_time - 1 < window * S q) by (apply Nat.mul_succ_div_gt; lia).
  assert (R1 : (1 + q) * r <= n_time - 1) by (apply Nat.mul_div_le; lia). assert (R2 : n_time - 1 < (1 + q) * S r) by (apply Nat.mul_succ_div_gt; lia).
  assert (L : r < window) by (clear - Q2 R1; nia). split; [lia|]. exists (1 + q). replace (1 + q - 1) with q by lia. assert (X : q * (1 + r) < n_time) by (clear - Q1 L Ht; nia).
  split; [clear - Q1 Q2 Ht Hw; nia|]. split; [clear - X R2; nia|]. clear - R1 X Ht. nia.
Qed.
Print Assumptions C80_fit.
Example C80_fit_example : fit_window 100 40 = 34.
Proof. reflexivity. Qed.

(** A comment in the code says that there cannot be a very small last window.  There can: 101 time slots and a window of 11, with or without an overlap of one time slot, give a last window of two time slots *)
Theorem C80_last_window_refuted : exists n_time window overlap a b, 0 < overlap /\ let n := fit_window n_time window in n = 11 /\ is_window n overlap n_time a b /\ b - a = 2 /\ is_window n 0 n_time a b.
Proof.
  exists 101, 11, 1, 99, 101. split; [lia|]. cbv zeta. replace (fit_window 101 11) with 11 by reflexivity. split; [reflexivity|].
  split; [exists 9; lia|]. split; [lia|]. exists 9. lia.
Qed.
Print Assumptions C80_last_window_refuted.
