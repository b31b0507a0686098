(** Properties of subtracting the model with the solutions. *)
From Coq Require Import List Bool Arith QArith Qcanon Lia ZifyBool ZifyNat.
From Verif Require Import QcUtil Cplx AverageModel GainModel SumsModel SumsSpec SumsProps SubtractModel SubtractSpec.
Import ListNotations.
Open Scope nat_scope.

Lemma get_nth (l : list cplx) i : i < length l -> get l i = Ok (nth i l c0).
Proof. intros H. unfold get. now rewrite (nth_error_nth' l c0 H). Qed.
Lemma mat_eq a b : m0 a = m0 b -> m1 a = m1 b -> m2 a = m2 b -> m3 a = m3 b -> a = b.
Proof. destruct a, b; cbn; congruence. Qed.
Lemma apply_spec n_pol n_dir sols n_ant a1 a2 d m : n_pol = 1 \/ n_pol = 2 \/ n_pol = 4 -> length sols = n_ant * n_dir * n_pol -> a1 < n_ant -> a2 < n_ant -> d < n_dir ->
  apply_solution n_pol sols (a1 * n_dir + d) (a2 * n_dir + d) m = Ok (seen n_pol n_dir sols a1 a2 d m).
Proof.
  intros Hp L H1 H2 Hd.
  assert (I : forall a p, a < n_ant -> p < n_pol -> (a * n_dir + d) * n_pol + p < length sols).
  { intros a p Ha Hq. rewrite L. assert (a * n_dir + d < n_ant * n_dir) by nia. nia. }
  unfold apply_solution, seen, jones. destruct Hp as [Hp|[Hp|Hp]]; subst n_pol; cbn [Nat.eqb].
  - pose proof (I a1 0 H1 ltac:(lia)) as I1. pose proof (I a2 0 H2 ltac:(lia)) as I2. rewrite Nat.mul_1_r, Nat.add_0_r in I1, I2.
    rewrite !get_nth by assumption. cbn [bind]. rewrite !Nat.mul_1_r, !Nat.add_0_r. f_equal. unfold mscale, mmul, mherm, mdiag. apply mat_eq; cbn [m0 m1 m2 m3]; rewrite conj_0; ring.
  - unfold diag_at. pose proof (I a1 0 H1 ltac:(lia)) as I1. pose proof (I a2 0 H2 ltac:(lia)) as I2. rewrite Nat.add_0_r in I1, I2.
    pose proof (I a1 1 H1 ltac:(lia)). pose proof (I a2 1 H2 ltac:(lia)). rewrite !get_nth by assumption. cbn [bind]. now rewrite !Nat.add_0_r.
  - unfold full_at. pose proof (I a1 0 H1 ltac:(lia)) as I1. pose proof (I a2 0 H2 ltac:(lia)) as I2. rewrite Nat.add_0_r in I1, I2.
    pose proof (I a1 1 H1 ltac:(lia)). pose proof (I a2 1 H2 ltac:(lia)). pose proof (I a1 2 H1 ltac:(lia)). pose proof (I a2 2 H2 ltac:(lia)).
    pose proof (I a1 3 H1 ltac:(lia)). pose proof (I a2 3 H2 ltac:(lia)). rewrite !get_nth by assumption. cbn [bind]. now rewrite !Nat.add_0_r.
Qed.
Lemma madd_assoc a b c : madd (madd a b) c = madd a (madd b c).
Proof. unfold madd. apply mat_eq; cbn [m0 m1 m2 m3]; ring. Qed.
Lemma madd_0_r a : madd a mzero = a.
Proof. unfold madd, mzero. apply mat_eq; cbn [m0 m1 m2 m3]; ring. Qed.
Lemma madd_0_l a : madd mzero a = a.
Proof. unfold madd, mzero. apply mat_eq; cbn [m0 m1 m2 m3]; ring. Qed.
Lemma directions_spec n_pol n_dir keep sols n_ant a1 a2 ms : n_pol = 1 \/ n_pol = 2 \/ n_pol = 4 -> length sols = n_ant * n_dir * n_pol -> a1 < n_ant -> a2 < n_ant ->
  forall d sum, d + length ms <= n_dir ->
  directions n_pol n_dir keep sols a1 a2 d ms sum =
    Ok (madd sum (fold_right madd mzero (map (fun p => seen n_pol n_dir sols a1 a2 (fst p) (snd p)) (combine (seq d (length ms)) ms))),
        map (fun p => if keep then seen n_pol n_dir sols a1 a2 (fst p) (snd p) else snd p) (combine (seq d (length ms)) ms)).
Proof.
  intros Hp L H1 H2. induction ms as [|m ms IH]; intros d sum Hd; cbn [length] in Hd.
  - cbn. now rewrite madd_0_r.
  - cbn [directions]. rewrite (apply_spec n_pol n_dir sols n_ant) by (assumption || lia). cbn [bind]. rewrite IH by lia. cbn [bind length seq combine map fold_right fst snd].
    rewrite madd_assoc. reflexivity.
Qed.
Lemma apply_subtract_spec n_pol subtract keep sols n_ant a1 a2 data ms : n_pol = 1 \/ n_pol = 2 \/ n_pol = 4 -> length sols = n_ant * length ms * n_pol ->
  a1 < n_ant -> a2 < n_ant ->
  apply_subtract n_pol subtract keep sols a1 a2 (data, ms) =
    Ok (if subtract then msub data (sum_seen n_pol sols a1 a2 ms) else data,
        map (fun p => if keep then seen n_pol (length ms) sols a1 a2 (fst p) (snd p) else snd p) (combine (seq 0 (length ms)) ms)).
Proof.
  intros Hp L H1 H2. unfold apply_subtract. cbn [fst snd]. rewrite (directions_spec n_pol (length ms) keep sols n_ant) by (assumption || lia). cbn [bind].
  rewrite madd_0_l. reflexivity.
Qed.

Section Slot.
Variables (n_pol n_chan nb n_ant n_dir : nat) (subtract keep : bool) (sols : list (list cplx)).
Hypotheses (Hp : n_pol = 1 \/ n_pol = 2 \/ n_pol = 4) (Hb : 0 < nb) (Hc : nb <= n_chan) (Ls : length sols = nb)
  (Lv : Forall (fun s => length s = n_ant * n_dir * n_pol) sols).
Notation start k := (k * n_chan / nb).
Lemma channels_spec a1 a2 : a1 < n_ant -> a2 < n_ant -> forall l cb ch, Forall (fun x => length (snd x) = n_dir) l ->
  ch + length l <= n_chan -> cb < nb -> start cb <= ch -> ch <= start (cb + 1) ->
  exists l', channels n_pol subtract keep (block_starts n_chan nb) sols a1 a2 cb ch l = Ok l' /\ length l' = length l /\
    forall i data ms k s, nth_error l i = Some (data, ms) -> in_block n_chan nb (ch + i) k = true -> nth_error sols k = Some s ->
      nth_error l' i = Some (if subtract then msub data (sum_seen n_pol s a1 a2 ms) else data,
        map (fun p => if keep then seen n_pol n_dir s a1 a2 (fst p) (snd p) else snd p) (combine (seq 0 n_dir) ms)).
Proof.
  intros H1 H2. induction l as [|[data ms] l IH]; intros cb ch F Hl Hcb S1 S2.
  - exists []. repeat split. intros i. now destruct i.
  - apply Forall_cons_iff in F as [L F]. cbn [snd] in L. cbn [length] in Hl. cbn [channels]. rewrite starts_get by (assumption || lia). cbn [bind].
    set (cb' := if ch =? start (cb + 1) then cb + 1 else cb).
    assert (B : in_block n_chan nb ch cb' = true /\ cb' < nb).
    { unfold cb', in_block. destruct (Nat.eqb_spec ch (start (cb + 1))) as [E|E].
      - assert (cb + 1 < nb). { destruct (Nat.eq_dec (cb + 1) nb) as [G|G]; [|lia]. rewrite G, start_last in E by assumption. lia. }
        split; [|assumption]. pose proof (start_S n_chan nb Hb Hc (cb + 1)). lia.
      - split; [lia|assumption]. }
    destruct B as [B B']. clearbody cb'. pose proof B as I. unfold in_block in I. apply andb_true_iff in I as [I1 I2]. apply Nat.leb_le in I1. apply Nat.ltb_lt in I2.
    destruct (nth_error sols cb') as [s0|] eqn:Es; [|apply nth_error_None in Es; lia]. unfold get at 1. rewrite Es. cbn [bind].
    rewrite Forall_forall in Lv. pose proof (Lv s0 (nth_error_In _ _ Es)) as Ls0. rewrite <- L in Ls0.
    rewrite (apply_subtract_spec n_pol subtract keep s0 n_ant) by assumption. cbn [bind].
    destruct (IH cb' (S ch) F) as (l' & E & Ll & G); [lia|assumption|lia|lia|]. rewrite E. cbn [bind]. eexists. split; [reflexivity|]. split; [cbn [length]; lia|].
    intros [|i] data' ms' k s E1 E2 E3.
    + injection E1 as <- <-. rewrite Nat.add_0_r in E2. assert (k = cb') by now apply (in_block_unique n_chan nb Hb Hc ch). subst k.
      assert (s = s0) by congruence. subst s. cbn [nth_error]. rewrite L. reflexivity.
    + cbn [nth_error] in *. apply (G i data' ms' k); try assumption. replace (S ch + i) with (ch + S i) by lia. exact E2.
Qed.
End Slot.

(** For every channel of every baseline, what is subtracted is the sum over all directions of the model data of that channel as the instrument sees it with the solutions of
    the channel block and the two antennas; the model data that is kept is that of every direction.  If the data has no antennas without baselines, so that the numbers of
    the antennas are those of the solutions. *)
Theorem C76_subtract_partial n_pol n_chan nb n_ant n_dir subtract keep sols (l : list (nat * nat * list (mat * list mat))) :
  n_pol = 1 \/ n_pol = 2 \/ n_pol = 4 -> 0 < nb -> nb <= n_chan -> length sols = nb -> Forall (fun s => length s = n_ant * n_dir * n_pol) sols ->
  Forall (fun b => fst (fst b) < n_ant /\ snd (fst b) < n_ant /\ length (snd b) = n_chan /\ Forall (fun x => length (snd x) = n_dir) (snd b)) l ->
  exists l', correct_slot n_pol subtract keep (block_starts n_chan nb) sols l = Ok l' /\ length l' = length l /\
    forall b a1 a2 chans ch data ms cb s, nth_error l b = Some (a1, a2, chans) -> nth_error chans ch = Some (data, ms) ->
      in_block n_chan nb ch cb = true -> nth_error sols cb = Some s ->
      exists chans' data' ms', nth_error l' b = Some chans' /\ nth_error chans' ch = Some (data', ms') /\ length ms' = n_dir /\
        data' = (if subtract then msub data (sum_seen n_pol s a1 a2 ms) else data) /\
        forall d m, nth_error ms d = Some m -> nth_error ms' d = Some (if keep then seen n_pol n_dir s a1 a2 d m else m).
Proof.
  intros Hp Hb Hc Ls Lv. induction l as [|[[a1 a2] chans] l IH]; intros F.
  - exists []. repeat split. intros b. now destruct b.
  - apply Forall_cons_iff in F as [(A1 & A2 & A3 & A4) F]. cbn [fst snd] in *. cbn [correct_slot].
    destruct (channels_spec n_pol n_chan nb n_ant n_dir subtract keep sols Hp Hb Hc Ls Lv a1 a2 A1 A2 chans 0 0 A4) as (q & E & Lq & G); [lia|lia|cbn; rewrite Nat.div_0_l; lia|lia|].
    rewrite E. cbn [bind]. destruct (IH F) as (l' & E2 & L2 & G2). rewrite E2. cbn [bind]. exists (q :: l'). split; [reflexivity|]. split; [cbn; lia|].
    intros [|b] x1 x2 chans0 ch data ms cb s Eb Ec Ek Es.
    + injection Eb as <- <- <-. pose proof (G ch data ms cb s Ec Ek Es) as Gc. exists q. eexists. eexists. split; [reflexivity|]. split; [exact Gc|].
      assert (Lm : length ms = n_dir) by (rewrite Forall_forall in A4; apply (A4 (data, ms)), (nth_error_In _ _ Ec)). split; [rewrite map_length, combine_length, seq_length; lia|].
      split; [reflexivity|]. intros d m Em. assert (Hd : d < n_dir) by (rewrite <- Lm; apply nth_error_Some; congruence).
      rewrite (map_nth_error _ d _ (d := (d, m))); [now destruct keep|].
      assert (Cn : forall (ms : list mat) n a d m, length ms = n -> nth_error ms d = Some m -> nth_error (combine (seq a n) ms) d = Some (a + d, m)).
      { clear. induction ms as [|x ms IH]; intros n a d m L E; [now destruct d|]. destruct n as [|n]; [discriminate|]. cbn [seq combine]. destruct d as [|d].
        - injection E as ->. cbn. now rewrite Nat.add_0_r.
        - cbn [nth_error] in *. rewrite (IH n (S a) d m) by (auto; now injection L). do 2 f_equal. lia. }
      apply (Cn ms n_dir 0 d m Lm Em).
    + cbn [nth_error] in *. exact (G2 b x1 x2 chans0 ch data ms cb s Eb Ec Ek Es).
Qed.
Print Assumptions C76_subtract_partial.
Definition ex_sols : list (list cplx) := [[C 1 1; C (qn 2) 0; C 0 1; c1]]%Qc.
Example C76_example : match correct_slot 1 true false (block_starts 1 1) ex_sols [(0, 1, [(mdiag (C (qn 9) 0%Qc) c0, [mdiag c1 c1; mdiag (C 0 1)%Qc c1])])] with
  | Ok [[(x, _)]] => this (re (m0 x)) = 8%Q /\ this (im (m0 x)) = (-1)%Q
  | _ => False end.
Proof. vm_compute. split; reflexivity. Qed.

(** Antennas that are in the data but have no baselines have no solutions, and the antennas are renumbered for the solver (steps/DDECal.cc:272-279); but not when the model is
    subtracted.  Here three antennas of which the second is not used: the solver uses solutions 0 and 1 for the baseline of antennas 0 and 2; subtracting reads after the end
    of the solutions. *)
Theorem C76_numbers_refuted : exists (antenna_map : list nat) ant1 ant2 n_used sols chans, nth ant1 antenna_map 9 < n_used /\ nth ant2 antenna_map 9 < n_used /\
  length sols = 1 /\ Forall (fun s => length s = n_used * 1 * 1) sols /\
  correct_slot 1 true false (block_starts 1 1) sols [(ant1, ant2, chans)] = Undefined.
Proof. exists [0; 9; 1], 0, 2, 2, [[c1; c1]], [(mzero, [mzero])]. cbn. repeat split; try lia. repeat constructor. Qed.
Print Assumptions C76_numbers_refuted.
(** If the numbers are inside, the solution of another antenna is used: antenna 1 in the data is the first antenna that has a solution, and the baseline of antennas 1 and 2
    gets those of the second and third *)
Theorem C76_other_refuted : exists (antenna_map : list nat) ant1 ant2 n_used (s : list cplx) m r, nth ant1 antenna_map 9 < n_used /\ nth ant2 antenna_map 9 < n_used /\
  length s = n_used * 1 * 1 /\ correct_slot 1 true false (block_starts 1 1) [s] [(ant1, ant2, [(mzero, [m])])] = Ok [[(r, [m])]] /\
  r <> msub mzero (sum_seen 1 s (nth ant1 antenna_map 9) (nth ant2 antenna_map 9) [m]).
Proof.
  exists [9; 0; 1; 2], 1, 2, 3, [c1; C (qn 2) 0%Qc; C (qn 3) 0%Qc], (mdiag c1 c1). eexists. cbn [nth length]. repeat split; try lia.
  vm_compute. discriminate.
Qed.
Print Assumptions C76_other_refuted.
