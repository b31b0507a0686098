(** C84: MultiMsReader *)
From Coq Require Import Ascii String.
From Coq Require Import List Bool Arith Lia ZifyBool ZifyNat QArith Qcanon Permutation Sorted.
From Verif Require Import QcUtil AverageModel GainModel DdecalProofs TimesSpec MultiModel MultiSpec MultiProofs.
From Verif Require TimesModel TimesProps.
Import ListNotations.
Open Scope nat_scope.

Section Multi.
Variables V F W : Type.
Variables (no_data : V) (flagged : F) (no_weight : W).
Variable near : Qc -> Qc -> bool.
Notation slot := (slot V F W).
Notation reader := (reader V F W).
Notation data := (data V F W).
Notation flags := (flags V F W).
Notation weights := (weights V F W).
Notation read_all := (read_all V F W no_data flagged no_weight near).
Notation process := (process V F W no_data flagged no_weight near).

(** The slots of all readers at time slot [k] *)
Definition at_slot (outs : nat -> list (Qc * option slot)) (k i : nat) : option slot := match nth_error (outs i) k with Some (_, s) => s | None => None end.
(** The buffer of time slot [k] of the combination *)
Definition combined (fields : bool * bool * bool) n nb first l (outs : nat -> list (Qc * option slot)) k (b : slot) : Prop :=
  (exists s0, nth_error (outs first) k = Some (slot_time _ _ _ b, Some s0) /\ exposure _ _ _ b = exposure _ _ _ s0 /\ rows _ _ _ b = rows _ _ _ s0) /\
  (fst (fst fields) = true -> shape nb (list_sum (channels n l)) (data b) /\ taken data no_data n nb l (at_slot outs k) (data b)) /\
  (snd (fst fields) = true -> shape nb (list_sum (channels n l)) (flags b) /\ taken flags flagged n nb l (at_slot outs k) (flags b)) /\
  (snd fields = true -> shape nb (list_sum (channels n l)) (weights b) /\ taken weights no_weight n nb l (at_slot outs k) (weights b)).
Definition shapes nb (l : list (option reader)) (outs : nat -> list (Qc * option slot)) : Prop := forall i r t s, nth_error l i = Some (Some r) -> In (t, Some s) (outs i) -> shaped nb (n_chan _ _ _ r) s.

Lemma taken_ext {A} (get : slot -> list (list A)) empty n nb l l2 s s' m : channels n l = channels n l2 -> (forall i, match nth_error l i with Some (Some _) => exists r, nth_error l2 i = Some (Some r) | _ => ~ exists r, nth_error l2 i = Some (Some r) end) ->
  (forall i r, nth_error l i = Some (Some r) -> s i = s' i) -> taken get empty n nb l s m -> taken get empty n nb l2 s' m.
Proof.
  intros Hc Hl Hs H b c i j L O. rewrite <- Hc in O. specialize (H b c i j L O). specialize (Hl i). specialize (Hs i).
  destruct (nth_error l i) as [[r|]|]; [destruct Hl as [r2 ->]; now rewrite <- (Hs r eq_refl)| |]; destruct (nth_error l2 i) as [[r2|]|]; try exact H; exfalso; apply Hl; eauto.
Qed.
Lemma process_ok fields n nb first l outs buf : (forall i r, nth_error l i = Some (Some r) -> delivers near r (outs i)) -> shapes nb l outs -> shaped nb (list_sum (channels n l)) buf ->
  match process (fst (fst fields)) (snd (fst fields)) (snd fields) n first l buf with
  | Ok None => outs first = []
  | Ok (Some (l', b)) => combined fields n nb first l outs 0 b /\ (forall i r, nth_error l i = Some (Some r) -> exists t s, nth_error (outs i) 0 = Some (t, Some s)) /\
      channels n l' = channels n l /\ (forall i, match nth_error l i with Some (Some r) => exists r', nth_error l' i = Some (Some r') /\ r_info _ _ _ r' = r_info _ _ _ r /\ delivers near r' (tl (outs i)) | o => nth_error l' i = o end)
  | _ => True
  end.
Proof.
  intros Hd Hsh [Hb1 [Hb2 Hb3]]. unfold MultiModel.process. destruct (nth_error l first) as [[r|]|] eqn:Ef; [|exact I|exact I]. pose proof (delivers_step V F W near r _ (Hd first r Ef)) as D. destruct (read _ _ _ near r) as [x0|] eqn:Er; [|exact D].
  destruct (read_each _ _ _ near first 0 x0 l) as [[rs ss]| |] eqn:E; cbn [GainModel.bind]; [|exact I|exact I].
  apply (read_each_ok V F W near first x0 l 0 outs) in E; [|exact Hd|intros q _ Hq; rewrite Nat.sub_0_r in Hq; congruence].
  destruct (nth_error ss first) as [[s|]|] eqn:Es; [|exact I|exact I]. destruct x0 as [r1 x0]. destruct D as [_ (outs' & D1 & _)].
  assert (P : forall A (get : slot -> list (list A)) empty buf, (forall nb n s, shaped nb n s -> shape nb n (get s)) -> shape nb (list_sum (channels n l)) buf ->
    let m := fill empty 0 (map (fun p => (match fst p with Some r => n_chan _ _ _ r | None => n end, option_map get (snd p))) (combine l ss)) buf in
    shape nb (list_sum (channels n l)) m /\ taken get empty n nb l (at_slot outs 0) m).
  { intros A get empty buf' Hget Hbuf m. destruct (parts_ok V F W near get empty n nb l rs ss outs (fun i => tl (outs i)) buf' E) as [P1 P2].
    - intros i q t s' rest Hq Ho. apply Hget. apply (Hsh i q t s' Hq). rewrite Ho. now left.
    - exact Hbuf.
    - split; [exact P1|]. eapply taken_ext; [reflexivity| | |exact P2]. { intros i. destruct (nth_error l i) as [[q|]|]; [eauto|intros [q' X]; discriminate|intros [q' X]; discriminate]. }
      intros i q Hq. destruct E as (_ & _ & E). specialize (E i). rewrite Hq in E. destruct E as (r' & t & s' & B1 & B2 & B3 & B4 & B5). rewrite B3. unfold at_slot. cbn in B4. now rewrite B4. }
  destruct E as (E1 & E2 & E3).
  assert (E3f := E3 first). rewrite Ef in E3f. destruct E3f as (r' & t & s' & B1 & B2 & B3 & B4 & B5). cbn in B4. rewrite B3 in Es. injection Es as ->. rewrite D1 in B4. injection B4 as ->.
  split; [|split; [|split]].
  - split; [|split; [|split]].
    + exists s. cbn. rewrite D1. auto.
    + cbn [MultiModel.data]. intros ->. apply P; [now intros ? ? ? []|exact Hb1].
    + cbn [MultiModel.flags]. intros ->. apply P; [now intros ? ? ? [_ []]|exact Hb2].
    + cbn [MultiModel.weights]. intros ->. apply P; [now intros ? ? ? [_ []]|exact Hb3].
  - intros i q Hq. specialize (E3 i). rewrite Hq in E3. destruct E3 as (r2 & t2 & s2 & C1 & C2 & C3 & C4 & C5). cbn in C4. exists t2, s2. now rewrite C4.
  - apply nth_error_same. intros i. unfold channels. rewrite !nth_error_map. specialize (E3 i). destruct (nth_error l i) as [[q|]|] eqn:El.
    + destruct E3 as (r2 & t2 & s2 & C1 & C2 & C3 & C4 & C5). rewrite C1. cbn [option_map]. unfold n_chan. now rewrite C2.
    + destruct E3 as [-> _]. reflexivity.
    + apply nth_error_None in El. replace (nth_error rs i) with (@None (option reader)); [reflexivity|]. symmetry. apply nth_error_None. lia.
  - intros i. specialize (E3 i). destruct (nth_error l i) as [[q|]|] eqn:El.
    + destruct E3 as (r2 & t2 & s2 & C1 & C2 & C3 & C4 & C5). eauto.
    + apply E3.
    + apply nth_error_None. apply nth_error_None in El. lia.
Qed.
Lemma process_accepts fields n first l outs buf r0 : (forall i r, nth_error l i = Some (Some r) -> delivers near r (outs i) /\ exists t s rest, outs i = (t, Some s) :: rest) -> nth_error l first = Some (Some r0) ->
  exists x, process (fst (fst fields)) (snd (fst fields)) (snd fields) n first l buf = Ok (Some x).
Proof.
  intros Hd Ef. unfold MultiModel.process. rewrite Ef. destruct (Hd first r0 Ef) as [D0 (t & s & rest & D1)]. pose proof (delivers_step V F W near r0 _ D0) as D. destruct (read _ _ _ near r0) as [x0|] eqn:Er; [|congruence].
  destruct (read_each_accepts V F W near first x0 l 0 outs) as (rs & ss & E); [exact Hd|intros q _ Hq; rewrite Nat.sub_0_r in Hq; congruence|]. rewrite E. cbn [GainModel.bind].
  apply (read_each_ok V F W near first x0 l 0 outs) in E; [|intros; now apply Hd|intros q _ Hq; rewrite Nat.sub_0_r in Hq; congruence]. destruct E as (_ & _ & E). specialize (E first). rewrite Ef in E. destruct E as (r' & t' & s' & B1 & B2 & B3 & B4 & B5). rewrite B3. eauto.
Qed.
Lemma process_end fields n first l outs buf r0 : nth_error l first = Some (Some r0) -> delivers near r0 (outs first) -> outs first = [] -> process (fst (fst fields)) (snd (fst fields)) (snd fields) n first l buf = Ok None.
Proof. intros Ef D E. unfold MultiModel.process. rewrite Ef. apply delivers_step in D. destruct (read _ _ _ near r0) as [[r x0]|]; [|reflexivity]. destruct D as [_ (o & D & _)]. congruence. Qed.

(** All time slots: the [k]th buffer has the [k]th time slots of all measurement sets, each in its own channels, and no values for the ones that do not exist.  [outs i]: what a run over measurement set [i] alone would deliver.
    If there is a result, every measurement set has a time slot of its own for every time slot of the first. *)
Theorem C84_combined fields n nb first bufs : forall l outs res,
  (forall i r, nth_error l i = Some (Some r) -> delivers near r (outs i)) -> shapes nb l outs -> Forall (shaped nb (list_sum (channels n l))) bufs ->
  read_all fields n first bufs l = Ok res ->
  length res = length (outs first) /\
  forall k, k < length res -> (forall i r, nth_error l i = Some (Some r) -> exists t s, nth_error (outs i) k = Some (t, Some s)) /\ exists b, nth_error res k = Some b /\ combined fields n nb first l outs k b.
Proof.
  induction bufs as [|buf bufs IH]; intros l outs res Hd Hsh Hb E; cbn [MultiModel.read_all] in E; [discriminate|]. apply Forall_cons_iff in Hb. destruct Hb as [Hb Hbs].
  pose proof (process_ok fields n nb first l outs buf Hd Hsh Hb) as P. destruct (process _ _ _ n first l buf) as [[[l' b]|]| |]; try discriminate.
  - destruct P as (P1 & P2 & P3 & P4). destruct (read_all fields n first bufs l') as [r| |] eqn:Er; try discriminate. injection E as <-.
    destruct (IH l' (fun i => tl (outs i)) r) as [I1 I2].
    + intros i q Hq. specialize (P4 i). destruct (nth_error l i) as [[q0|]|]; try congruence. destruct P4 as (r' & C1 & C2 & C3). congruence.
    + intros i q t s Hq Hi. specialize (P4 i). destruct (nth_error l i) as [[q0|]|] eqn:El; try congruence. destruct P4 as (r' & C1 & C2 & C3). rewrite Hq in C1. injection C1 as ->.
      replace (n_chan _ _ _ r') with (n_chan _ _ _ q0) by (unfold n_chan; now rewrite C2). apply (Hsh i q0 t s El). destruct (outs i); [destruct Hi|now right].
    + now rewrite P3.
    + exact Er.
    + assert (L0 : outs first <> []) by (destruct P1 as [(s0 & X & _) _]; destruct (outs first); [discriminate|congruence]).
      split; [cbn; rewrite I1; destruct (outs first); [congruence|reflexivity]|]. intros [|k] Hk.
      * split; [exact P2|]. exists b. now split.
      * cbn in Hk. destruct (I2 k ltac:(lia)) as [J1 (b' & J2 & J3)].
        assert (T : forall (o : list (Qc * option slot)), nth_error (tl o) k = nth_error o (S k)) by (intros [|]; [now destruct k|reflexivity]).
        split.
        -- intros i q Hq. specialize (P4 i). rewrite Hq in P4. destruct P4 as (r' & C1 & _). destruct (J1 i r' C1) as (t & s & J). exists t, s. now rewrite <- T.
        -- exists b'. split; [exact J2|]. destruct J3 as ((s0 & K1 & K2) & K3 & K4 & K5). rewrite P3 in K3, K4, K5.
           assert (Tk : forall A (get : slot -> list (list A)) empty m, taken get empty n nb l' (at_slot (fun i => tl (outs i)) k) m -> taken get empty n nb l (at_slot outs (S k)) m).
           { intros A get empty m. apply taken_ext; [exact P3| |].
             - intros i. specialize (P4 i). destruct (nth_error l i) as [[q|]|]; [destruct P4 as (r' & -> & _); eauto|rewrite P4; intros [? ?]; discriminate|rewrite P4; intros [? ?]; discriminate].
             - intros i q Hq. unfold at_slot. now rewrite T. }
           split; [|split; [|split]].
           ++ exists s0. rewrite T in K1. now split.
           ++ intros H. destruct (K3 H). split; [assumption|]. now apply Tk.
           ++ intros H. destruct (K4 H). split; [assumption|]. now apply Tk.
           ++ intros H. destruct (K5 H). split; [assumption|]. now apply Tk.
  - injection E as <-. rewrite P. split; [reflexivity|]. cbn. lia.
Qed.

(** And there is a result if every measurement set has a time slot of its own for every time slot of the first *)
Theorem C84_accepts fields n first bufs : forall l outs r0, nth_error l first = Some (Some r0) ->
  (forall i r, nth_error l i = Some (Some r) -> delivers near r (outs i)) ->
  (forall i r k, nth_error l i = Some (Some r) -> k < length (outs first) -> exists t s, nth_error (outs i) k = Some (t, Some s)) ->
  length (outs first) < length bufs -> exists res, read_all fields n first bufs l = Ok res.
Proof.
  induction bufs as [|buf bufs IH]; intros l outs r0 Ef Hd Hk L; [cbn in L; lia|]. cbn [MultiModel.read_all]. destruct (outs first) as [|x o] eqn:Eo.
  - rewrite (process_end fields n first l outs buf r0 Ef); [eauto|rewrite Eo; rewrite <- Eo; now apply (Hd first)|exact Eo].
  - cbn in L. destruct (process_accepts fields n first l outs buf r0) as [[l' b] E]; [|exact Ef|].
    + intros i r Hr. split; [now apply Hd|]. destruct (Hk i r 0 Hr ltac:(cbn; lia)) as (t & s & X). destruct (outs i) as [|y rest]; [discriminate|]. injection X as ->. eauto.
    + rewrite E. unfold MultiModel.process in E. rewrite Ef in E. pose proof (delivers_step V F W near r0 _ (Hd first r0 Ef)) as D. destruct (read _ _ _ near r0) as [x0|] eqn:Er; [|discriminate].
      destruct (read_each _ _ _ near first 0 x0 l) as [[rs ss]| |] eqn:E'; cbn [GainModel.bind] in E; try discriminate. apply (read_each_ok V F W near first x0 l 0 outs) in E'; [|exact Hd|intros q _ Hq; rewrite Nat.sub_0_r in Hq; congruence].
      assert (rs = l') as -> by (destruct (nth_error ss first) as [[s|]|]; [now injection E|discriminate|discriminate]). destruct E' as (A1 & A2 & A3).
      assert (B : forall i r', nth_error l' i = Some (Some r') -> (exists r, nth_error l i = Some (Some r)) /\ delivers near r' (tl (outs i))).
      { intros i r' Hr. specialize (A3 i). destruct (nth_error l i) as [[q|]|] eqn:El.
        - destruct A3 as (r2 & t & s & C1 & C2 & C3 & C4 & C5). rewrite Hr in C1. injection C1 as ->. cbn in C5. split; [eauto|exact C5].
        - destruct A3; congruence.
        - apply nth_error_None in El. assert (i < length l') by (apply nth_error_Some; congruence). lia. }
      assert (Fst : exists r', nth_error l' first = Some (Some r')) by (specialize (A3 first); rewrite Ef in A3; destruct A3 as (r2 & t & s & C1 & _); eauto). destruct Fst as [r' Fst].
      destruct (IH l' (fun i => tl (outs i)) r' Fst) as [res R].
      * intros i q Hq. now apply (B i q).
      * intros i q k Hq Hl. destruct (proj1 (B i q Hq)) as [q0 Hq0]. rewrite Eo in Hl. cbn in Hl. destruct (Hk i q0 (S k) Hq0 ltac:(cbn; lia)) as (t & s & X). exists t, s. destruct (outs i); [discriminate|exact X].
      * rewrite Eo. cbn. lia.
      * rewrite R. cbn. eauto.
Qed.
End Multi.
Print Assumptions C84_combined.
Print Assumptions C84_accepts.

(** Measurement sets that have all time slots of the same grid: the [k]th buffer has the time of slot [k] and the data that all measurement sets have for it *)
Theorem C84_same_time V F W (no_data : V) (flagged : F) (no_weight : W) near fields n nb first bufs l r0 c N index prev ls :
  nth_error l first = Some (Some r0) ->
  (0 < TimesModel.interval c)%Qc -> (0 <= TimesModel.tolerance c)%Qc -> (TimesModel.tolerance c + TimesModel.tolerance c < TimesModel.interval c)%Qc -> (0 < TimesModel.first c)%Qc ->
  TimesModel.last c = (TimesModel.first c + qnat N * TimesModel.interval c)%Qc -> near (TimesModel.first c + qnat (N + 1) * TimesModel.interval c)%Qc (TimesModel.last c) = false ->
  (forall i r, nth_error l i = Some (Some r) -> times (r_info V F W r) = c /\ state V F W r = TimesModel.MkState 0 (TimesModel.first c) (prev i) 0 (ls i) /\
     on_grid (slot_time V F W) (index i) (TimesModel.first c) (TimesModel.interval c) (TimesModel.tolerance c) (ls i) /\ Forall (fun s => prev i <= slot_time V F W s)%Qc (ls i) /\
     (forall k, k <= N -> grid_slot (index i) (ls i) k <> None) /\ Forall (shaped nb (n_chan V F W r)) (ls i)) ->
  N + 1 < length bufs -> Forall (shaped nb (list_sum (channels n l))) bufs ->
  exists res, read_all V F W no_data flagged no_weight near fields n first bufs l = Ok res /\ length res = N + 1 /\
    forall k b, nth_error res k = Some b -> slot_time V F W b = (TimesModel.first c + qnat k * TimesModel.interval c)%Qc /\
      let slots i := grid_slot (index i) (ls i) k in
      (fst (fst fields) = true -> taken (data V F W) no_data n nb l slots (data V F W b)) /\
      (snd (fst fields) = true -> taken (flags V F W) flagged n nb l slots (flags V F W b)) /\
      (snd fields = true -> taken (weights V F W) no_weight n nb l slots (weights V F W b)).
Proof.
  intros Ef Hi Ht Hw Hf Hl Hn H Hbufs Hb. set (outs := fun i => map (fun k => (TimesModel.first c + qnat k * TimesModel.interval c, grid_slot (index i) (ls i) k)%Qc) (seq 0 (N + 1))).
  assert (D : forall i r, nth_error l i = Some (Some r) -> delivers near r (outs i)).
  { intros i r Hr. destruct (H i r Hr) as (H1 & H2 & H3 & H4 & H5 & H6). exists (N + 2). rewrite H1, H2. apply (TimesProps.C39_regular _ (slot_time V F W) near c (index i) N (prev i) (ls i)); auto. lia. }
  assert (Nth : forall i k, k <= N -> nth_error (outs i) k = Some (TimesModel.first c + qnat k * TimesModel.interval c, grid_slot (index i) (ls i) k)%Qc).
  { intros i k Hk. unfold outs. rewrite nth_error_map, seq_nth_error. now replace (k <? N + 1) with true by lia. }
  assert (Len : forall i, length (outs i) = N + 1) by (intros; unfold outs; now rewrite map_length, seq_length).
  assert (Sh : shapes V F W nb l outs).
  { intros i r t s Hr I. destruct (H i r Hr) as (_ & _ & _ & _ & _ & H6). unfold outs in I. apply in_map_iff in I. destruct I as (k & E & _). injection E as _ E. apply find_some in E. destruct E as [E _]. rewrite Forall_forall in H6. now apply H6. }
  destruct (C84_accepts V F W no_data flagged no_weight near fields n first bufs l outs r0 Ef D) as [res R].
  - intros i r k Hr Hk. rewrite Len in Hk. rewrite Nth by lia. destruct (H i r Hr) as (_ & _ & _ & _ & H5 & _). specialize (H5 k ltac:(lia)). destruct (grid_slot (index i) (ls i) k); [eauto|congruence].
  - now rewrite Len.
  - exists res. split; [exact R|]. destruct (C84_combined V F W no_data flagged no_weight near fields n nb first bufs l outs res D Sh Hb R) as [R1 R2]. rewrite Len in R1. split; [exact R1|]. intros k b Eb.
    assert (Lk : k < length res) by (apply nth_error_Some; congruence). destruct (R2 k Lk) as [_ (b' & Eb' & C)]. rewrite Eb in Eb'. injection Eb' as <-. destruct C as ((s0 & C0 & _) & C1 & C2 & C3). rewrite Nth in C0 by lia. split; [congruence|]. intros slots.
    assert (Tk : forall A (get : slot V F W -> list (list A)) empty m, taken get empty n nb l (at_slot V F W outs k) m -> taken get empty n nb l slots m).
    { intros A get empty m. apply taken_ext; [reflexivity| |].
      - intros i. destruct (nth_error l i) as [[q|]|]; [eauto|intros [? X]; discriminate|intros [? X]; discriminate].
      - intros i r Hr. unfold at_slot. now rewrite Nth by lia. }
    split; [|split]; intros X; apply Tk; [now apply C1|now apply C2|now apply C3].
Qed.
Print Assumptions C84_same_time.

(** * Channels *)

Lemma concat_origin {A} (parts : list (list A)) : forall c, nth_error (concat parts) c = match origin (map (@length A) parts) c with Some (i, j) => match nth_error parts i with Some p => nth_error p j | None => None end | None => None end.
Proof.
  induction parts as [|p parts IH]; intros c; cbn [concat map origin]; [now destruct c|]. destruct (Nat.ltb_spec c (length p)); [now rewrite nth_error_app1|]. rewrite nth_error_app2, IH by lia. now destruct (origin _ _) as [[i j]|].
Qed.
Section Channels.
Variables V F W : Type.
Variables near near5 : Qc -> Qc -> bool.
Notation reader := (reader V F W).
Notation freqs := MultiModel.freqs.
Notation widths := MultiModel.widths.
Notation r_info := (r_info V F W).
Notation n_chan := (n_chan V F W).

(** The parts that the measurement sets have in a list *)
Definition parts_of (n : nat) (l : list (option reader)) (get : info -> list Qc) (out : list Qc) : Prop :=
  exists ps, out = concat ps /\ map (@length Qc) ps = channels n l /\ forall i r, nth_error l i = Some (Some r) -> nth_error ps i = Some (get (r_info r)).
Lemma parts_of_get n l get out c i j r : parts_of n l get out -> origin (channels n l) c = Some (i, j) -> nth_error l i = Some (Some r) -> nth_error out c = nth_error (get (r_info r)) j.
Proof. intros (ps & -> & L & H) O E. rewrite concat_origin, L, O. now rewrite (H i r E). Qed.
Lemma parts_of_len n l get out : parts_of n l get out -> length out = list_sum (channels n l).
Proof. intros (ps & -> & <- & _). clear. induction ps as [|p ps IH]; cbn; [reflexivity|]. rewrite app_length, IH. reflexivity. Qed.
Lemma parts_cons n l get r out p o : parts_of n l get out -> length p = match o with Some r => n_chan r | None => n end -> (o = Some r -> p = get (r_info r)) -> (forall r', o = Some r' -> r' = r) -> parts_of n (o :: l) get (p ++ out).
Proof.
  intros (ps & -> & L & H) Lp Hp Ho. exists (p :: ps). split; [reflexivity|]. split; [cbn; now rewrite L, Lp|]. intros [|i] r' E; cbn [nth_error] in *; [|now apply H]. injection E as ->. rewrite (Ho r' eq_refl) in *. now rewrite Hp.
Qed.
Definition proper (l : list (option reader)) : Prop := forall i r, nth_error l i = Some (Some r) -> length (widths (r_info r)) = n_chan r.
Lemma proper_tl o l : proper (o :: l) -> proper l.
Proof. intros H i r E. apply (H (S i) r E). Qed.
Lemma fill_loop_ok n w l : proper l -> forall freq fs ws, fill_loop V F W near5 n w freq l = Ok (fs, ws) -> parts_of n l freqs fs /\ parts_of n l widths ws.
Proof.
  induction l as [|[r|] l IH]; intros P freq fs ws E; cbn [fill_loop] in E.
  - injection E as <- <-. split; exists []; (split; [reflexivity|]; split; [reflexivity|]; intros [|]; discriminate).
  - destruct (Nat.eqb_spec (n_chan r) n) as [En|En]; cbn [negb] in E; [|discriminate]. destruct (qltb _ _ && _); [discriminate|].
    destruct (fill_loop V F W near5 n w _ l) as [[fs' ws']| |] eqn:E'; try discriminate. cbn [GainModel.bind] in E. injection E as <- <-. apply IH in E'; [|now apply proper_tl in P]. destruct E' as [I1 I2].
    assert (Lw : length (widths (r_info r)) = n) by (rewrite (P 0 r eq_refl); exact En).
    split; (apply (parts_cons n l _ r); [assumption| | |intros r' X; now injection X]).
    + reflexivity.
    + reflexivity.
    + rewrite firstn_length_le; lia.
    + intros _. apply firstn_all2. lia.
  - destruct (fill_loop V F W near5 n w _ l) as [[fs' ws']| |] eqn:E'; try discriminate. cbn [GainModel.bind] in E. injection E as <- <-. apply IH in E'; [|now apply proper_tl in P]. destruct E' as [I1 I2].
    split.
    + destruct I1 as (ps & -> & L & H). exists (map (fun j => freq + qn j * w)%Qc (seq 0 n) :: ps). split; [reflexivity|]. split; [cbn; now rewrite map_length, seq_length, L|]. intros [|i] r X; [discriminate|now apply H].
    + destruct I2 as (ps & -> & L & H). exists (repeat w n :: ps). split; [reflexivity|]. split; [cbn; now rewrite repeat_length, L|]. intros [|i] r X; [discriminate|now apply H].
Qed.
Lemma handle_ok n l : existsb (fun r => match r with None => true | _ => false end) l = false -> proper l -> parts_of n l freqs (fst (handle_bands V F W l)) /\ parts_of n l widths (snd (handle_bands V F W l)).
Proof.
  intros N P. unfold handle_bands. cbn [fst snd]. induction l as [|[r|] l IH]; [|cbn in N; specialize (IH N (proper_tl _ _ P)); destruct IH as [I1 I2]|discriminate].
  - split; exists []; (split; [reflexivity|]; split; [reflexivity|]; intros [|]; discriminate).
  - cbn [flat_map]. split; (apply (parts_cons n l _ r); [assumption| |reflexivity|intros r' X; now injection X]); [reflexivity|apply (P 0 r eq_refl)].
Qed.
Lemma insert_perm r l : Permutation (r :: l) (insert V F W r l).
Proof. induction l as [|x l IH]; cbn; [apply Permutation_refl|]. destruct (qleb _ _); [apply Permutation_refl|]. transitivity (x :: r :: l); [constructor|now constructor]. Qed.
Lemma sort_perm l : Permutation l (sort V F W l).
Proof. induction l as [|x l IH]; cbn; [constructor|]. transitivity (x :: sort V F W l); [now constructor|apply insert_perm]. Qed.
Definition below (a b : option reader) : Prop := (first_freq V F W a <= first_freq V F W b)%Qc.
Lemma insert_sorted r l : StronglySorted below l -> StronglySorted below (insert V F W r l).
Proof.
  induction l as [|x l IH]; intros H; cbn; [repeat constructor|]. pose proof (StronglySorted_inv H) as [H1 H2]. destruct (qleb _ _) eqn:E.
  - apply qleb_true in E. constructor; [exact H|]. constructor; [exact E|]. eapply Forall_impl; [|exact H2]. intros y Hy. unfold below in *. eapply Qcle_trans; eauto.
  - constructor; [now apply IH|]. apply qleb_false in E. rewrite Forall_forall. intros y I. apply (Permutation_in _ (Permutation_sym (insert_perm r l))) in I. destruct I as [<-|I]; [unfold below; now apply Qclt_le_weak|]. rewrite Forall_forall in H2. now apply H2.
Qed.
Lemma sort_sorted l : StronglySorted below (sort V F W l).
Proof. induction l as [|x l IH]; cbn; [constructor|now apply insert_sorted]. Qed.
Lemma perm_proper l l' : Permutation l l' -> proper l -> proper l'.
Proof. intros P H i r E. apply nth_error_In in E. apply (Permutation_in _ (Permutation_sym P)) in E. apply In_nth_error in E. destruct E as [k E]. eauto. Qed.
Lemma perm_missing (l l' : list (option reader)) : Permutation l l' -> existsb (fun r => match r with None => true | _ => false end) l' = existsb (fun r => match r with None => true | _ => false end) l.
Proof.
  intros P. apply eq_true_iff_eq. rewrite !existsb_exists. split; intros (x & I & H); exists x; (split; [|exact H]); [apply (Permutation_in _ (Permutation_sym P)); exact I|apply (Permutation_in _ P); exact I].
Qed.
Lemma same_list_ok a b : same_list a b = true -> a = b.
Proof. revert b. induction a as [|x a IH]; intros [|y b]; cbn; try discriminate; [reflexivity|]. intros H. apply andb_true_iff in H. destruct H as [H1 H2]. apply Nat.eqb_eq in H1. f_equal; auto. Qed.

Lemma first_of_ok (l : list (option reader)) : match first_of V F W l with Some f => (exists r, nth_error l f = Some (Some r)) /\ forall i, i < f -> nth_error l i = Some None | None => forall r, ~ In (Some r) l end.
Proof.
  induction l as [|[r|] l IH]; cbn [first_of]; [intros r []|split; [exists r; reflexivity|lia]|]. destruct (first_of V F W l) as [f|]; cbn [option_map].
  - destruct IH as [I1 I2]. split; [exact I1|]. intros [|i] L; [reflexivity|]. apply I2. lia.
  - intros r [E|I]; [discriminate|]. now apply (IH r).
Qed.
(** The step is made if and only if a measurement set exists, none has BDA data, and startchan and nchan are not given (or 0); the standard for the others is the first that exists *)
Theorem C84_made startchan nchan missing l : (exists x, make V F W startchan nchan missing l = Ok x) <-> startchan = "0"%string /\ nchan = "0"%string /\ (exists r, In (Some r) l) /\ forall r, In (Some r) l -> bda V F W r = false.
Proof.
  assert (B : existsb (fun r => match r with Some r => bda V F W r | None => false end) l = false <-> forall r, In (Some r) l -> bda V F W r = false).
  { rewrite <- not_true_iff_false, existsb_exists. split.
    - intros H r I. apply not_true_is_false. intros T. apply H. exists (Some r). now split.
    - intros H ([r|] & I & T); [|discriminate]. rewrite (H r I) in T. discriminate. }
  pose proof (first_of_ok l) as Fo. unfold make. destruct l as [|o l0] eqn:El; [split; [intros [x X]; discriminate|intros (_ & _ & [r []] & _)]|]. rewrite <- El in *.
  destruct (String.eqb_spec startchan "0") as [E1|E1]; cbn [negb]; [|split; [intros [x X]; discriminate|intros (X & _); congruence]].
  destruct (String.eqb_spec nchan "0") as [E2|E2]; cbn [negb]; [|split; [intros [x X]; discriminate|intros (_ & X & _); congruence]].
  destruct (existsb _ l); [split; [intros [x X]; discriminate|intros (_ & _ & _ & X); apply B in X; discriminate]|].
  destruct (first_of V F W l) as [f|].
  - destruct Fo as [[r Hr] _]. split; [intros _|eauto]. split; [exact E1|]. split; [exact E2|]. split; [exists r; eapply nth_error_In; eauto|now apply B].
  - split; [intros [x X]; discriminate|]. intros (_ & _ & [r I] & _). exfalso. now apply (Fo r).
Qed.
Theorem C84_first startchan nchan missing l l' f : make V F W startchan nchan missing l = Ok (l', f) -> l' = l /\ (exists r, nth_error l f = Some (Some r)) /\ forall i, i < f -> nth_error l i = Some None.
Proof.
  pose proof (first_of_ok l) as Fo. unfold make. intros E. destruct l as [|o l0] eqn:El; [discriminate|]. rewrite <- El in *. destruct (negb (startchan =? "0")%string); [discriminate|]. destruct (negb (nchan =? "0")%string); [discriminate|].
  destruct (existsb _ l); [discriminate|]. destruct (first_of V F W l) as [f'|]; [|discriminate]. injection E as <- <-. split; [reflexivity|exact Fo].
Qed.

(** The channel frequencies and widths that the next steps see are those of the measurement set that the data of the channel comes from; measurement sets are ordered if this is asked for, and otherwise left in their order;
    those that exist agree with the first one. *)
Theorem C84_channels order l first l' n fs ws : proper l -> update_info V F W near near5 order l first = Ok (l', n, (fs, ws)) ->
  (if order then Permutation l l' /\ StronglySorted below l' /\ ~ In None l' else l' = l) /\
  length fs = list_sum (channels n l') /\ length ws = list_sum (channels n l') /\
  (forall c i j r, origin (channels n l') c = Some (i, j) -> nth_error l' i = Some (Some r) -> nth_error fs c = nth_error (freqs (r_info r)) j /\ nth_error ws c = nth_error (widths (r_info r)) j) /\
  exists r0, nth_error l first = Some (Some r0) /\ n = n_chan r0 /\ forall r, In (Some r) l -> let a := r_info r0 in let b := r_info r in
    near (TimesModel.first (times a)) (TimesModel.first (times b)) = true /\ near (TimesModel.last (times a)) (TimesModel.last (times b)) = true /\ near (TimesModel.interval (times a)) (TimesModel.interval (times b)) = true /\
    n_corr a = n_corr b /\ n_baselines a = n_baselines b /\ antenna_set a = antenna_set b /\ ant1 a = ant1 b /\ ant2 a = ant2 b.
Proof.
  intros P E. unfold update_info in E. destruct (nth_error l first) as [[r0|]|] eqn:Ef; try discriminate. destruct (validate V F W near (r_info r0) l) eqn:Ev; cbn [negb] in E; [|discriminate].
  set (missing := existsb _ l) in E.
  assert (A : (if order then Permutation l l' /\ StronglySorted below l' /\ ~ In None l' else l' = l) /\ n = n_chan r0 /\ parts_of n l' freqs fs /\ parts_of n l' widths ws).
  { destruct (order && missing) eqn:Eom; [discriminate|]. set (ll := if order then sort V F W l else l) in E.
    assert (Pl : Permutation l ll) by (unfold ll; destruct order; [apply sort_perm|apply Permutation_refl]).
    assert (Cm : existsb (fun r => match r with None => true | _ => false end) ll = missing) by (unfold missing; now apply perm_missing).
    assert (Pp : proper ll) by now apply (perm_proper l).
    assert (R : l' = ll /\ n = n_chan r0 /\ parts_of n ll freqs fs /\ parts_of n ll widths ws).
    { destruct (nth_error ll first) as [[r|]|]; try discriminate. destruct missing.
      - unfold fill_bands in E. destruct (fill_loop V F W near5 (n_chan r0) _ _ ll) as [[fs' ws']| |] eqn:El; try discriminate. cbn [GainModel.bind] in E. injection E as <- <- <- <-. apply fill_loop_ok in El; [|exact Pp]. tauto.
      - remember (handle_bands V F W ll) as h eqn:Eh. destruct h as [fs' ws']. injection E as <- <- <- <-. pose proof (handle_ok (n_chan r0) ll Cm Pp) as H. rewrite <- Eh in H. cbn [fst snd] in H. tauto. }
    destruct R as (-> & R2 & R3). split; [|tauto]. unfold ll. destruct order; [|reflexivity]. split; [apply sort_perm|]. split; [apply sort_sorted|]. intros I. cbn in Eom. subst missing. rewrite Eom in Cm. apply not_true_iff_false in Cm. apply Cm. apply existsb_exists. exists None. now split. }
  destruct A as (A1 & A2 & A3 & A4). split; [exact A1|]. split; [now apply (parts_of_len _ _ freqs)|]. split; [now apply (parts_of_len _ _ widths)|]. split.
  - intros c i j r O H. split; eapply parts_of_get; eauto.
  - exists r0. split; [reflexivity|]. split; [exact A2|]. intros r I a b. unfold validate in Ev. rewrite forallb_forall in Ev. specialize (Ev _ I). cbv beta iota zeta in Ev. rewrite !andb_true_iff in Ev. destruct Ev as (((((((E1 & E2) & E3) & E4) & E5) & E6) & E7) & E8).
    repeat (split; [first [assumption|now apply Nat.eqb_eq|now apply String.eqb_eq|now apply same_list_ok]|]). now apply same_list_ok.
Qed.

(** If the measurement sets that exist lie on a regular grid of channels, in order, the missing ones get the frequencies of their places in the grid *)
Theorem C84_filled l first r0 n f0 w : nth_error l first = Some (Some r0) -> validate V F W near (r_info r0) l = true -> n = n_chan r0 -> 0 < n ->
  (forall i r, nth_error l i = Some (Some r) -> freqs (r_info r) = map (fun j => f0 + qn (i * n + j) * w)%Qc (seq 0 n) /\ widths (r_info r) = repeat w n) ->
  update_info V F W near near5 false l first = Ok (l, n, (map (fun c => f0 + qn c * w)%Qc (seq 0 (length l * n)), repeat w (length l * n))).
Proof.
  intros Ef Ev En Hn H. unfold update_info. rewrite Ef, Ev. cbn [negb andb]. rewrite ?Ef, <- En.
  assert (S : forall i m, map (fun c => f0 + qn c * w)%Qc (seq (i * n) (n + m)) = (map (fun j => f0 + qn (i * n + j) * w)%Qc (seq 0 n) ++ map (fun c => f0 + qn c * w)%Qc (seq (Datatypes.S i * n) m))%list).
  { intros i m. rewrite seq_app, map_app. replace (i * n + n) with (Datatypes.S i * n) by lia. f_equal. apply nth_error_same. intros k. rewrite !nth_error_map, !seq_nth_error. now destruct (k <? n). }
  assert (X : forall l' i0, (forall i r, nth_error l' i = Some (Some r) -> freqs (r_info r) = map (fun j => f0 + qn ((i0 + i) * n + j) * w)%Qc (seq 0 n) /\ widths (r_info r) = repeat w n) ->
    fill_loop V F W near5 n w (f0 + qn (i0 * n) * w)%Qc l' = Ok (map (fun c => f0 + qn c * w)%Qc (seq (i0 * n) (length l' * n)), repeat w (length l' * n))).
  { induction l' as [|o l' IH]; intros i0 Hl; [reflexivity|]. cbn [fill_loop length Nat.mul]. rewrite S, repeat_app.
    assert (IH' := IH (Datatypes.S i0) ltac:(intros i r Hr; replace (Datatypes.S i0 + i) with (i0 + Datatypes.S i) by lia; now apply (Hl (Datatypes.S i)))).
    destruct o as [r|].
    - destruct (Hl 0 r eq_refl) as [Hf Hw]. rewrite Nat.add_0_r in Hf. assert (Ln : n_chan r = n) by (unfold MultiModel.n_chan; now rewrite Hf, map_length, seq_length). rewrite Ln, Nat.eqb_refl. cbn [negb].
      assert (Get : forall j, j < n -> nth j (freqs (r_info r)) 0%Qc = (f0 + qn (i0 * n + j) * w)%Qc).
      { intros j Hj. rewrite Hf. apply nth_error_nth. rewrite nth_error_map, seq_nth_error. now replace (j <? n) with true by lia. }
      rewrite (Get 0) by lia. rewrite Nat.add_0_r. replace (qltb _ _) with false by (symmetry; apply qltb_false; apply Qcle_refl). cbn [andb]. rewrite (Get (n - 1)) by lia.
      replace (nth (n - 1) (widths (r_info r)) 0%Qc) with w by (rewrite Hw; symmetry; apply nth_error_nth; apply nth_error_repeat; lia).
      replace (f0 + qn (i0 * n + (n - 1)) * w + w)%Qc with (f0 + qn (Datatypes.S i0 * n) * w)%Qc by (replace (Datatypes.S i0 * n) with (Datatypes.S (i0 * n + (n - 1))) by lia; rewrite qn_S; ring).
      rewrite IH'. cbn [GainModel.bind]. rewrite Hf, Hw. f_equal. f_equal. now rewrite firstn_all2 by (rewrite repeat_length; lia).
    - replace (f0 + qn (i0 * n) * w + qn n * w)%Qc with (f0 + qn (Datatypes.S i0 * n) * w)%Qc by (replace (Datatypes.S i0 * n) with (i0 * n + n) by lia; rewrite qn_plus; ring). rewrite IH'. cbn [GainModel.bind]. f_equal. f_equal. f_equal.
      apply map_ext. intros j. rewrite qn_plus. ring. }
  destruct (existsb _ l) eqn:Em.
  - unfold fill_bands. destruct (H first r0 Ef) as [Hf Hw]. replace (nth 0 (widths (r_info r0)) 0%Qc) with w by (rewrite Hw; symmetry; apply nth_error_nth; apply nth_error_repeat; lia).
    replace (nth 0 (freqs (r_info r0)) 0%Qc) with (f0 + qn (first * n) * w)%Qc by (rewrite Hf; symmetry; apply nth_error_nth; rewrite nth_error_map, seq_nth_error; replace (0 <? n) with true by lia; cbn; now rewrite Nat.add_0_r).
    replace (f0 + qn (first * n) * w - qn (first * n) * w)%Qc with (f0 + qn (0 * n) * w)%Qc by (cbn [Nat.mul]; rewrite qn_0; ring). rewrite (X l 0) by exact H. reflexivity.
  - f_equal. f_equal. unfold handle_bands. clear X Ef Ev.
    assert (Y : forall l' i0, existsb (fun r => match r with None => true | _ => false end) l' = false -> (forall i r, nth_error l' i = Some (Some r) -> freqs (r_info r) = map (fun j => f0 + qn ((i0 + i) * n + j) * w)%Qc (seq 0 n) /\ widths (r_info r) = repeat w n) ->
      flat_map (fun r => match r with Some r => freqs (r_info r) | None => [] end) l' = map (fun c => f0 + qn c * w)%Qc (seq (i0 * n) (length l' * n)) /\
      flat_map (fun r => match r with Some r => widths (r_info r) | None => [] end) l' = repeat w (length l' * n)).
    { induction l' as [|[r|] l' IH]; intros i0 N Hl; [now split| |discriminate]. cbn in N. cbn [flat_map length Nat.mul]. rewrite S, repeat_app.
      destruct (IH (Datatypes.S i0) N) as [I1 I2]; [intros i q Hq; replace (Datatypes.S i0 + i) with (i0 + Datatypes.S i) by lia; now apply (Hl (Datatypes.S i))|]. destruct (Hl 0 r eq_refl) as [Hf Hw]. rewrite Nat.add_0_r in Hf. rewrite I1, I2, Hf, Hw. now split. }
    destruct (Y l 0 Em H) as [-> ->]. reflexivity.
Qed.
End Channels.
Print Assumptions C84_made.
Print Assumptions C84_first.
Print Assumptions C84_channels.
Print Assumptions C84_filled.

(** * Cases and findings *)

(** A measurement set with one baseline and one number per channel; [id] is in the data, with the number of the slot *)
Definition ms (id : nat) (ts : list nat) (fs : list nat) : reader nat bool nat :=
  let q k := qn k in let slot k t := Slot nat bool nat (q t) 1%Qc [k] [map (fun c => id * 100 + k * 10 + c) (seq 0 (length fs))] [map (fun _ => false) fs] [map (fun _ => 7) fs] in
  Reader nat bool nat (Info (TimesModel.MkTimes (Q2Qc (1 # 100)) (q (nth 0 ts 0)) (q (last ts 0)) (q 10)) 1 1 "HBA" [0] [1] (map q fs) (map (fun _ => 1%Qc) fs)) false
    (TimesModel.MkState 0 (q (nth 0 ts 0)) 0 0 (map (fun p => slot (fst p) (snd p)) (combine (seq 0 (length ts)) ts))).
Definition junk : slot nat bool nat := Slot nat bool nat 0%Qc 0%Qc [] [repeat 999 4] [repeat false 4] [repeat 999 4].
Definition case_read := read_all nat bool nat 0 true 0 TimesProps.casacore_near (true, true, true).
Definition near5 (x y : Qc) : bool := qleb (x - y) (Q2Qc (1 # 100000)) && qleb (y - x) (Q2Qc (1 # 100000)).
Definition shown (o : outcome (list (slot nat bool nat))) := match o with Ok l => Some (map (fun s => (data _ _ _ s, flags _ _ _ s, weights _ _ _ s)) l) | _ => None end.

(** Two measurement sets that are given in the wrong order, with two time slots; and a missing one between two others *)
Example C84_case :
  (match update_info nat bool nat TimesProps.casacore_near near5 true [Some (ms 2 [100; 110] [52; 53]); Some (ms 1 [100; 110] [50; 51])] 0 with
   | Ok (l, n, (fs, _)) => (map this fs, shown (case_read n 0 [junk; junk; junk] l)) | _ => ([], None) end) =
  (map (fun k => this (qn k)) [50; 51; 52; 53], Some [([[100; 101; 200; 201]], [[false; false; false; false]], [[7; 7; 7; 7]]); ([[110; 111; 210; 211]], [[false; false; false; false]], [[7; 7; 7; 7]])]) /\
  (match update_info nat bool nat TimesProps.casacore_near near5 false [None; Some (ms 2 [100; 110] [51]); None; Some (ms 1 [100; 110] [53])] 1 with
   | Ok (l, n, (fs, _)) => (map this fs, shown (case_read n 1 [junk; junk; junk] l)) | _ => ([], None) end) =
  (map (fun k => this (qn k)) [50; 51; 52; 53], Some [([[0; 200; 0; 100]], [[true; false; true; false]], [[0; 7; 0; 7]]); ([[0; 210; 0; 110]], [[true; false; true; false]], [[0; 7; 0; 7]])]).
Proof. split; vm_compute; reflexivity. Qed.

(** The documentation says that a measurement set that does not exist is accepted if missingdata is true (and orderms is false).  The setting is not looked at: with missingdata=false, the default, a wrong name gives a
    band of flagged zeros (MultiMsReader.cc:62-64). *)
Theorem C84_missing_refuted : exists l first x, In None l /\ make nat bool nat "0" "0" false l = Ok (l, first) /\ update_info nat bool nat TimesProps.casacore_near near5 false l first = Ok x.
Proof. exists [None; Some (ms 2 [100; 110] [51])]. do 2 eexists. split; [now left|]. split; [reflexivity|]. vm_compute. reflexivity. Qed.
Print Assumptions C84_missing_refuted.

(** Bands that overlap are accepted and put one after the other; the frequencies of the channels are then not increasing, though they are in every measurement set *)
Theorem C84_overlap_refuted : exists l l' n fs ws, Forall (fun r => match r with Some r => StronglySorted Qclt (freqs (r_info nat bool nat r)) | None => False end) l /\
  update_info nat bool nat TimesProps.casacore_near near5 true l 0 = Ok (l', n, (fs, ws)) /\ ~ StronglySorted Qclt fs.
Proof.
  exists [Some (ms 1 [100; 110] [50; 52]); Some (ms 2 [100; 110] [51; 53])]. do 4 eexists. split; [|split; [vm_compute; reflexivity|]].
  - repeat (constructor; [cbn; repeat constructor; apply qltb_true; vm_compute; reflexivity|]). constructor.
  - intros H. apply StronglySorted_inv in H. destruct H as [H _]. apply StronglySorted_inv in H. destruct H as [_ H]. apply Forall_cons_iff in H. destruct H as [H _]. apply qltb_true in H. vm_compute in H. discriminate.
Qed.
Print Assumptions C84_overlap_refuted.

(** Only the first time, the last time and the interval of the measurement sets are compared, not the times of the slots.  A measurement set with irregular times (which the reader allows) is combined with the data of other
    times: here that of 116 s with that of 120 s, without a message.  With the same measurement sets the other way around, one ends before the first and the reader uses a buffer that does not exist. *)
Theorem C84_times_refuted : exists a b res, (exists x, update_info nat bool nat TimesProps.casacore_near near5 false [Some a; Some b] 0 = Ok x) /\ case_read 2 0 (repeat junk 9) [Some a; Some b] = Ok res /\
  (exists s sa sb outs outs', nth_error res 2 = Some s /\ delivers TimesProps.casacore_near a outs /\ delivers TimesProps.casacore_near b outs' /\ nth_error outs 2 = Some (qn 120, Some sa) /\ nth_error outs' 2 = Some (qn 116, Some sb) /\
    data _ _ _ s = [(nth 0 (data _ _ _ sa) [] ++ nth 0 (data _ _ _ sb) [])%list]) /\
  case_read 2 0 (repeat junk 9) [Some b; Some a] = Undefined.
Proof.
  exists (ms 1 [100; 110; 120; 130] [50; 51]), (ms 2 [100; 110; 116; 126; 130] [52; 53]). eexists. split; [eexists; vm_compute; reflexivity|]. split; [vm_compute; reflexivity|]. split; [|vm_compute; reflexivity].
  do 5 eexists. split; [reflexivity|]. split; [exists 20; vm_compute; reflexivity|]. split; [exists 20; vm_compute; reflexivity|]. split; [cbn; f_equal; f_equal; apply Qc_is_canon; vm_compute; reflexivity|]. split; [cbn; f_equal; f_equal; apply Qc_is_canon; vm_compute; reflexivity|]. reflexivity.
Qed.
Print Assumptions C84_times_refuted.
