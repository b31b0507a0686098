(** Lemmas for BeamProps.v *)
From Coq Require Import String List Bool Arith QArith Qcanon Lia.
From Verif Require Import QcUtil Cplx AverageModel GainModel ApplyCalModel BeamModel BeamSpec.
Import ListNotations.
Open Scope nat_scope.

Lemma bind_ok {T U} (o : outcome T) (f : T -> outcome U) r : bind o f = Ok r -> exists x, o = Ok x /\ f x = Ok r.
Proof. destruct o; cbn; intros H; try discriminate. eauto. Qed.
Lemma get_ok {T} (l : list T) k x : get l k = Ok x <-> nth_error l k = Some x.
Proof. unfold get. destruct (nth_error l k); split; congruence. Qed.
Lemma each_ok {T U} (f : T -> outcome U) l r : each f l = Ok r <-> Forall2 (fun x y => f x = Ok y) l r.
Proof.
  split.
  - revert r. induction l as [|x l IH]; cbn; intros r H; [injection H as <-; constructor|].
    apply bind_ok in H as (y & Ey & H). apply bind_ok in H as (l' & El & H). injection H as <-. constructor; auto.
  - induction 1 as [|x y l r E F IH]; cbn; [reflexivity|]. rewrite E. cbn. rewrite IH. reflexivity.
Qed.
Lemma each_total {T U} (f : T -> outcome U) l : (forall x, In x l -> exists y, f x = Ok y) -> exists r, each f l = Ok r.
Proof.
  induction l as [|x l IH]; cbn; intros H; [eauto|]. destruct (H x) as (y & ->); [auto|]. destruct IH as (r & ->); [auto|]. cbn. eauto.
Qed.
Lemma Forall2_length {T U} (R : T -> U -> Prop) l r : Forall2 R l r -> length l = length r.
Proof. induction 1; cbn; congruence. Qed.
Lemma Forall2_nth {T U} (R : T -> U -> Prop) l r : Forall2 R l r -> forall k x, nth_error l k = Some x -> exists y, nth_error r k = Some y /\ R x y.
Proof.
  induction 1 as [|a b l r H F IH]; intros k x; [destruct k; discriminate|]. destruct k as [|k]; cbn; [intros E; injection E as <-; eauto|apply IH].
Qed.
Lemma Forall2_nth_r {T U} (R : T -> U -> Prop) l r : Forall2 R l r -> forall k y, nth_error r k = Some y -> exists x, nth_error l k = Some x /\ R x y.
Proof.
  induction 1 as [|a b l r H F IH]; intros k x; [destruct k; discriminate|]. destruct k as [|k]; cbn; [intros E; injection E as <-; eauto|apply IH].
Qed.
Lemma combine_seq_nth {T} (l : list T) s n k : n = length l -> nth_error (combine (seq s n) l) k = option_map (fun x => (s + k, x)) (nth_error l k).
Proof.
  intros ->. revert s k. induction l as [|x l IH]; intros s k; [destruct k; reflexivity|]. cbn [length seq combine]. destruct k as [|k]; cbn; [rewrite Nat.add_0_r; reflexivity|].
  rewrite IH. replace (S s + k) with (s + S k) by lia. reflexivity.
Qed.
Lemma combine_nth_some {T U} (l : list T) (m : list U) k x y : nth_error l k = Some x -> nth_error m k = Some y -> nth_error (combine l m) k = Some (x, y).
Proof. revert l m. induction k as [|k IH]; intros [|a l] [|b m]; cbn; try discriminate; [congruence|apply IH]. Qed.
Lemma combine_nth_inv {T U} (l : list T) (m : list U) k x y : nth_error (combine l m) k = Some (x, y) -> nth_error l k = Some x /\ nth_error m k = Some y.
Proof. revert l m. induction k as [|k IH]; intros [|a l] [|b m]; cbn; try discriminate; [intros E; injection E; intros; subst; auto|apply IH]. Qed.
Lemma concat_nth {T} (l : list (list T)) n : Forall (fun r => length r = n) l -> forall k c row x, nth_error l k = Some row -> nth_error row c = Some x -> nth_error (concat l) (n * k + c) = Some x.
Proof.
  induction 1 as [|r l Hr F IH]; intros k c row x; [destruct k; discriminate|]. destruct k as [|k]; cbn.
  - intros E. injection E as <-. intros E. rewrite Nat.mul_0_r. cbn. rewrite nth_error_app1; [exact E|]. apply nth_error_Some. congruence.
  - intros E Ex. rewrite nth_error_app2 by (rewrite Hr; lia). rewrite Hr. replace (n * S k + c - n) with (n * k + c) by lia. eapply IH; eauto.
Qed.

(** * Stations *)
Lemma loop_nil i st : select_loop i st [] = ([], []).
Proof. revert i. induction st; cbn; auto. Qed.
Lemma loop_found st : forall i wanted l, select_loop i st wanted = (l, []) ->
  length l = length wanted /\ forall k n, nth_error wanted k = Some n -> exists j, nth_error l k = Some (i + j) /\ nth_error st j = Some n.
Proof.
  induction st as [|s st IH]; intros i wanted l; cbn.
  - intros E. injection E as <- ->. split; [reflexivity|]. intros [|k] n; discriminate.
  - destruct wanted as [|w rest].
    + rewrite loop_nil. intros E. injection E as <-. split; [reflexivity|]. intros [|k] n; discriminate.
    + destruct (String.eqb_spec s w) as [E|N].
      * subst w. destruct (select_loop (S i) st rest) as [l' w] eqn:E. intros H. injection H as <- ->. apply IH in E as [L E]. split; [cbn; congruence|].
        intros [|k] n; cbn; [intros H; injection H as <-; exists 0; rewrite Nat.add_0_r; auto|]. intros H. destruct (E _ _ H) as (j & A & B). exists (S j). split; [rewrite A; f_equal; lia|exact B].
      * intros E. apply IH in E as [L E]. split; [exact L|]. intros k n H. destruct (E _ _ H) as (j & A & B). exists (S j). split; [rewrite A; f_equal; lia|exact B].
Qed.
Lemma loop_complete st : forall i wanted, part_of wanted st -> snd (select_loop i st wanted) = [].
Proof.
  assert (drop : forall (x : string) l st', part_of (x :: l) st' -> part_of l st').
  { intros x l st' H. remember (x :: l) as xl eqn:E. revert x l E. induction H as [m|y l' m H IH|y l' m H IH]; intros x l E; [discriminate| |].
    - injection E as <- <-. now constructor.
    - constructor. eapply IH; eauto. }
  induction st as [|s st IH]; intros i wanted H; cbn.
  - inversion H; reflexivity.
  - destruct wanted as [|w rest]; [now rewrite loop_nil|]. destruct (String.eqb_spec s w) as [E|N].
    + destruct (select_loop (S i) st rest) as [l' w'] eqn:El. cbn. change w' with (snd (l', w')). rewrite <- El. apply IH. inversion H; subst; [assumption|]. eapply drop; eassumption.
    + apply IH. inversion H; subst; [congruence|assumption].
Qed.
Lemma loop_part st : forall i wanted l, select_loop i st wanted = (l, []) -> part_of wanted st.
Proof.
  induction st as [|s st IH]; intros i wanted l; cbn.
  - intros E. injection E as _ ->. constructor.
  - destruct wanted as [|w rest]; [constructor|]. destruct (String.eqb_spec s w) as [E|N].
    + subst w. destruct (select_loop (S i) st rest) as [l' w] eqn:E. intros H. injection H as <- ->. constructor. eapply IH; eauto.
    + intros E. constructor. eapply IH; eauto.
Qed.
Lemma place_nth st j n : NoDup st -> nth_error st j = Some n -> place n st = j.
Proof.
  intros D. revert j. induction D as [|s st N D IH]; intros [|j]; cbn; try discriminate.
  - intros E. injection E as ->. now rewrite String.eqb_refl.
  - intros E. destruct (String.eqb_spec s n) as [->|M]; [exfalso; apply N; eapply nth_error_In; eauto|]. f_equal. auto.
Qed.
Lemma select_ok t wanted l : select_stations t wanted = Ok l -> homogeneous t = true /\ l = [0] \/
  homogeneous t = false /\ length l = length wanted /\ forall k n, nth_error wanted k = Some n -> exists j, nth_error l k = Some j /\ nth_error (station_names t) j = Some n.
Proof.
  unfold select_stations. destruct (homogeneous t); [intros E; injection E as <-; auto|]. destruct (select_loop 0 (station_names t) wanted) as [l' w] eqn:E.
  destruct w; [|discriminate]. intros H. injection H as <-. right. split; [reflexivity|]. apply loop_found in E. exact E.
Qed.

(** * Matrices *)
Ltac mring := apply mat_eq; cbn; rewrite ?conj_add, ?conj_mul, ?conj_conj, ?conj_0; ring.
Lemma mmul_assoc a b c : mmul a (mmul b c) = mmul (mmul a b) c. Proof. mring. Qed.
Lemma mherm_mul a b : mherm (mmul a b) = mmul (mherm b) (mherm a). Proof. mring. Qed.
Lemma mmul_1l a : mmul unity a = a. Proof. destruct a; apply mat_eq; cbn; ring. Qed.
Lemma mmul_1r a : mmul a unity = a. Proof. destruct a; apply mat_eq; cbn; ring. Qed.
Lemma mherm_1 : mherm unity = unity. Proof. apply mat_eq; cbn; apply cplx_eq; cbn; ring. Qed.
Lemma through_1 v : through unity v unity = v. Proof. unfold through. now rewrite mherm_1, mmul_1l, mmul_1r. Qed.
Lemma through_through a b l r v : through a (through l v r) b = through (mmul a l) v (mmul b r).
Proof. unfold through. rewrite mherm_mul, !mmul_assoc. reflexivity. Qed.
Lemma inverse_ok m a b : regular m a -> m <> NoBeam -> inverse m a = Ok b -> mmul a b = unity /\ mmul b a = unity.
Proof.
  destruct m; cbn; intros R N H; try congruence.
  1,2: destruct (minvert a) as [x|] eqn:E; [|discriminate]; injection H as <-; now apply minvert_spec.
  destruct R as (A & B & C & D). unfold reciprocal in H. destruct (Qc_eq_dec (cnorm (m0 a)) 0) as [|_]; [contradiction|]. cbn in H.
  destruct (Qc_eq_dec (cnorm (m3 a)) 0) as [|_]; [contradiction|]. cbn in H. injection H as <-. pose proof (cinv_spec _ C) as I. pose proof (cinv_spec _ D) as J.
  destruct a as [x y z w]; cbn in *. subst y z. split; apply mat_eq; cbn; try (rewrite <- I; ring); try (rewrite <- J; ring); ring.
Qed.
Lemma inverse_total m a : regular m a -> exists b, inverse m a = Ok b.
Proof.
  destruct m; cbn; intros R; [eauto| | |].
  1,2: unfold minvert; destruct (Qc_eq_dec (cnorm (mdet a)) 0); [contradiction|eauto].
  destruct R as (A & B & C & D). unfold reciprocal. destruct (Qc_eq_dec (cnorm (m0 a)) 0) as [|_]; [contradiction|]. cbn.
  destruct (Qc_eq_dec (cnorm (m3 a)) 0) as [|_]; [contradiction|]. cbn. eauto.
Qed.

(** * Data *)
Lemma apply_cell i ns values upd data data' : apply_to_data i ns values upd data = Ok data' -> fits i data -> fits i data' /\
  forall b c p q, nth_error (baselines i) b = Some (p, q) ->
  (forall x, at_cell data b c = Some x -> exists l r, nth_error values (start_of ns (length (freqs i)) p + c) = Some l /\
     nth_error values (start_of ns (length (freqs i)) q + c) = Some r /\ at_cell data' b c = Some (apply_sample upd l r x)) /\
  (forall y, at_cell data' b c = Some y -> exists x, at_cell data b c = Some x).
Proof.
  unfold apply_to_data. intros H [F1 F2]. apply (proj1 (each_ok _ _ _)) in H. pose proof (Forall2_length _ _ _ H) as L. rewrite combine_length, F1, Nat.min_id in L.
  assert (row : forall b p q r r', nth_error (baselines i) b = Some (p, q) -> nth_error data b = Some r -> nth_error data' b = Some r' ->
    Forall2 (fun (y : nat * (mat * weights)) z => bind (get values (start_of ns (length (freqs i)) p + fst y)) (fun l =>
       bind (get values (start_of ns (length (freqs i)) q + fst y)) (fun r => Ok (apply_sample upd l r (snd y)))) = Ok z) (combine (seq 0 (length (freqs i))) r) r').
  { intros b p q r r' Hb Hr Hr'. pose proof (combine_nth_some _ _ _ _ _ Hb Hr) as Hc. apply (Forall2_nth _ _ _ H) in Hc as (r2 & E & Hc). rewrite Hr' in E. injection E as <-.
    cbn in Hc. now apply (proj1 (each_ok _ _ _)) in Hc. }
  assert (len : forall r, In r data -> length r = length (freqs i)). { intros r Hr. rewrite Forall_forall in F2. auto. }
  split.
  - split; [congruence|]. rewrite Forall_forall. intros r' Hr'. apply In_nth_error in Hr' as [b Hb'].
    assert (b < length data') as Lb by (apply nth_error_Some; congruence). rewrite <- L in Lb.
    destruct (nth_error (baselines i) b) as [[p q]|] eqn:Hb; [|apply nth_error_None in Hb; lia].
    destruct (nth_error data b) as [r|] eqn:Hr; [|apply nth_error_None in Hr; lia].
    pose proof (row _ _ _ _ _ Hb Hr Hb') as R. apply Forall2_length in R. rewrite combine_length, seq_length, (len r) in R by (eapply nth_error_In; eauto). lia.
  - intros b c p q Hb. unfold at_cell. split.
    + intros x Hx. destruct (nth_error data b) as [r|] eqn:Hr; [|discriminate].
      destruct (nth_error data' b) as [r'|] eqn:Hr'.
      2: { apply nth_error_None in Hr'. assert (b < length (baselines i)) by (apply nth_error_Some; congruence). lia. }
      pose proof (row _ _ _ _ _ Hb Hr Hr') as R. pose proof (combine_seq_nth r 0 (length (freqs i)) c) as E. rewrite (len r) in E by (eapply nth_error_In; eauto). specialize (E eq_refl).
      rewrite Hx in E. cbn in E. apply (Forall2_nth _ _ _ R) in E as (z & Ez & E). apply bind_ok in E as (l & El & E). apply bind_ok in E as (rr & Er & E). cbn in E. injection E as <-.
      apply get_ok in El. apply get_ok in Er. cbn in El, Er. exists l, rr. rewrite Ez. auto.
    + intros y Hy. destruct (nth_error data' b) as [r'|] eqn:Hr'; [|discriminate].
      destruct (nth_error data b) as [r|] eqn:Hr.
      2: { apply nth_error_None in Hr. assert (b < length (baselines i)) by (apply nth_error_Some; congruence). lia. }
      pose proof (row _ _ _ _ _ Hb Hr Hr') as R. destruct (Forall2_nth_r _ _ _ R _ _ Hy) as ([k x] & E & _). apply combine_nth_inv in E as [_ E]. eauto.
Qed.
Lemma apply_total i ns values upd data : Forall (fun p => start_of ns (length (freqs i)) (fst p) + length (freqs i) <= length values /\ start_of ns (length (freqs i)) (snd p) + length (freqs i) <= length values) (baselines i) ->
  exists data', apply_to_data i ns values upd data = Ok data'.
Proof.
  intros H. unfold apply_to_data. apply each_total. intros [[p q] row] Hx. apply in_combine_l in Hx. rewrite Forall_forall in H. apply H in Hx as [A B]. cbn [fst snd] in A, B.
  apply each_total. intros [k x] Hk. apply in_combine_l in Hk. apply in_seq in Hk. cbn [fst snd].
  destruct (nth_error values (start_of ns (length (freqs i)) p + k)) as [l|] eqn:El; [|apply nth_error_None in El; lia].
  destruct (nth_error values (start_of ns (length (freqs i)) q + k)) as [r|] eqn:Er; [|apply nth_error_None in Er; lia].
  rewrite (proj2 (get_ok _ _ _) El), (proj2 (get_ok _ _ _) Er). cbn. eauto.
Qed.

Section Response.
Variable response : Qc -> mode -> nat -> Qc -> dir -> mat.
Lemma compute_ok time s fs d inv m values : compute_beam response time s fs d inv m = Ok values -> length values = length fs * length (indices s) /\
  forall st ix c f, nth_error (indices s) st = Some ix -> nth_error fs c = Some f ->
  exists v, nth_error values (length fs * st + c) = Some v /\ beam_value response time s d inv m st ix f = Ok v.
Proof.
  unfold compute_beam. intros H. apply bind_ok in H as (l & El & H). injection H as <-. apply (proj1 (each_ok _ _ _)) in El.
  assert (U : Forall (fun r => length r = length fs) l).
  { rewrite Forall_forall. intros r Hr. apply In_nth_error in Hr as [k Hk]. apply (Forall2_nth_r _ _ _ El) in Hk as (x & _ & E). apply (proj1 (each_ok _ _ _)) in E. symmetry. eapply Forall2_length; eauto. }
  split.
  - pose proof (Forall2_length _ _ _ El) as L. rewrite combine_length, seq_length, Nat.min_id in L. rewrite L. clear - U. induction l as [|r l IH]; cbn; [lia|]. apply Forall_cons_iff in U as [Ur U]. rewrite app_length, IH, Ur by exact U. lia.
  - intros st ix c f Hst Hc. pose proof (combine_seq_nth (indices s) 0 (length (indices s)) st eq_refl) as E. rewrite Hst in E. cbn in E.
    destruct (Forall2_nth _ _ _ El _ _ E) as (r & Er & E2). cbn [fst snd] in E2. apply (proj1 (each_ok _ _ _)) in E2. destruct (Forall2_nth _ _ _ E2 _ _ Hc) as (v & Ev & Hv). exists v. split; [|exact Hv].
    eapply concat_nth; eauto.
Qed.
Lemma compute_total time s fs d inv m : (forall st ix f, nth_error (indices s) st = Some ix -> In f fs -> exists v, beam_value response time s d inv m st ix f = Ok v) ->
  exists values, compute_beam response time s fs d inv m = Ok values.
Proof.
  intros H. unfold compute_beam.
  assert (exists r, each (fun x => each (beam_value response time s d inv m (fst x) (snd x)) fs) (combine (seq 0 (length (indices s))) (indices s)) = Ok r) as [r E].
  2: { rewrite E. cbn. eauto. }
  apply each_total.
  intros [st ix] Hx. apply In_nth_error in Hx as [k Hk]. pose proof (combine_seq_nth (indices s) 0 (length (indices s)) k eq_refl) as E. rewrite Hk in E.
  destruct (nth_error (indices s) k) as [ix'|] eqn:Ek; [|discriminate]. cbn in E. injection E as -> ->. apply each_total. intros f Hf. cbn. eapply H; eauto.
Qed.

(** The number in the list of indices, and the station, of an antenna *)
Definition number_of (t : telescope) (a : nat) : nat := if homogeneous t then 0 else a.
Definition station_of (t : telescope) (i : info) (a : nat) : nat := if homogeneous t then 0 else place (nth a (names i) EmptyString) (station_names t).
Lemma selected t i l a : NoDup (station_names t) -> select_stations t (names i) = Ok l -> a < length (names i) ->
  nth_error l (number_of t a) = Some (station_of t i a) /\ forall n, start_of (length l) n a = n * number_of t a.
Proof.
  intros D H La. unfold number_of, station_of, start_of. apply select_ok in H as [[-> ->]|(-> & L & H)]; [cbn; split; [reflexivity|intros n; lia]|].
  destruct (nth_error (names i) a) as [n|] eqn:En; [|apply nth_error_None in En; lia]. destruct (H _ _ En) as (j & A & B). rewrite (nth_error_nth _ _ _ En), (place_nth _ _ _ D B). split; [exact A|].
  intros c. rewrite L. destruct (Nat.eqb_spec (length (names i)) 1); [|reflexivity]. assert (a = 0) as -> by lia. lia.
Qed.

(** The matrix of an antenna in a step *)
Definition factor (t : telescope) (i : info) (e : step) (time : Qc) (d : dir) (inv : bool) (m : mode) (f : Qc) (a : nat) : outcome mat :=
  beam_value response time e d inv m (number_of t a) (station_of t i a) f.
Lemma pass_cell t i e time d inv m upd values data data' : NoDup (station_names t) -> valid i -> select_stations t (names i) = Ok (indices e) -> fits i data ->
  compute_beam response time e (freqs i) d inv m = Ok values -> apply_to_data i (length (indices e)) values upd data = Ok data' -> fits i data' /\
  forall b c p q f, nth_error (baselines i) b = Some (p, q) -> nth_error (freqs i) c = Some f ->
  (forall x, at_cell data b c = Some x -> exists l r, factor t i e time d inv m f p = Ok l /\ factor t i e time d inv m f q = Ok r /\ at_cell data' b c = Some (apply_sample upd l r x)) /\
  (forall y, at_cell data' b c = Some y -> exists x, at_cell data b c = Some x).
Proof.
  intros D V S F C A. destruct (apply_cell _ _ _ _ _ _ A F) as [F' H]. split; [exact F'|]. intros b c p q f Hb Hc. destruct (H b c p q Hb) as [H1 H2]. split; [|exact H2].
  intros x Hx. destruct (H1 x Hx) as (l & r & El & Er & E). unfold valid in V. rewrite Forall_forall in V. destruct (V (p, q)) as [Lp Lq]; [eapply nth_error_In; eauto|]. cbn in Lp, Lq.
  destruct (selected _ _ _ _ D S Lp) as [Ip Sp]. destruct (selected _ _ _ _ D S Lq) as [Iq Sq]. rewrite Sp in El. rewrite Sq in Er. apply compute_ok in C as [_ C].
  destruct (C _ _ _ _ Ip Hc) as (l' & El' & Bl). destruct (C _ _ _ _ Iq Hc) as (r' & Er' & Br). exists l, r. unfold factor. rewrite El in El'. rewrite Er in Er'. injection El' as <-. injection Er' as <-. auto.
Qed.
Lemma pass_total t i e time d inv m upd data : NoDup (station_names t) -> valid i -> select_stations t (names i) = Ok (indices e) ->
  (forall st ix f, nth_error (indices e) st = Some ix -> In f (freqs i) -> exists v, beam_value response time e d inv m st ix f = Ok v) ->
  exists values data', compute_beam response time e (freqs i) d inv m = Ok values /\ apply_to_data i (length (indices e)) values upd data = Ok data'.
Proof.
  intros D V S H. destruct (compute_total _ _ _ _ _ _ H) as [values E]. exists values. destruct (apply_total i (length (indices e)) values upd data) as [data' A]; [|eauto].
  apply compute_ok in E as [L _]. unfold valid in V. rewrite Forall_forall in V. apply Forall_forall. intros [p q] Hp. destruct (V _ Hp) as [Lp Lq]. cbn in *.
  destruct (selected _ _ _ _ D S Lp) as [Ip Sp]. destruct (selected _ _ _ _ D S Lq) as [Iq Sq]. rewrite Sp, Sq, L.
  assert (number_of t p < length (indices e)) by (apply nth_error_Some; congruence). assert (number_of t q < length (indices e)) by (apply nth_error_Some; congruence). nia.
Qed.
End Response.
