(** C103: the solutions that DDECal starts with. *)
From Coq Require Import String List Bool Arith Lia ZArith.
From Verif Require Import AverageModel GainModel InitSolModel InitSolSpec.
Import ListNotations.
Open Scope nat_scope.

Lemma n_solutions_sum l : n_solutions l = list_sum l.
Proof. unfold n_solutions, list_sum. rewrite fold_symmetric; auto; intros; lia. Qed.

Lemma resize_length {T} n (x : T) l : length (resize n x l) = n.
Proof. unfold resize. rewrite app_length, firstn_length, repeat_length. lia. Qed.

Lemma nth_error_firstn_lt {T} (l : list T) : forall n i, i < n -> nth_error (firstn n l) i = nth_error l i.
Proof. induction l as [|x l IH]; intros [|n] [|i] H; simpl; try lia; try reflexivity. apply IH. lia. Qed.

Lemma nth_error_skipn_eq {T} (l : list T) : forall n i, nth_error (skipn n l) i = nth_error l (n + i).
Proof. induction l as [|x l IH]; intros [|n] i; simpl; auto. now destruct i. Qed.

(** [put] changes one place and nothing else. *)
Lemma put_ok {T} (l : list T) i x : i < length l -> exists r, put l i x = Ok r /\ length r = length l /\ nth_error r i = Some x /\ (forall j, j <> i -> nth_error r j = nth_error l j).
Proof.
  intros H. unfold put. rewrite (proj2 (Nat.ltb_lt _ _) H). eexists. split; [reflexivity|].
  assert (L : length (firstn i l) = i) by (rewrite firstn_length; lia).
  repeat split.
  - rewrite app_length. cbn [length]. rewrite skipn_length, L. lia.
  - rewrite nth_error_app2 by lia. rewrite L, Nat.sub_diag. reflexivity.
  - intros j Hj. destruct (Nat.lt_ge_cases j i) as [Hlt|Hge].
    + rewrite nth_error_app1 by lia. now apply nth_error_firstn_lt.
    + rewrite nth_error_app2 by lia. rewrite L. destruct (j - i) as [|k] eqn:E; [lia|]. cbn [nth_error].
      rewrite nth_error_skipn_eq. f_equal. lia.
Qed.

(** A loop over [seq b n] that sets, at number [i], the places [P i] of a list to given values *)
Definition writes {T} (P : nat -> Prop) (v : nat -> T) (l r : list T) : Prop :=
  length r = length l /\ (forall j, P j -> nth_error r j = Some (v j)) /\ (forall j, ~ P j -> nth_error r j = nth_error l j).

Lemma loop_writes {T} (f : list T -> nat -> outcome (list T)) (P : nat -> nat -> Prop) (v : nat -> T) (len : nat)
  (dec : forall i j, P i j \/ ~ P i j) :
  forall is l, length l = len ->
  (forall i l, In i is -> length l = len -> exists r, f l i = Ok r /\ writes (P i) v l r) ->
  exists r, loop f is l = Ok r /\ writes (fun j => exists i, In i is /\ P i j) v l r.
Proof.
  induction is as [|i is IH]; intros l Hl Hf; cbn [loop].
  - exists l. split; [reflexivity|]. repeat split; auto. intros j (i & [] & _).
  - destruct (Hf i l (or_introl eq_refl) Hl) as (r1 & E1 & L1 & W1 & K1). rewrite E1. cbn [bind].
    destruct (IH r1) as (r & E & L & W & K); [congruence | intros; apply Hf; [now right | assumption] |].
    exists r. split; [exact E|]. split; [congruence|]. split.
    + intros j (k & [<-|Hk] & Hp).
      * assert (D : (exists k, In k is /\ P k j) \/ ~ (exists k, In k is /\ P k j)).
        { clear - dec. induction is as [|a is IH]; [right; intros (k & [] & _)|].
          destruct IH as [(k & Hk & Hp)|Hn]; [left; exists k; split; [now right|assumption]|].
          destruct (dec a j) as [Ha|Ha]; [left; exists a; split; [now left|assumption]|].
          right. intros (k & [<-|Hk] & Hp); [contradiction|]. apply Hn. eauto. }
        destruct D as [D|D]; [now apply W|]. rewrite K by assumption. now apply W1.
      * apply W. eauto.
    + intros j Hn. rewrite K; [apply K1|].
      * intros Hp. apply Hn. exists i. split; [now left|assumption].
      * intros (k & Hk & Hp). apply Hn. exists k. split; [now right|assumption].
Qed.

Lemma tensor_row {T} (f : nat -> T) n p : p < n -> nth_error (map f (seq 0 n)) p = Some (f p).
Proof.
  intros H. apply map_nth_error.
  rewrite (nth_error_nth' _ 0) by (rewrite seq_length; lia). now rewrite seq_nth by lia.
Qed.

Lemma nth_error_flat_map {T} (f : nat -> list T) w : (forall i, length (f i) = w) -> forall n b i p, i < n -> p < w -> nth_error (flat_map f (seq b n)) (i * w + p) = nth_error (f (b + i)) p.
Proof.
  intros Hw. induction n as [|n IH]; intros b i p Hi Hp; [lia|]. cbn [seq flat_map].
  destruct i as [|i].
  - rewrite nth_error_app1 by (rewrite Hw; lia). now rewrite Nat.add_0_r.
  - rewrite nth_error_app2 by (rewrite Hw; lia). rewrite Hw.
    replace (S i * w + p - w) with (i * w + p) by lia. rewrite IH by lia. f_equal. f_equal. lia.
Qed.

Lemma flat_map_len {T} (f : nat -> list T) w : (forall i, length (f i) = w) -> forall n b, length (flat_map f (seq b n)) = n * w.
Proof. intros Hw. induction n as [|n IH]; intros b; cbn [seq flat_map]; [reflexivity|]. rewrite app_length, Hw, IH. lia. Qed.

Lemma tensor_length {T} n_freq n_ant n_pol (f : nat -> nat -> nat -> T) : length (tensor n_freq n_ant n_pol f) = n_freq * (n_ant * n_pol).
Proof. unfold tensor. apply flat_map_len. intros. apply flat_map_len. intros. now rewrite map_length, seq_length. Qed.

Lemma element_tensor {T} n_freq n_ant n_pol (f : nat -> nat -> nat -> T) ch a p : ch < n_freq -> a < n_ant -> p < n_pol ->
  element n_ant n_pol (tensor n_freq n_ant n_pol f) ch a p = Ok (f ch a p).
Proof.
  intros Hc Ha Hp. unfold element, get, tensor.
  replace (ch * (n_ant * n_pol) + a * n_pol + p) with (ch * (n_ant * n_pol) + (a * n_pol + p)) by lia.
  rewrite (nth_error_flat_map _ (n_ant * n_pol)); [| intros; apply flat_map_len; intros; now rewrite map_length, seq_length | assumption | nia].
  rewrite (nth_error_flat_map _ n_pol); [| intros; now rewrite map_length, seq_length | assumption | assumption].
  now rewrite !Nat.add_0_l, tensor_row by assumption.
Qed.

Lemma place_bound ns n na a s p : a < na -> s < ns -> p < n -> place ns n a s p < ns * na * n.
Proof.
  unfold place. intros Ha Hs Hp. assert (H1 : S (a * ns + s) <= ns * na) by nia.
  assert (H2 : S (a * ns + s) * n <= ns * na * n) by (now apply Nat.mul_le_mono_r). cbn [Nat.mul] in H2. lia.
Qed.

(** Every solution is one of exactly one direction. *)
Lemma solution_direction subs : forall s, s < list_sum subs -> exists d, is_solution_of subs s d.
Proof.
  induction subs as [|n subs IH]; cbn [list_sum fold_right]; intros s H; [lia|].
  change (fold_right Nat.add 0 subs) with (list_sum subs) in H.
  destruct (Nat.lt_ge_cases s n) as [Hlt|Hge].
  - exists 0, [], n, subs, s. auto.
  - destruct (IH (s - n)) as (d & b & m & a & i & -> & E & Hi & Es); [lia|].
    exists (S d), (n :: b), m, a, i. repeat split; auto; [simpl; congruence|]. cbn. change (fold_right Nat.add 0 b) with (list_sum b). lia.
Qed.

Lemma solution_direction_unique subs : forall s d d', is_solution_of subs s d -> is_solution_of subs s d' -> d = d'.
Proof.
  induction subs as [|n subs IH]; intros s d d' (b & m & a & i & E & Ed & Hi & Es) (b' & m' & a' & i' & E' & Ed' & Hi' & Es').
  - destruct b; discriminate.
  - destruct b as [|x b], b' as [|x' b']; cbn in E, E', Ed, Ed', Es, Es'.
    + congruence.
    + injection E as -> ->. injection E' as <- E'. lia.
    + injection E as <- E. injection E' as -> ->. lia.
    + injection E as <- E. injection E' as <- E'. subst d d'. f_equal.
      apply (IH (s - n)); [exists b, m, a, i | exists b', m', a', i']; repeat split; auto.
      * change (fold_right Nat.add 0 b) with (list_sum b) in Es. lia.
      * change (fold_right Nat.add 0 b') with (list_sum b') in Es'. lia.
Qed.

Lemma solution_bound subs s d : is_solution_of subs s d -> s < list_sum subs /\ d < length subs.
Proof. intros (b & m & a & i & -> & <- & Hi & ->). rewrite list_sum_app, app_length. cbn. lia. Qed.

Section Read.
Context {A : Type}.
Variables (zero : A) (n_freq n_ant n w : nat) (value : nat -> nat -> nat -> nat -> A).
Hypothesis Hnw : n <= w.
Let t d := tensor n_freq n_ant w (value d).

Lemma fill_solution_writes ns ch a d s l : ch < n_freq -> a < n_ant -> s < ns -> length l = ns * n_ant * n ->
  forall v, (forall p, p < n -> v (place ns n a s p) = value d ch a p) ->
  exists r, fill_solution n_ant ns n w (t d) ch a s l = Ok r /\ writes (fun j => exists p, In p (seq 0 n) /\ j = place ns n a s p) v l r.
Proof.
  intros Hc Ha Hs Hl v Hv. unfold fill_solution.
  apply (loop_writes _ (fun p j => j = place ns n a s p) v (ns * n_ant * n)); [intros; lia | assumption |].
  intros p l' Hp Hl'. apply in_seq in Hp. unfold t. rewrite element_tensor by lia. cbn [bind].
  assert (E : a * ns * n + s * n + p = place ns n a s p) by (unfold place; lia). rewrite E.
  destruct (put_ok l' (place ns n a s p) (value d ch a p)) as (r & Er & L & H1 & H2).
  { rewrite Hl'. apply place_bound; lia. }
  exists r. split; [exact Er|]. split; [exact L|]. split.
  - intros j ->. rewrite H1, Hv by lia. reflexivity.
  - exact H2.
Qed.

(** the places of the solutions from [b] to [e] of an antenna *)
Let places ns a b e j := exists s p, b <= s < e /\ p < n /\ j = place ns n a s p.

Lemma bounded_dec (P : nat -> Prop) (dec : forall i, P i \/ ~ P i) : forall k, (exists i, i < k /\ P i) \/ ~ (exists i, i < k /\ P i).
Proof.
  induction k as [|k IH]; [right; intros (i & H & _); lia|].
  destruct IH as [(i & H & Hp)|Hn]; [left; exists i; split; [lia|assumption]|].
  destruct (dec k) as [Hk|Hk]; [left; exists k; split; [lia|assumption]|].
  right. intros (i & H & Hp). destruct (Nat.eq_dec i k) as [->|]; [contradiction|]. apply Hn. exists i. split; [lia|assumption].
Qed.

Lemma places_dec ns a b e j : places ns a b e j \/ ~ places ns a b e j.
Proof.
  destruct (bounded_dec (fun s => b <= s /\ exists p, p < n /\ j = place ns n a s p)) with (k := e) as [(s & H & Hb & p & Hp & E)|Hn].
  - intros s. destruct (bounded_dec (fun p => j = place ns n a s p)) with (k := n) as [H|H]; [intros; lia| |].
    + destruct (Nat.le_gt_cases b s); [left|right]; [auto | lia].
    + right. tauto.
  - left. exists s, p. auto.
  - right. intros (s & p & H & Hp & E). apply Hn. exists s. split; [lia|]. split; [lia|]. eauto.
Qed.

Lemma writes_ext {T} (P Q : nat -> Prop) (v : nat -> T) l r : (forall j, P j <-> Q j) -> writes P v l r -> writes Q v l r.
Proof. intros E (L & W & K). split; [exact L|]. split; intros j H; [apply W | apply K]; rewrite E; assumption. Qed.

Lemma fill_directions_writes ns ch a v : ch < n_freq -> a < n_ant ->
  forall subs before l, ns = list_sum (before ++ subs) -> length l = ns * n_ant * n ->
  (forall s d p, is_solution_of (before ++ subs) s d -> p < n -> v (place ns n a s p) = value d ch a p) ->
  exists r, fill_directions n_ant ns n w t ch a (length before) (list_sum before) subs l = Ok r /\ writes (places ns a (list_sum before) ns) v l r.
Proof.
  intros Hc Ha. induction subs as [|k subs IH]; intros before l Hns Hl Hv; cbn [fill_directions].
  - exists l. split; [reflexivity|]. rewrite app_nil_r in Hns. split; [reflexivity|]. split; [|reflexivity].
    intros j (s & p & H & _). lia.
  - assert (Hns' := Hns). rewrite list_sum_app in Hns'. cbn in Hns'. change (fold_right Nat.add 0 subs) with (list_sum subs) in Hns'.
    destruct (loop_writes (fun l i => fill_solution n_ant ns n w (t (length before)) ch a (list_sum before + i) l)
                (fun i j => places ns a (list_sum before + i) (S (list_sum before + i)) j) v (ns * n_ant * n)) with (is := seq 0 k) (l := l) as (r1 & E1 & L1 & W1 & K1).
    + intros. apply places_dec.
    + assumption.
    + intros i l' Hi Hl'. apply in_seq in Hi.
      destruct (fill_solution_writes ns ch a (length before) (list_sum before + i) l') with (v := v) as (r & E & W); try assumption; [lia| |].
      * intros p Hp. apply Hv; [|assumption]. exists before, k, subs, i. repeat split; lia.
      * exists r. split; [exact E|]. revert W. apply writes_ext. intros j. split.
        { intros (p & Hp & Ej). apply in_seq in Hp. exists (list_sum before + i), p. repeat split; lia. }
        { intros (s & p & Hs & Hp & Ej). exists p. split; [apply in_seq; lia|]. now replace (list_sum before + i) with s by lia. }
    + rewrite E1. cbn [bind].
      destruct (IH (before ++ [k]) r1) as (r & E & L & W & K).
      * now rewrite <- app_assoc.
      * congruence.
      * now rewrite <- app_assoc.
      * rewrite app_length, list_sum_app in E. cbn in E. rewrite Nat.add_0_r in E. replace (length before + 1) with (S (length before)) in E by lia.
        exists r. split; [exact E|]. split; [congruence|].
        rewrite list_sum_app in W, K. cbn in W, K. rewrite Nat.add_0_r in W, K.
        split.
        { intros j (s & p & Hs & Hp & Ej). destruct (places_dec ns a (list_sum before + k) ns j) as [Hj|Hj]; [now apply W|].
          rewrite K by assumption. apply W1. exists (s - list_sum before). split.
          - apply in_seq. destruct (Nat.lt_ge_cases s (list_sum before + k)); [lia|]. exfalso. apply Hj. exists s, p. repeat split; lia.
          - exists s, p. repeat split; lia. }
        { intros j Hj. rewrite K; [apply K1|].
          - intros (i & Hi & s & p & Hs & Hp & Ej). apply in_seq in Hi. apply Hj. exists s, p. repeat split; lia.
          - intros (s & p & Hs & Hp & Ej). apply Hj. exists s, p. repeat split; lia. }
Qed.

Lemma fill_block_writes subs ch l0 : ch < n_freq ->
  exists r, fill_block zero n_ant n w subs t ch l0 = Ok r /\ length r = list_sum subs * n_ant * n /\
    (forall a s d p, a < n_ant -> is_solution_of subs s d -> p < n -> nth_error r (place (list_sum subs) n a s p) = Some (value d ch a p)).
Proof.
  intros Hc. unfold fill_block. rewrite n_solutions_sum.
  set (ns := list_sum subs).
  set (dir := fix dir (l : list nat) (s : nat) : nat := match l with [] => 0 | k :: l => if s <? k then 0 else S (dir l (s - k)) end).
  assert (Hdir : forall l s d, is_solution_of l s d -> dir l s = d).
  { clear. induction l as [|k l IH]; intros s d (b & m & a & i & E & Ed & Hi & Es); [destruct b; discriminate|].
    cbn [dir]. destruct b as [|x b]; cbn in E, Ed, Es.
    - injection E as -> ->. now rewrite (proj2 (Nat.ltb_lt _ _)) by lia.
    - injection E as <- E. change (fold_right Nat.add 0 b) with (list_sum b) in Es. rewrite (proj2 (Nat.ltb_ge _ _)) by lia. subst d. f_equal.
      apply IH. exists b, m, a, i. repeat split; auto. lia. }
  set (v := fun j => value (dir subs ((j / n) mod ns)) ch ((j / n) / ns) (j mod n)).
  assert (Hv : forall a s p, s < ns -> p < n -> v (place ns n a s p) = value (dir subs s) ch a p).
  { intros a s p Hs Hp. unfold v.
    assert (E : place ns n a s p / n = a * ns + s /\ place ns n a s p mod n = p).
    { unfold place. split.
      - rewrite Nat.add_comm, Nat.div_add by lia. rewrite Nat.div_small by lia. reflexivity.
      - rewrite Nat.add_comm, Nat.mod_add by lia. now apply Nat.mod_small. }
    destruct E as [-> ->].
    assert (E : (a * ns + s) / ns = a /\ (a * ns + s) mod ns = s).
    { split.
      - rewrite Nat.add_comm, Nat.div_add by lia. now rewrite Nat.div_small by lia.
      - rewrite Nat.add_comm, Nat.mod_add by lia. now apply Nat.mod_small. }
    destruct E as [-> ->]. reflexivity. }
  destruct (loop_writes (fun l a => fill_directions n_ant ns n w t ch a 0 0 subs l) (fun a j => places ns a 0 ns j) v (ns * n_ant * n)) with
    (is := seq 0 n_ant) (l := resize (ns * n_ant * n) zero l0) as (r & E & L & W & K).
  - intros. apply places_dec.
  - apply resize_length.
  - intros a l Ha Hl. apply in_seq in Ha. destruct (fill_directions_writes ns ch a v) with (subs := subs) (before := @nil nat) (l := l) as (r & E & W); auto; try lia.
    + intros s d p Hd Hp. cbn [app] in Hd. rewrite Hv; [|apply (solution_bound _ _ _ Hd)|assumption]. now rewrite (Hdir _ _ _ Hd).
    + exists r. auto.
  - exists r. split; [exact E|]. split; [rewrite L; apply resize_length|].
    intros a s d p Ha Hd Hp. assert (Hs := proj1 (solution_bound _ _ _ Hd)). rewrite W.
    + rewrite Hv by assumption. now rewrite (Hdir _ _ _ Hd).
    + exists a. split; [apply in_seq; lia|]. exists s, p. repeat split; auto; lia.
Qed.
End Read.

Lemma product_is {A} (one : A) mul : (forall x y z, mul (mul x y) z = mul x (mul y z)) -> (forall x, mul one x = x) -> (forall x, mul x one = x) ->
  forall l, product one mul l = product_of one mul l.
Proof.
  intros assoc unitl unitr l. unfold product.
  assert (G : forall l x, fold_left mul l x = mul x (product_of one mul l)).
  { clear l. induction l as [|y l IH]; intros x; cbn [fold_left product_of]; [now rewrite unitr|]. now rewrite IH, assoc. }
  now rewrite G, unitl.
Qed.

(** The blocks of [read], as a function of its own *)
Fixpoint blocks {A} (zero : A) n_ant n w subs t (ch : nat) (data : list (list A)) : outcome (list (list A)) :=
  match data with
  | [] => Ok []
  | l :: data => let! l := fill_block zero n_ant n w subs t ch l in let! r := blocks zero n_ant n w subs t (S ch) data in Ok (l :: r)
  end.

Lemma blocks_ok {A} (zero : A) n_freq n_ant n w subs value : n <= w -> forall data ch, ch + length data <= n_freq ->
  exists r, blocks zero n_ant n w subs (fun d => tensor n_freq n_ant w (value d)) ch data = Ok r /\ length r = length data /\
    forall i l, nth_error r i = Some l -> length l = list_sum subs * n_ant * n /\
      (forall a s d p, a < n_ant -> is_solution_of subs s d -> p < n -> nth_error l (place (list_sum subs) n a s p) = Some (value d (ch + i) a p)).
Proof.
  intros Hnw. induction data as [|l0 data IH]; intros ch Hch; cbn [blocks].
  - exists []. repeat split; destruct i; discriminate.
  - cbn [length] in Hch.
    destruct (fill_block_writes zero n_freq n_ant n w value Hnw subs ch l0) as (l & E & L & W); [lia|].
    rewrite E. cbn [bind]. destruct (IH (S ch)) as (r & Er & Lr & Wr); [lia|]. rewrite Er. cbn [bind].
    exists (l :: r). split; [reflexivity|]. split; [cbn [length]; congruence|].
    intros [|i] l' H; cbn [nth_error] in H.
    + injection H as <-. split; [assumption|]. rewrite Nat.add_0_r. exact W.
    + destruct (Wr i l' H) as [L' W']. split; [assumption|]. rewrite Nat.add_succ_r. exact W'.
Qed.

(** C103: with initial solutions, every gain of every solution of a direction, of every antenna in every channel block, is the one that the file has for that direction, channel block
    and antenna: the gain of the full-Jones tables, or else the product of the gains of all tables.  All solutions of a direction start with the same gain.  What the solutions were before has no
    effect.  This holds if the tables have as many gains as the mode, or the mode has at most two gains and the tables are not full Jones. *)
Theorem C103_read {A} (one zero : A) mul :
  (forall x y z, mul (mul x y) z = mul x (mul y z)) -> (forall x, mul one x = x) -> (forall x, mul x one = x) ->
  forall (is_full : bool) (tables : list reading) (full : reading) n subs n_ant data, (if is_full then n = 4 else n <= 2) ->
  exists r, read one zero mul is_full tables full n subs n_ant data = Ok r /\ length r = length data /\
    forall ch l, nth_error r ch = Some l ->
      length l = list_sum subs * n_ant * n /\
      (forall a s d p, a < n_ant -> is_solution_of subs s d -> p < n ->
         nth_error l (place (list_sum subs) n a s p) = Some (if is_full then full d ch a p else product_of one mul (map (fun table => table d ch a p) tables))).
Proof.
  intros assoc unitl unitr is_full tables full n subs n_ant data Hn. unfold read.
  assert (Hg : is_full && negb (n =? 4) = false) by (destruct is_full; [subst n; reflexivity | reflexivity]). rewrite Hg.
  set (w := if is_full then 4 else 2). set (value := fun d ch a p => if is_full then full d ch a p else product one mul (map (fun f => f d ch a p) tables)).
  assert (Hw : n <= w) by (unfold w; destruct is_full; lia).
  destruct (blocks_ok zero (length data) n_ant n w subs value Hw data 0 (le_n _)) as (r & E & L & W).
  exists r. split; [|split; [exact L|]].
  - rewrite <- E. clear. generalize (length data). intros nf. generalize 0. induction data as [|l data IH]; intros ch; [reflexivity|].
    cbn [blocks]. destruct (fill_block zero n_ant n w subs _ ch l); cbn [bind]; try reflexivity. now rewrite IH.
  - intros ch l H. destruct (W ch l H) as [Ll Wl]. split; [exact Ll|].
    intros a s d p Ha Hd Hp. rewrite Wl with (d := d) by assumption. unfold value. destruct is_full; [reflexivity|]. now rewrite product_is.
Qed.

Lemma put_frame {A} (l : list A) i x : i < length l -> exists r, put l i x = Ok r /\ length r = length l /\ forall j, nth_error r j = if j =? i then Some x else nth_error l j.
Proof.
  intros H. destruct (put_ok l i x H) as (r & E & L & H1 & H2). exists r. repeat split; auto.
  intros j. destruct (Nat.eqb_spec j i) as [->|]; auto.
Qed.

Lemma unity_ok {A} (one zero : A) k : forall fuel q l, length l = 4 * k -> k <= q + fuel -> 
  exists r, unity one zero fuel (4 * q) (4 * k) l = Ok r /\ length r = 4 * k /\
    (forall g p, q <= g < k -> p < 4 -> nth_error r (4 * g + p) = Some (if (p =? 0) || (p =? 3) then one else zero)) /\
    (forall j, j < 4 * q -> nth_error r j = nth_error l j).
Proof.
  induction fuel as [|fuel IH]; intros q l Hl Hk; cbn [unity].
  - exists l. repeat split; auto. intros; lia.
  - destruct (Nat.leb_spec (4 * k) (4 * q)) as [Hq|Hq].
    + exists l. repeat split; auto. intros; lia.
    + destruct (put_frame l (4 * q) one) as (l1 & -> & L1 & N1); [lia|]. cbn [bind].
      destruct (put_frame l1 (4 * q + 1) zero) as (l2 & -> & L2 & N2); [lia|]. cbn [bind].
      destruct (put_frame l2 (4 * q + 2) zero) as (l3 & -> & L3 & N3); [lia|]. cbn [bind].
      destruct (put_frame l3 (4 * q + 3) one) as (l4 & -> & L4 & N4); [lia|]. cbn [bind].
      replace (4 * q + 4) with (4 * S q) by lia.
      destruct (IH (S q) l4) as (r & E & L & W & K); [lia|lia|].
      exists r. split; [exact E|]. split; [exact L|]. split.
      * intros g p Hg Hp. destruct (Nat.eq_dec g q) as [->|]; [|apply W; lia].
        rewrite K by lia. rewrite N4, N3, N2, N1.
        destruct p as [|[|[|[|p]]]]; try lia;
          repeat match goal with |- context [?a =? ?b] => destruct (Nat.eqb_spec a b); try lia end; reflexivity.
      * intros j Hj. rewrite K by lia. rewrite N4, N3, N2, N1.
        repeat match goal with |- context [?a =? ?b] => destruct (Nat.eqb_spec a b); try lia end; reflexivity.
Qed.

(** C103: without initial solutions and without earlier ones, every solution of every antenna is one: the unit matrix if a solution has four gains, or else all gains are one.
    What the solutions were before has no effect. *)
Theorem C103_unit {A} (one zero : A) n subs n_ant l :
  exists r, unit_block one zero n subs n_ant l = Ok r /\ length r = list_sum subs * n_ant * n /\
    forall a s p, a < n_ant -> s < list_sum subs -> p < n ->
      nth_error r (place (list_sum subs) n a s p) = Some (if (n =? 4) && ((p =? 1) || (p =? 2)) then zero else one).
Proof.
  unfold unit_block. rewrite n_solutions_sum. destruct (Nat.eqb_spec n 4) as [->|Hn].
  - set (k := list_sum subs * n_ant). replace (k * 4) with (4 * k) by lia.
    destruct (unity_ok one zero k (4 * k) 0 (resize (4 * k) zero l)) as (r & E & L & W & _); [apply resize_length | lia |].
    rewrite Nat.mul_0_r in E. exists r. split; [exact E|]. split; [exact L|].
    intros a s p Ha Hs Hp. unfold place.
    assert (Hb : a * list_sum subs + s < k) by (unfold k; nia).
    replace ((a * list_sum subs + s) * 4 + p) with (4 * (a * list_sum subs + s) + p) by lia.
    rewrite W by lia. destruct p as [|[|[|[|p]]]]; try lia; reflexivity.
  - eexists. split; [reflexivity|]. rewrite repeat_length. split; [reflexivity|].
    intros a s p Ha Hs Hp. cbn [andb]. apply (nth_error_repeat one). now apply place_bound.
Qed.

Lemma substring_prefix : forall t s, substring 0 (String.length t) s = t -> exists after, s = (t ++ after)%string.
Proof.
  induction t as [|c t IH]; intros s H; [exists s; reflexivity|].
  destruct s as [|c' s]; [discriminate|]. cbn in H. injection H as -> H. destruct (IH s H) as (after & ->). exists after. reflexivity.
Qed.

Lemma substring_split : forall s m t, substring m (String.length t) s = t -> has_text t s.
Proof.
  induction s as [|c s IH]; intros m t H.
  - destruct t as [|c t]; [exists EmptyString, EmptyString; reflexivity|]. destruct m; discriminate.
  - destruct m as [|m].
    + destruct (substring_prefix t _ H) as (after & E). exists EmptyString, after. exact E.
    + cbn in H. destruct (IH m t H) as (b & a & ->). exists (String c b), a. reflexivity.
Qed.

Lemma substring_join : forall b t a, substring (String.length b) (String.length t) (b ++ t ++ a)%string = t.
Proof.
  induction b as [|c b IH]; intros t a; [|apply IH].
  cbn [String.length append]. induction t as [|c t IH]; cbn; [now destruct a|]. now rewrite IH.
Qed.

Lemma contains_text t s : t <> EmptyString -> contains t s = true <-> has_text t s.
Proof.
  intros Ht. unfold contains. destruct (index 0 t s) as [m|] eqn:E.
  - split; [intros _ | reflexivity]. exact (substring_split _ _ _ (index_correct1 _ _ _ _ E)).
  - split; [discriminate|]. intros (b & a & ->). exfalso.
    apply (index_correct3 0 (String.length b) t _ E Ht (Nat.le_0_l _)). apply substring_join.
Qed.

(** C103: tables are taken as full-Jones solutions exactly if there are two, the first has "amplitude" in its name, the second has "phase", and the first has four polarizations. *)
Theorem C103_full names n_pol : names <> [] ->
  exists b, tables_are_full names n_pol = Ok b /\
    (b = true <-> exists first second, names = [first; second] /\ has_text "amplitude" first /\ has_text "phase" second /\ n_pol = Some 4).
Proof.
  intros Hn. destruct names as [|x names]; [contradiction|]. unfold tables_are_full. eexists. split; [reflexivity|].
  destruct n_pol as [n|]; [|split; [discriminate | intros (f & s & _ & _ & _ & H); discriminate]].
  rewrite !andb_true_iff, !contains_text by discriminate. rewrite !Nat.eqb_eq. split.
  - intros (((Hl & Ha) & Hp) & ->). destruct names as [|y [|z names]]; try discriminate Hl. exists x, y. auto.
  - intros (f & s & E & Ha & Hp & H). injection E as -> ->. injection H as ->. auto.
Qed.

(** C103: the factor of the smoothing of a solution is the factor of its direction. *)
Theorem C103_factors {Q} (factors : list Q) subs : length factors = length subs ->
  exists r, expanded_factors factors subs = Ok r /\ length r = list_sum subs /\ forall s d, is_solution_of subs s d -> nth_error r s = nth_error factors d.
Proof.
  unfold expanded_factors. intros Hl.
  destruct subs as [|n0 subs0].
  { destruct factors; [|discriminate]. exists []. repeat split. intros s d H. apply solution_bound in H. cbn in H. lia. }
  replace (length factors =? 0) with false by (rewrite Hl; reflexivity). cbn [length Nat.eqb orb].
  revert factors Hl. generalize (n0 :: subs0). clear. induction l as [|n l IH]; intros factors Hl.
  - destruct factors; [|discriminate]. exists []. split; [reflexivity|]. split; [reflexivity|]. intros s d H. apply solution_bound in H. cbn in H. lia.
  - destruct factors as [|f factors]; [discriminate|]. injection Hl as Hl. change (expand (f :: factors) (n :: l)) with (bind (expand factors l) (fun r => Ok (repeat f n ++ r))). destruct (IH factors Hl) as (r & E & L & W). rewrite E. cbn [bind].
    eexists. split; [reflexivity|]. rewrite app_length, repeat_length, L. split; [reflexivity|].
    intros s d (b & m & a & i & E' & Ed & Hi & Es). destruct b as [|x b]; cbn in E', Ed, Es.
    + injection E' as -> ->. subst d s. cbn [nth_error]. rewrite nth_error_app1 by (rewrite repeat_length; lia). now apply nth_error_repeat.
    + injection E' as <- E'. change (fold_right Nat.add 0 b) with (list_sum b) in Es. subst d. cbn [nth_error].
      rewrite nth_error_app2 by (rewrite repeat_length; lia). rewrite repeat_length. apply W. exists b, m, a, i. repeat split; auto. lia.
Qed.

(** C103, a finding: the tables of the default names are read as two gains per antenna if they are not full Jones.  A mode with four gains per antenna, such as fulljones or rotation, then reads
    the third and fourth gain from the values of the next antenna, and for the last antenna from memory after the values.  Nothing checks that the tables fit the mode. *)
Theorem C103_read_refuted : exists (table : reading (A := Z)) (subs : list nat) (n_ant : nat) (data : list (list Z)),
  tables_are_full ["amplitude000"; "phase000"]%string (Some 2) = Ok false /\
  read 1%Z 0%Z Z.mul false [table; table] table 4 subs n_ant data = Undefined.
Proof. exists (fun _ _ _ _ => 5%Z), [1], 2, [[]]. split; reflexivity. Qed.

(** One direction with two solutions and one with one, two antennas, two tables *)
Example read_example :
  read 1%Z 0%Z Z.mul false [(fun d _ a p => Z.of_nat (10 * d + a + p + 1)); (fun _ _ _ _ => 2%Z)] (fun _ _ _ _ => 0%Z) 2 [2; 1] 2 [[]] =
    Ok [[2; 4; 2; 4; 22; 24; 4; 6; 4; 6; 24; 26]%Z].
Proof. reflexivity. Qed.
Example read_full_example : read 1%Z 0%Z Z.mul true [] (fun d _ a p => Z.of_nat (4 * a + p)) 4 [1] 2 [[7]%Z] = Ok [[0; 1; 2; 3; 4; 5; 6; 7]%Z].
Proof. reflexivity. Qed.
Example is_solution_example : is_solution_of [2; 1] 2 1.
Proof. exists [2], 1, [], 0. repeat split; auto. Qed.
Example unit_example : unit_block 1%Z 0%Z 4 [1] 2 [9]%Z = Ok [1; 0; 0; 1; 1; 0; 0; 1]%Z /\ unit_block 1%Z 0%Z 2 [2] 1 [9]%Z = Ok [1; 1; 1; 1]%Z.
Proof. split; reflexivity. Qed.
Example full_example : tables_are_full ["amplitude000"; "phase000"]%string (Some 4) = Ok true /\ tables_are_full ["phase000"; "amplitude000"]%string (Some 4) = Ok false.
Proof. split; reflexivity. Qed.
Example factors_example : expanded_factors [3; 5] [2; 1] = Ok [3; 3; 5].
Proof. reflexivity. Qed.

Print Assumptions C103_read.
Print Assumptions C103_unit.
Print Assumptions C103_full.
Print Assumptions C103_factors.
Print Assumptions C103_read_refuted.
