(** C104: the TEC constraint of DDECal. *)
From Coq Require Import Reals List Arith Bool Lia Lra ZArith.
From Verif Require Import RotModel TecModel TecSpec.
Import ListNotations.
Open Scope R_scope.

Lemma fmod_spec x y : 0 < y -> (exists k, fmod x y = x - y * IZR k) /\ (0 <= x -> 0 <= fmod x y < y) /\ (x < 0 -> - y < fmod x y <= 0).
Proof.
  intros Y. unfold fmod. destruct (Rle_dec 0 x) as [X|X].
  - split; [eexists; reflexivity|]. split; [intros _ | lra].
    destruct (base_Int_part (x / y)) as [A B]. assert (E : x = y * (x / y)) by (field; lra).
    set (q := x / y) in *. set (n := IZR (Int_part q)) in *. split; nra.
  - split.
    + exists (- Int_part (- x / y))%Z. rewrite opp_IZR. ring.
    + split; [lra | intros _].
      destruct (base_Int_part (- x / y)) as [A B]. assert (E : - x = y * (- x / y)) by (field; lra).
      set (q := - x / y) in *. set (n := IZR (Int_part q)) in *. split; nra.
Qed.

Lemma two_pi : 0 < 2 * PI.
Proof. pose proof PI_RGT_0. lra. Qed.

Lemma same_refl x : same_phase x x.
Proof. exists 0%Z. ring. Qed.
Lemma same_sym x y : same_phase x y -> same_phase y x.
Proof. intros (k & ->). exists (- k)%Z. rewrite opp_IZR. ring. Qed.
Lemma same_trans x y z : same_phase x y -> same_phase y z -> same_phase x z.
Proof. intros (k & ->) (m & ->). exists (k + m)%Z. rewrite plus_IZR. ring. Qed.
Lemma same_plus x y d : same_phase x y -> same_phase (x + d) (y + d).
Proof. intros (k & ->). exists k. ring. Qed.
Lemma same_fmod x : same_phase (fmod x (2 * PI)) x.
Proof. destruct (fmod_spec x (2 * PI) two_pi) as [(k & ->) _]. exists (- k)%Z. rewrite opp_IZR. ring. Qed.

(** Equal phases that are less than a turn apart are equal. *)
Lemma same_small x y : same_phase x y -> - (2 * PI) < x - y < 2 * PI -> x = y.
Proof.
  intros (k & ->) H. pose proof two_pi as P.
  assert (K : (k = 0)%Z).
  { assert (-1 < IZR k < 1) by (split; nra). assert (A : (-1 < k)%Z) by (apply lt_IZR; lra). assert (B : (k < 1)%Z) by (apply lt_IZR; lra). lia. }
  subst k. ring.
Qed.

Lemma difference_ok e p : phase_distance e p (difference e p).
Proof.
  unfold difference, phase_distance. destruct (fmod_spec (Rabs (e - p)) (2 * PI) two_pi) as ((k & E) & H & _).
  specialize (H (Rabs_pos _)). set (d := fmod (Rabs (e - p)) (2 * PI)) in *.
  assert (S : same_phase e (p + d) \/ same_phase e (p - d)).
  { unfold Rabs in E. destruct (Rcase_abs (e - p)); [right; exists (- k)%Z | left; exists k]; try rewrite opp_IZR; lra. }
  destruct (Rlt_dec PI d) as [D|D].
  - split; [lra|]. destruct S as [(m & S)|(m & S)]; [right; exists (m + 1)%Z; rewrite plus_IZR | left; exists (m - 1)%Z; rewrite minus_IZR]; lra.
  - split; [lra|]. exact S.
Qed.

(** The distance of two phases is one number. *)
Lemma distance_unique x y d d' : phase_distance x y d -> phase_distance x y d' -> d = d'.
Proof.
  intros (H & S) (H' & S'). pose proof PI_RGT_0 as P.
  assert (G : forall a b, 0 <= a <= PI -> 0 <= b <= PI -> same_phase x (y + a) -> same_phase x (y - b) -> a = b).
  { intros a b Ha Hb Sa Sb. assert (T : same_phase (y + a) (y - b)) by (eapply same_trans; [apply same_sym|]; eassumption).
    destruct T as (k & T). assert (E : a + b = 2 * PI * IZR k) by lra.
    assert (K : (k = 0 \/ k = 1)%Z).
    { assert (A : -1 < IZR k < 2) by (split; nra). destruct A as [A B]. apply (lt_IZR (-1)) in A. apply (lt_IZR _ 2) in B. lia. }
    destruct K as [-> | ->]; lra. }
  destruct S as [S|S], S' as [S'|S'].
  - assert (E : y + d = y + d'); [|lra]. apply same_small; [eapply same_trans; [apply same_sym|]; eassumption | lra].
  - apply G; auto.
  - symmetry. apply G; auto.
  - assert (E : y - d = y - d'); [|lra]. apply same_small; [eapply same_trans; [apply same_sym|]; eassumption | lra].
Qed.

Lemma distance_shift x x' y d : same_phase x x' -> phase_distance x y d -> phase_distance x' y d.
Proof. intros E (H & [S|S]); (split; [exact H|]); [left|right]; (eapply same_trans; [apply same_sym; exact E | exact S]). Qed.

Lemma distance_sym x y d : phase_distance x y d -> phase_distance y x d.
Proof.
  intros (H & [(k & S)|(k & S)]); (split; [exact H|]); [right|left]; exists (- k)%Z; rewrite opp_IZR; lra.
Qed.

Lemma distance_zero x y d : phase_distance x y d -> (d = 0 <-> same_phase x y).
Proof.
  intros D. split.
  - intros ->. destruct D as (_ & [(k & S)|(k & S)]); exists k; lra.
  - intros S. apply (distance_unique x y); [exact D|]. split; [pose proof PI_RGT_0; lra|]. left. rewrite Rplus_0_r. exact S.
Qed.

Definition rsum (l : list R) : R := fold_right Rplus 0 l.

Lemma fold_pair {T} (f g : T -> R) l : forall a b, fold_left (fun '(c, w) x => (c + f x, w + g x)) l (a, b) = (a + rsum (map f l), b + rsum (map g l)).
Proof. induction l as [|x l IH]; intros a b; cbn [fold_left map rsum fold_right]; [f_equal; ring|]. rewrite IH. unfold rsum. f_equal; ring. Qed.

Lemma rsum_nonneg l : (forall x, In x l -> 0 <= x) -> 0 <= rsum l.
Proof. induction l as [|x l IH]; intros H; cbn; [lra|]. pose proof (H x (or_introl eq_refl)). unfold rsum in IH. specialize (IH (fun y Hy => H y (or_intror Hy))). lra. Qed.

Lemma rsum_zero l : (forall x, In x l -> 0 <= x) -> rsum l = 0 -> forall x, In x l -> x = 0.
Proof.
  induction l as [|x l IH]; intros H E y Hy; [destruct Hy|]. cbn in E. change (fold_right Rplus 0 l) with (rsum l) in E.
  pose proof (H x (or_introl eq_refl)) as Hx. pose proof (rsum_nonneg l (fun y Hy => H y (or_intror Hy))) as Hl.
  destruct Hy as [<-|Hy]; [lra|]. apply IH; auto; [intros; apply H; now right | lra].
Qed.

Lemma rsum_ext {T} (f g : T -> R) l : (forall x, In x l -> f x = g x) -> rsum (map f l) = rsum (map g l).
Proof. intros H. f_equal. now apply map_ext_in. Qed.

Lemma rsum_scale {T} (f : T -> R) k l : rsum (map (fun x => k * f x) l) = k * rsum (map f l).
Proof. induction l as [|x l IH]; cbn; [ring|]. unfold rsum in IH. rewrite IH. ring. Qed.

Lemma cost_of_sum est cs : cost_of est cs = if Req_EM_T (rsum (map weight cs)) 0 then 0 else rsum (map (fun c => difference (est (freq c)) (phase c) * weight c) cs) / rsum (map weight cs).
Proof. unfold cost_of. rewrite (fold_pair (fun c => difference (est (freq c)) (phase c) * weight c) weight). rewrite !Rplus_0_l. reflexivity. Qed.

Lemma cost_of_mean est cs : (forall c, In c cs -> 0 <= weight c) ->
  weighted_mean (map (fun c => (difference (est (freq c)) (phase c), weight c)) cs) (cost_of est cs).
Proof.
  intros W. unfold weighted_mean. rewrite !map_map. cbn [snd].
  change (rsum (map (fun c => difference (est (freq c)) (phase c) * weight c) cs) = cost_of est cs * rsum (map weight cs)).
  rewrite cost_of_sum. destruct (Req_EM_T (rsum (map weight cs)) 0) as [Z|Z]; [|field; exact Z].
  rewrite Z, Rmult_0_r. rewrite (rsum_ext _ (fun c => 0 * weight c)); [rewrite rsum_scale; ring|].
  intros c Hc. assert (E : weight c = 0); [|rewrite E; ring].
  apply (rsum_zero (map weight cs)); [|exact Z|now apply in_map].
  intros x Hx. apply in_map_iff in Hx. destruct Hx as (c' & <- & Hc'). now apply W.
Qed.

Lemma wrap_ok x : - PI <= wrap x <= PI /\ same_phase (wrap x) x.
Proof.
  unfold wrap. destruct (fmod_spec x (2 * PI) two_pi) as (_ & P & N). pose proof (same_fmod x) as (k & S). pose proof two_pi as T.
  set (d := fmod x (2 * PI)) in *. assert (H : - (2 * PI) < d < 2 * PI) by (destruct (Rle_dec 0 x); [specialize (P r) | specialize (N ltac:(lra))]; lra).
  destruct (Rlt_dec d (- PI)); [|destruct (Rlt_dec PI d)]; (split; [lra|]);
    [exists (k + 1)%Z; rewrite plus_IZR | exists (k - 1)%Z; rewrite minus_IZR | exists k]; lra.
Qed.

Lemma wrap_unique x r : same_phase r x -> - PI < r < PI -> wrap x = r.
Proof.
  intros S H. destruct (wrap_ok x) as [W T]. apply same_small; [|lra]. eapply same_trans; [exact T|]. now apply same_sym.
Qed.

Lemma beta_step_sum cs alpha w b : beta_step cs alpha (w, b) =
  (w + rsum (map weight cs), if Req_EM_T (w + rsum (map weight cs)) 0 then b else b + rsum (map (fun c => wrap (phase c - tec2_func (freq c) alpha b) * weight c) cs) / (w + rsum (map weight cs))).
Proof. unfold beta_step. rewrite (fold_pair (fun c => wrap (phase c - tec2_func (freq c) alpha b) * weight c) weight). rewrite Rplus_0_l. reflexivity. Qed.

Lemma beta_step_exact cs alpha w b d : 0 < w + rsum (map weight cs) -> (forall c, In c cs -> weight c <> 0 -> wrap (phase c - tec2_func (freq c) alpha b) = d) ->
  beta_step cs alpha (w, b) = (w + rsum (map weight cs), b + d * rsum (map weight cs) / (w + rsum (map weight cs))).
Proof.
  intros W H. rewrite beta_step_sum. f_equal. destruct (Req_EM_T (w + rsum (map weight cs)) 0); [lra|]. f_equal. f_equal.
  rewrite <- rsum_scale. apply rsum_ext. intros c Hc. destruct (Req_EM_T (weight c) 0) as [E|E]; [rewrite E; ring|]. now rewrite H.
Qed.

(** C104: if the phases are those of a TEC with an offset, apart from whole turns, then the offset that is fitted for that TEC is this one, whatever the estimate to start with, unless that is just
    opposite to the offset.  Channels without weight have no effect.  The cost of the fit is then zero. *)
Theorem C104_offset cs alpha offset start : (forall c, In c cs -> 0 <= weight c) -> 0 < fold_right Rplus 0 (map weight cs) ->
  (forall c, In c cs -> 0 < weight c -> same_phase (phase c) (alpha / freq c + offset)) -> ~ phase_distance start offset PI ->
  same_phase (fit_beta cs alpha start) offset /\ cost2 cs alpha (fit_beta cs alpha start) = 0.
Proof.
  intros W0 W S D. change (fold_right Rplus 0 (map weight cs)) with (rsum (map weight cs)) in W.
  assert (Sc : forall c, In c cs -> weight c <> 0 -> same_phase (phase c) (alpha / freq c + offset)).
  { intros c Hc Hw. apply S; [exact Hc|]. specialize (W0 c Hc). lra. }
  destruct (wrap_ok (offset - start)) as [Hd Sd]. set (d := wrap (offset - start)) in *.
  assert (Hd' : - PI < d < PI).
  { split; (destruct (Req_EM_T d PI) as [E|E]; [|destruct (Req_EM_T d (- PI)) as [E'|E']; [|lra]]); exfalso; apply D;
      (split; [pose proof PI_RGT_0; lra|]); destruct Sd as (k & Sd);
      first [right; exists (k)%Z; lra | left; exists (k)%Z; lra | right; exists (- k)%Z; rewrite opp_IZR; lra | left; exists (- k)%Z; rewrite opp_IZR; lra | idtac]. }
  assert (B : same_phase (fit_beta cs alpha start) offset).
  { unfold fit_beta.
    rewrite (beta_step_exact cs alpha 0 start d); [|lra|].
    2:{ intros c Hc Hw. apply wrap_unique; [|exact Hd']. destruct (Sc c Hc Hw) as (k & ->). destruct Sd as (m & Sd).
        unfold tec2_func. exists (m - k)%Z. rewrite minus_IZR. lra. }
    rewrite Rplus_0_l. replace (start + d * rsum (map weight cs) / rsum (map weight cs)) with (start + d) by (field; lra).
    assert (Z : forall c, In c cs -> weight c <> 0 -> wrap (phase c - tec2_func (freq c) alpha (start + d)) = 0).
    { intros c Hc Hw. apply wrap_unique; [|pose proof PI_RGT_0; lra]. destruct (Sc c Hc Hw) as (k & ->). destruct Sd as (m & Sd).
      unfold tec2_func. exists (m - k)%Z. rewrite minus_IZR. lra. }
    rewrite (beta_step_exact cs alpha _ (start + d) 0) by (auto; lra).
    replace (start + d + 0 * rsum (map weight cs) / (rsum (map weight cs) + rsum (map weight cs))) with (start + d) by (field; lra).
    rewrite (beta_step_exact cs alpha _ (start + d) 0) by (auto; lra). cbn [snd].
    eapply same_trans; [apply same_fmod|]. destruct Sd as (m & Sd). exists m. unfold Rdiv. lra. }
  split; [exact B|]. unfold cost2. rewrite cost_of_sum. destruct (Req_EM_T (rsum (map weight cs)) 0); [reflexivity|].
  rewrite (rsum_ext _ (fun c => 0 * weight c)); [rewrite rsum_scale; field; assumption|].
  intros c Hc. destruct (Req_EM_T (weight c) 0) as [E|E]; [rewrite E; ring|]. f_equal.
  apply (distance_zero (tec2_wrapped (freq c) alpha (fit_beta cs alpha start)) (phase c)); [apply difference_ok|].
  unfold tec2_wrapped. eapply same_trans; [apply same_fmod|]. eapply same_trans; [|apply same_sym; apply (Sc c Hc E)].
  rewrite !(Rplus_comm (alpha / freq c)). apply same_plus. exact B.
Qed.

(** The best of a list, as the searches of the code find it *)
Lemma argmin (f : nat -> R) (step := fun '(m, k) i => match m with None => (Some (f i), i) | Some m' => if Rlt_dec (f i) m' then (Some (f i), i) else (m, k) end) :
  forall l m k, m = None \/ m = Some (f k) ->
  let r := fold_left step l (m, k) in
  (snd r = k \/ In (snd r) l) /\ (m = None -> l <> [] -> In (snd r) l) /\ (forall j, In j l -> f (snd r) <= f j) /\ (m <> None -> f (snd r) <= f k).
Proof.
  induction l as [|i l IH]; intros m k Hm; cbn [fold_left].
  - cbn. split; [now left|]. split; [contradiction|]. split; [contradiction | intros; lra].
  - destruct Hm as [-> | ->]; cbn [step].
    + destruct (IH (Some (f i)) i (or_intror eq_refl)) as (A & _ & C & D).
      specialize (D ltac:(discriminate)). cbn zeta. split; [right; destruct A as [A|A]; [left; now rewrite A | now right]|].
      split; [intros _ _; destruct A as [A|A]; [left; now rewrite A | now right]|]. split; [intros j [<-|Hj]; auto | intros H; now elim H].
    + destruct (Rlt_dec (f i) (f k)) as [L|L].
      * destruct (IH (Some (f i)) i (or_intror eq_refl)) as (A & _ & C & D). specialize (D ltac:(discriminate)).
        cbn zeta. split; [right; destruct A as [A|A]; [left; now rewrite A | now right]|]. split; [discriminate|].
        split; [intros j [<-|Hj]; auto | intros _; lra].
      * destruct (IH (Some (f k)) k (or_intror eq_refl)) as (A & _ & C & D). specialize (D ltac:(discriminate)).
        cbn zeta. split; [destruct A as [A|A]; [now left | right; now right]|]. split; [discriminate|].
        split; [intros j [<-|Hj]; [lra | auto] | intros _; exact D].
Qed.

Lemma brute1_best n cs lower upper : (0 < n)%nat -> (brute1_index n cs lower upper < n)%nat /\
  forall j, (j < n)%nat -> cost2 cs (grid n lower upper (brute1_index n cs lower upper)) (fit_beta cs (grid n lower upper (brute1_index n cs lower upper)) 0) <=
                    cost2 cs (grid n lower upper j) (fit_beta cs (grid n lower upper j) 0).
Proof.
  intros N. destruct (argmin (fun i => cost2 cs (grid n lower upper i) (fit_beta cs (grid n lower upper i) 0)) (seq 0 n) None 0%nat (or_introl eq_refl)) as (_ & A & B & _).
  assert (Z : seq 0 n <> []) by (destruct n; [lia | discriminate]). specialize (A eq_refl Z). apply in_seq in A. split; [apply A|].
  intros j Hj. apply B. apply in_seq. lia.
Qed.

Lemma brute2_index n cs lower upper beta : (0 < n)%nat -> (snd (brute2_state n cs lower upper beta) < n)%nat.
Proof.
  intros N. unfold brute2_state.
  match goal with |- context [fold_left ?f _ _] => set (step := f) end.
  assert (G : forall l m b k, (forall i, In i l -> (i < n)%nat) -> (k < n)%nat -> (snd (fold_left step l (m, b, k)) < n)%nat).
  { induction l as [|i l IH]; intros m b k Hl Hk; cbn [fold_left]; [exact Hk|].
    pose proof (Hl i (or_introl eq_refl)) as Hi. assert (Hl' : forall i, In i l -> (i < n)%nat) by (intros; apply Hl; now right).
    unfold step at 2. destruct m as [m|]; [destruct (Rlt_dec _ _)|]; apply IH; auto. }
  specialize (G (seq 0 n) None beta 0%nat). destruct (fold_left step (seq 0 n) (None, beta, 0%nat)) as [[m b] k]. cbn [snd] in *. apply G; [|exact N].
  intros i Hi. apply in_seq in Hi. lia.
Qed.

Lemma ternary1_range acc cs : forall fuel lower upper, lower <= upper -> let '(l, r) := ternary1_loop fuel acc cs lower upper in lower <= l <= upper /\ lower <= r <= upper.
Proof.
  induction fuel as [|fuel IH]; intros lower upper H; cbn [ternary1_loop]; [lra|].
  destruct (Rlt_dec acc _); [|lra]. destruct (Rlt_dec _ _).
  - specialize (IH lower (lower + (upper - lower) * (2 / 3)) ltac:(lra)). destruct (ternary1_loop _ _ _ _ _). lra.
  - specialize (IH (lower + (upper - lower) * (1 / 3)) upper ltac:(lra)). destruct (ternary1_loop _ _ _ _ _). lra.
Qed.

Lemma ternary2_range acc cs : forall fuel lower upper beta, lower <= upper -> let '(l, r, _) := ternary2_loop fuel acc cs lower upper beta in lower <= l <= upper /\ lower <= r <= upper.
Proof.
  induction fuel as [|fuel IH]; intros lower upper beta H; cbn [ternary2_loop]; [lra|].
  destruct (Rlt_dec acc _); [|lra]. destruct (Rlt_dec _ _).
  - specialize (IH lower (lower + (upper - lower) * (2 / 3)) (fit_beta cs (lower + (upper - lower) * (1 / 3)) beta) ltac:(lra)). destruct (ternary2_loop _ _ _ _ _ _) as [[a b] c]. lra.
  - specialize (IH (lower + (upper - lower) * (1 / 3)) upper (fit_beta cs (lower + (upper - lower) * (2 / 3)) beta) ltac:(lra)). destruct (ternary2_loop _ _ _ _ _ _) as [[a b] c]. lra.
Qed.

Lemma bracket_grid n lower upper i : (0 < n)%nat -> lower <= upper ->
  fst (bracket n lower upper i) = grid n lower upper i - (upper - lower) / INR n /\ snd (bracket n lower upper i) = grid n lower upper i + (upper - lower) / INR n.
Proof. intros N H. unfold bracket, grid. cbn [fst snd]. assert (INR n <> 0) by (apply not_0_INR; lia). split; field; assumption. Qed.

Lemma max_alpha_pos : 0 < max_alpha.
Proof. unfold max_alpha. lra. Qed.

Lemma parameters1_near n acc cs : (0 < n)%nat ->
  Rabs (parameters1 n acc cs - grid n (- max_alpha) max_alpha (brute1_index n cs (- max_alpha) max_alpha)) <= 2 * max_alpha / INR n.
Proof.
  intros N. unfold parameters1, brute1. pose proof max_alpha_pos as M. assert (I : 0 < INR n) by (apply lt_0_INR; lia).
  assert (P : 0 < 2 * max_alpha / INR n) by (apply Rdiv_lt_0_compat; lra).
  destruct (bracket_grid n (- max_alpha) max_alpha (brute1_index n cs (- max_alpha) max_alpha) N ltac:(lra)) as [A B].
  destruct (bracket n (- max_alpha) max_alpha (brute1_index n cs (- max_alpha) max_alpha)) as [lower upper]. cbn [fst snd] in A, B.
  replace (max_alpha - - max_alpha) with (2 * max_alpha) in A, B by ring.
  unfold ternary1. pose proof (ternary1_range acc cs 99 lower upper ltac:(lra)) as T. destruct (ternary1_loop 99 acc cs lower upper) as [l r].
  apply Rabs_le. lra.
Qed.

Lemma parameters2_near n acc cs beta : (0 < n)%nat -> exists i, (i < n)%nat /\ Rabs (fst (parameters2 n acc cs beta) - grid n (- max_alpha) max_alpha i) <= 2 * max_alpha / INR n.
Proof.
  intros N. unfold parameters2. pose proof (brute2_index n cs (- max_alpha) max_alpha beta N) as K.
  destruct (brute2_state n cs (- max_alpha) max_alpha beta) as [b k]. cbn [snd] in K. exists k. split; [exact K|].
  pose proof max_alpha_pos as M. assert (I : 0 < INR n) by (apply lt_0_INR; lia).
  assert (P : 0 < 2 * max_alpha / INR n) by (apply Rdiv_lt_0_compat; lra).
  destruct (bracket_grid n (- max_alpha) max_alpha k N ltac:(lra)) as [A B]. destruct (bracket n (- max_alpha) max_alpha k) as [lower upper]. cbn [fst snd] in A, B.
  replace (max_alpha - - max_alpha) with (2 * max_alpha) in A, B by ring.
  unfold ternary2. pose proof (ternary2_range acc cs 99 lower upper b ltac:(lra)) as T. destruct (ternary2_loop 99 acc cs lower upper b) as [[l r] b']. cbn [fst].
  apply Rabs_le. lra.
Qed.

Lemma scale_back c a : c <> 0 -> a / - c * c = - a.
Proof. intros. field. exact H. Qed.

Lemma scale_forth c a nu : c <> 0 -> - c * (a / - c) / nu = a / nu.
Proof. intros. unfold Rdiv. f_equal. field. exact H. Qed.

Lemma opp_tec : IZR (-8447972450) = - IZR 8447972450.
Proof. rewrite <- opp_IZR. reflexivity. Qed.

(** C104: the TEC that is fitted without offset is at most one step of the grid from the point of the grid that fits best, when each point may have an offset. *)
Theorem C104_grid n acc l : (0 < n)%nat ->
  exists i, (i < n)%nat /\
    Rabs (r_tec (apply_tec TecOnly n acc l) * 8447972450 + (- 40000000000 + INR i / INR n * 80000000000)) <= 80000000000 / INR n /\
    forall j, (j < n)%nat ->
      let offset k := fit_beta (channels l) (- 40000000000 + INR k / INR n * 80000000000) 0 in
      cost2 (channels l) (- 40000000000 + INR i / INR n * 80000000000) (offset i) <= cost2 (channels l) (- 40000000000 + INR j / INR n * 80000000000) (offset j).
Proof.
  intros N. pose proof (parameters1_near n acc (channels l) N) as P. destruct (brute1_best n (channels l) (- max_alpha) max_alpha N) as [I B].
  set (i := brute1_index n (channels l) (- max_alpha) max_alpha) in *. exists i. split; [exact I|].
  assert (G : forall k, grid n (- max_alpha) max_alpha k = - 40000000000 + INR k / INR n * 80000000000).
  { intros k. unfold grid, max_alpha. f_equal. f_equal. ring. }
  split.
  - cbn [apply_tec r_tec]. unfold alpha_to_tec. rewrite G in P. unfold max_alpha in P. rewrite Rabs_minus_sym in P.
    rewrite opp_tec, scale_back by lra. replace (2 * 40000000000) with 80000000000 in P by lra. rewrite Rplus_comm. exact P.
  - intros j Hj. cbn zeta. rewrite <- !G. now apply B.
Qed.

(** C104: the TEC is never outside of the range of the search by more than one step of the grid, whatever the solutions. *)
Theorem C104_range mode acc l : Rabs (r_tec (apply_tec mode 256 acc l)) <= 4.78.
Proof.
  assert (G : forall i alpha, (i < 256)%nat -> Rabs (alpha - grid 256 (- max_alpha) max_alpha i) <= 2 * max_alpha / INR 256 -> Rabs (alpha_to_tec alpha) <= 4.78).
  { intros i alpha Hi H. assert (E : INR 256 = 256) by (rewrite INR_IZR_INZ; reflexivity).
    assert (I0 : 0 <= INR i) by apply pos_INR. assert (I1 : INR i <= 255) by (replace 255 with (INR 255) by (rewrite INR_IZR_INZ; reflexivity); apply le_INR; lia).
    unfold grid, max_alpha in H. rewrite E in H. assert (H1 := Rle_abs (alpha - grid 256 (- max_alpha) max_alpha i)). assert (H2 := Rle_abs (- (alpha - grid 256 (- max_alpha) max_alpha i))). rewrite Rabs_Ropp in H2. unfold grid, max_alpha in H1, H2. rewrite E in H1, H2. unfold alpha_to_tec. apply Rabs_le. lra. }
  destruct mode; cbn [apply_tec].
  - cbn [r_tec]. apply (G (brute1_index 256 (channels l) (- max_alpha) max_alpha)); [apply brute1_best; lia | apply parameters1_near; lia].
  - destruct (parameters2_near 256 acc (channels l) 0 ltac:(lia)) as (i & Hi & H). destruct (parameters2 256 acc (channels l) 0) as [alpha beta]. cbn [r_tec fst] in *. now apply (G i).
Qed.

Lemma Forall2_map_same {X Y Z} (P : Y -> Z -> Prop) (f : X -> Y) (g : X -> Z) l : (forall x, In x l -> P (f x) (g x)) -> Forall2 P (map f l) (map g l).
Proof. induction l as [|x l IH]; intros H; cbn; constructor; [apply H; now left | apply IH; intros; apply H; now right]. Qed.

Lemma combine_map_same {X Y} (f : X -> Y) l : combine l (map f l) = map (fun x => (x, f x)) l.
Proof. induction l; cbn; congruence. Qed.

(** C104: the new solutions have the phases of the TEC and the offset that are reported for the antenna; without offset it is zero.  The reported error is the mean, with the weights, of the distances
    between the new and the old phases of the solutions that were finite, and the reported weight is the sum of their weights.  Solutions that are not finite have no effect on the error. *)
Theorem C104_solutions mode n acc l : (forall nu s w, In (nu, s, w) l -> 0 <= w) ->
  let r := apply_tec mode n acc l in
  Forall2 (fun '(nu, _, _) q => same_phase q (tec_phase (r_tec r) nu + r_phase r)) l (r_phases r) /\
  (mode = TecOnly -> r_phase r = 0) /\
  r_weight r = fold_right Rplus 0 (map (fun '(_, s, w) => match s with Some _ => w | None => 0 end) l) /\
  exists ds, Forall2 (fun '((_, s, w), q) '(d, v) => match s with Some p => phase_distance q p d /\ v = w | None => v = 0 end) (combine l (r_phases r)) ds /\
    weighted_mean ds (r_error r).
Proof.
  intros W.
  assert (WS : weight_sum l = fold_right Rplus 0 (map (fun '(_, s, w) => match s with Some _ => w | None => 0 end) l)).
  { unfold weight_sum. assert (G : forall t, fold_left (fun t '(_, s, w) => match s with Some _ => t + w | None => t end) l t = t + fold_right Rplus 0 (map (fun '(_, s, w) => match s with Some _ => w | None => 0 end) l)).
    { clear. induction l as [|[[nu s] w] l IH]; intros t; cbn [fold_left map fold_right]; [ring|]. rewrite IH. destruct s; ring. }
    rewrite G. ring. }
  assert (WC : forall c, In c (channels l) -> 0 <= weight c).
  { intros c Hc. apply in_map_iff in Hc. destruct Hc as ([[nu s] w] & <- & H). specialize (W _ _ _ H). destruct s; cbn; lra. }
  assert (G : forall est new alpha beta, (forall nu, same_phase (new nu) (est nu)) -> (forall nu, same_phase (new nu) (alpha / nu + beta)) ->
    let r := Fitted (alpha_to_tec alpha) beta (cost_of est (channels l)) (weight_sum l) (fill new (channels l)) in
    Forall2 (fun '(nu, _, _) q => same_phase q (tec_phase (r_tec r) nu + r_phase r)) l (r_phases r) /\
    r_weight r = fold_right Rplus 0 (map (fun '(_, s, w) => match s with Some _ => w | None => 0 end) l) /\
    exists ds, Forall2 (fun '((_, s, w), q) '(d, v) => match s with Some p => phase_distance q p d /\ v = w | None => v = 0 end) (combine l (r_phases r)) ds /\ weighted_mean ds (r_error r)).
  { intros est new alpha beta S1 S2. cbn zeta. cbn [r_tec r_phase r_error r_weight r_phases]. split; [|split; [exact WS|]].
    - unfold fill, channels. rewrite map_map. rewrite <- (map_id l) at 1. apply Forall2_map_same. intros [[nu s] w] _.
      replace (tec_phase (alpha_to_tec alpha) nu) with (alpha / nu) by (unfold tec_phase, alpha_to_tec; rewrite opp_tec, scale_forth by lra; reflexivity). destruct s; apply S2.
    - exists (map (fun c => (difference (est (freq c)) (phase c), weight c)) (channels l)). split; [|now apply cost_of_mean].
      unfold fill, channels. rewrite !map_map, combine_map_same. apply Forall2_map_same. intros [[nu s] w] _.
      destruct s as [p|]; cbn [freq phase weight]; [|reflexivity]. split; [|reflexivity].
      eapply distance_shift; [apply same_sym; apply S1 | apply difference_ok]. }
  destruct mode; cbn [apply_tec].
  - destruct (G (fun nu => tec1_wrapped nu (parameters1 n acc (channels l))) (fun nu => tec1_wrapped nu (parameters1 n acc (channels l))) (parameters1 n acc (channels l)) 0) as (A & B & C).
    + intros; apply same_refl.
    + intros nu. rewrite Rplus_0_r. apply same_fmod.
    + cbn zeta. split; [exact A|]. split; [reflexivity|]. split; [exact B | exact C].
  - destruct (parameters2 n acc (channels l) 0) as [alpha beta].
    destruct (G (fun nu => tec2_wrapped nu alpha beta) (fun nu => tec2_func nu alpha beta) alpha beta) as (A & B & C).
    + intros nu. apply same_sym. apply same_fmod.
    + intros nu. apply same_refl.
    + cbn zeta. split; [exact A|]. split; [discriminate|]. split; [exact B | exact C].
Qed.

(** C104, a finding: the sum of the weights is not set to zero between the three iterations that fit the offset, so that the second and third one are only a half and a third of the correction.
    With phases that are spread around half a turn the offset is not the mean phase: for 0.9, 0.9 and -0.9 times PI, of which the mean is 29/30 times PI, the fit stops at 67/90 times PI. *)
Theorem C104_offset_refuted : exists cs : list channel,
  (forall c, In c cs -> weight c = 1 /\ freq c = 1 /\ phase_distance (phase c) (29 / 30 * PI) (1 / 15 * PI) \/ weight c = 1 /\ freq c = 1 /\ phase_distance (phase c) (29 / 30 * PI) (2 / 15 * PI)) /\
  phase_distance (fit_beta cs 0 0) (29 / 30 * PI) (2 / 9 * PI).
Proof.
  pose proof PI_RGT_0 as P.
  exists [Channel 1 (9 / 10 * PI) 1; Channel 1 (9 / 10 * PI) 1; Channel 1 (- (9 / 10) * PI) 1]. split.
  - intros c [<-|[<-|[<-|[]]]]; cbn [weight freq phase]; [left | left | right]; (split; [reflexivity|]); (split; [reflexivity|]); (split; [lra|]).
    + right. exists 0%Z. lra.
    + right. exists 0%Z. lra.
    + left. exists (-1)%Z. lra.
  - assert (E : fit_beta [Channel 1 (9 / 10 * PI) 1; Channel 1 (9 / 10 * PI) 1; Channel 1 (- (9 / 10) * PI) 1] 0 0 = fmod (67 / 90 * PI) (2 * PI)).
    { unfold fit_beta. f_equal. rewrite beta_step_sum. cbn [map rsum fold_right weight freq phase]. unfold tec2_func.
      rewrite (wrap_unique (9 / 10 * PI - (0 / 1 + 0)) (9 / 10 * PI)) by ((exists 0%Z; lra) || lra).
      rewrite (wrap_unique (- (9 / 10) * PI - (0 / 1 + 0)) (- (9 / 10) * PI)) by ((exists 0%Z; lra) || lra).
      destruct (Req_EM_T _ 0) as [Z|_]; [lra|].
      match goal with |- context [(?w, ?b)] => replace b with (3 / 10 * PI) by field; replace w with 3 by ring end.
      rewrite beta_step_sum. cbn [map rsum fold_right weight freq phase]. unfold tec2_func.
      rewrite (wrap_unique (9 / 10 * PI - (0 / 1 + 3 / 10 * PI)) (6 / 10 * PI)) by ((exists 0%Z; lra) || lra).
      rewrite (wrap_unique (- (9 / 10) * PI - (0 / 1 + 3 / 10 * PI)) (8 / 10 * PI)) by ((exists 1%Z; lra) || lra).
      destruct (Req_EM_T _ 0) as [Z|_]; [lra|].
      match goal with |- context [(?w, ?b)] => replace b with (19 / 30 * PI) by field; replace w with 6 by ring end.
      rewrite beta_step_sum. cbn [map rsum fold_right weight freq phase snd]. unfold tec2_func.
      rewrite (wrap_unique (9 / 10 * PI - (0 / 1 + 19 / 30 * PI)) (8 / 30 * PI)) by ((exists 0%Z; lra) || lra).
      rewrite (wrap_unique (- (9 / 10) * PI - (0 / 1 + 19 / 30 * PI)) (14 / 30 * PI)) by ((exists 1%Z; lra) || lra).
      destruct (Req_EM_T _ 0) as [Z|_]; [lra|]. field. }
    rewrite E. apply (distance_shift (67 / 90 * PI)); [apply same_sym, same_fmod|]. split; [lra|]. right. exists 0%Z. lra.
Qed.

Lemma cost_no_weight est cs : (forall c, In c cs -> weight c = 0) -> cost_of est cs = 0.
Proof.
  intros W. rewrite cost_of_sum. destruct (Req_EM_T (rsum (map weight cs)) 0) as [_|N]; [reflexivity|]. exfalso. apply N.
  rewrite (rsum_ext _ (fun _ => 0 * 1)); [rewrite rsum_scale; ring|]. intros c Hc. rewrite W by exact Hc. ring.
Qed.

(** C104, a finding: an antenna without a single finite solution does not keep its solutions.  It gets the lowest alpha of the search, so that its solutions become finite, with the phases of 4.73 TEC units. *)
Theorem C104_no_data_refuted : exists l : list (R * option R * R),
  (forall nu s w, In (nu, s, w) l -> s = None) /\ l <> [] /\ forall n acc, (0 < n)%nat -> 0 <= acc -> r_tec (apply_tec TecOnly n acc l) = 40000000000 / 8447972450.
Proof.
  exists [(1, None, 1)]. split; [intros nu s w [[= <- <- <-]|[]]; reflexivity|]. split; [discriminate|]. intros n acc N A.
  cbn [apply_tec r_tec channels map]. set (cs := [Channel 1 0 0]).
  assert (Z : forall est, cost_of est cs = 0) by (intros est; apply cost_no_weight; intros c [<-|[]]; reflexivity).
  assert (I : brute1_index n cs (- max_alpha) max_alpha = 0%nat).
  { unfold brute1_index. destruct n as [|n]; [lia|]. cbn [seq fold_left]. generalize (seq 1 n).
    assert (Z2 : forall a b, cost2 cs a b = 0) by (intros; apply Z).
    rewrite Z2. induction l as [|i l IH]; [reflexivity|]. cbn [fold_left]. rewrite Z2.
    destruct (Rlt_dec 0 0) as [H|_]; [lra|]. exact IH. }
  assert (E : parameters1 n acc cs = - max_alpha).
  { unfold parameters1, brute1. rewrite I. destruct (bracket_grid n (- max_alpha) max_alpha 0 N) as [B C]; [pose proof max_alpha_pos; lra|].
    destruct (bracket n (- max_alpha) max_alpha 0) as [lower upper]. cbn [fst snd] in B, C. subst lower upper.
    assert (G0 : grid n (- max_alpha) max_alpha 0 = - max_alpha) by (unfold grid; cbn [INR]; unfold Rdiv; ring). rewrite G0.
    generalize ((max_alpha - - max_alpha) / INR n). intros h. unfold ternary1. set (f := 99%nat). assert (F : f = 99%nat) by reflexivity. clearbody f. destruct f as [|f]; [discriminate|]. clear F.
    cbn [ternary1_loop]. unfold cost1. rewrite !Z. rewrite Rminus_0_r, Rabs_R0. destruct (Rlt_dec acc 0) as [H|_]; [lra|]. field. }
  rewrite E. unfold alpha_to_tec, max_alpha. rewrite opp_tec. generalize 40000000000. intros m.
  assert (K : forall c, c <> 0 -> - m / - c = m / c) by (intros c Hc; field; exact Hc). apply K. lra.
Qed.

(** The phases of a TEC with an offset, with whole turns added *)
Example offset_example : let cs := [Channel 1 (PI / 2 + PI / 4) 1; Channel 2 (PI / 4 + PI / 4 - 2 * PI) 3] in
  same_phase (fit_beta cs (PI / 2) 0) (PI / 4) /\ cost2 cs (PI / 2) (fit_beta cs (PI / 2) 0) = 0.
Proof.
  pose proof PI_RGT_0 as P. apply C104_offset; cbn [In weight map fold_right freq phase].
  - intros c [<-|[<-|[]]]; cbn; lra.
  - lra.
  - intros c [<-|[<-|[]]] _; cbn [freq phase]; [exists 0%Z | exists (-1)%Z]; lra.
  - intros D. assert (D' : phase_distance 0 (PI / 4) (PI / 4)) by (split; [lra|]; right; exists 0%Z; lra).
    pose proof (distance_unique _ _ _ _ D D'). lra.
Qed.
Example solutions_example : forall mode n acc, let l := [(1, Some 1, 2); (2, None, 1)] in r_weight (apply_tec mode n acc l) = 2.
Proof.
  intros mode n acc l. destruct (C104_solutions mode n acc l) as (_ & _ & -> & _).
  - intros nu s w [[= <- <- <-]|[[= <- <- <-]|[]]]; lra.
  - cbn. ring.
Qed.
Example distance_example : phase_distance (3 * PI) (PI / 2) (PI / 2).
Proof. pose proof PI_RGT_0. split; [lra|]. left. exists 1%Z. lra. Qed.
Example mean_example : weighted_mean [(1, 2); (4, 1)] 2.
Proof. unfold weighted_mean. cbn. lra. Qed.

Print Assumptions C104_offset.
Print Assumptions C104_grid.
Print Assumptions C104_range.
Print Assumptions C104_solutions.
Print Assumptions C104_offset_refuted.
Print Assumptions C104_no_data_refuted.
