(** C37, C38, C55, C56: superstations. *)
From Coq Require Import Ascii String List Bool Arith ZArith QArith Qcanon Permutation Lia.
From Verif Require Import QcUtil AverageModel AdderModel AdderSpec AdderProofs AdderData AdderNames.
Import ListNotations.
Open Scope nat_scope.

(** * C55: which stations *)
(** A station is a part exactly if the last of the patterns that match it is not negated; *)
Theorem C55_patterns m names patterns i : In i (matching_stations m names patterns) <->
  exists name, nth_error names i = Some name /\ selected m name (map sign patterns).
Proof. apply matching_spec. Qed.
Print Assumptions C55_patterns.
(** where patterns are negated exactly by a leading ! or ^ that is followed by more. *)
Theorem C55_negation p : (exists r, negative p r /\ sign p = (false, r)) \/ (sign p = (true, p) /\ forall r, ~ negative p r).
Proof. apply sign_spec. Qed.
Print Assumptions C55_negation.
Example C55_patterns_case : let m p n := String.eqb p "*" || String.eqb p n in
  matching_stations m ["A"; "B"; "C"; "D"]%string ["*"; "!B"; "^D"; "D"; "!"]%string = [0; 2; 3].
Proof. reflexivity. Qed.

Lemma apart_index l : apart l -> forall j k p, In p (nth j l []) -> In p (nth k l []) -> j = k.
Proof.
  induction l as [|a l IH]; cbn [apart]; intros H j k p Hj Hk; [destruct j; destruct Hj|]. destruct H as [H1 H2].
  assert (N : forall i, In p (nth i l []) -> In (nth i l []) l).
  { intros i Hi. destruct (Nat.lt_ge_cases i (length l)) as [L|L]; [now apply nth_In|]. rewrite nth_overflow in Hi by exact L. destruct Hi. }
  destruct j as [|j], k as [|k]; cbn in Hj, Hk; [reflexivity| | |f_equal; now apply (IH H2 j k p)]; exfalso.
  - apply (H1 (nth k l [])); [now apply N|now exists p].
  - apply (H1 (nth j l [])); [now apply N|now exists p].
Qed.

(** The step accepts a list of definitions with different names exactly if no name is that of an existing station and no
    station is in two of them; then it makes the ones that have stations, with different stations that all exist. *)
Theorem C55_definitions m names entries : NoDup (map fst entries) ->
  let made := kept m names entries in
  let ok := (forall n, In n (map fst entries) -> ~ In n names) /\ forall j k p, In p (nth j (map snd made) []) -> In p (nth k (map snd made) []) -> j = k in
  (ok /\ superstations m names entries = Ok made \/ ~ ok /\ superstations m names entries = Throw) /\
  (forall d, In d made <-> snd d <> [] /\ exists patterns, In (fst d, patterns) entries /\ snd d = matching_stations m names patterns) /\
  (forall d p, In d made -> In p (snd d) -> p < length names).
Proof.
  intros ND made ok. assert (HM : forall d, In d made <-> snd d <> [] /\ exists patterns, In (fst d, patterns) entries /\ snd d = matching_stations m names patterns).
  { intros [n l]. unfold made, kept. rewrite filter_In, in_map_iff. cbn [fst snd]. split.
    - intros [([n' ps] & [= <- <-] & I) X]. split; [intros E; rewrite E in X; discriminate|]. now exists ps.
    - intros [X (ps & I & ->)]. split; [now exists (n, ps)|]. destruct (matching_stations m names ps); [congruence|reflexivity]. }
  split; [|split; [exact HM|]].
  - unfold superstations. destruct (define_spec m names entries (repeat (-1)%Z (length names)) []) as [(D & A & B & _)|(D & X)].
    + split; [apply repeat_length|]. intros i Hi. rewrite (nth_error_nth (repeat (-1)%Z (length names)) i 0%Z (nth_error_repeat (-1)%Z Hi)). split; [lia|intros (d & [] & _)].
    + exact ND.
    + intros n _ [].
    + left. split; [|exact D]. split; [exact A|]. now apply apart_index.
    + right. split; [|exact D]. intros [K1 K2]. destruct X as [(n & X & Y)|[X|(d & e & [] & _)]]; [now apply (K1 n)|]. apply X. clear -K2.
      fold made. revert K2. generalize (map snd made). induction l as [|a l IH]; intros K; cbn; [exact I|]. split.
      * intros b Hb (p & P1 & P2). apply In_nth with (d := []) in Hb as (k & _ & <-). specialize (K 0 (S k) p P1 P2). discriminate.
      * apply IH. intros j k p P1 P2. specialize (K (S j) (S k) p P1 P2). now injection K.
  - intros d p Hd Hp. apply HM in Hd as (_ & ps & _ & E). rewrite E in Hp. apply matching_spec in Hp as (n & Hn & _). apply nth_error_Some. congruence.
Qed.
Print Assumptions C55_definitions.
Example C55_definitions_case : let m p n := String.eqb p n in
  superstations m ["A"; "B"; "C"]%string [("S", ["A"; "B"]); ("T", ["X"]); ("U", ["C"])]%string = Ok [("S", [0; 1]); ("U", [2])]%string /\
  superstations m ["A"; "B"; "C"]%string [("S", ["A"; "B"]); ("U", ["C"; "B"])]%string = Throw /\
  superstations m ["A"; "B"; "C"]%string [("B", ["A"])]%string = Throw.
Proof. split; [|split]; reflexivity. Qed.


(** Whatever the definitions, the stations have different names afterwards if they had before. *)
Theorem C55_names m names entries made : NoDup names -> superstations m names entries = Ok made -> NoDup (names ++ map fst made).
Proof.
  intros N. unfold superstations. generalize (repeat (-1)%Z (length names)). assert (H0 : NoDup (names ++ map fst (@nil (string * list nat)))) by now rewrite app_nil_r.
  revert H0. generalize (@nil (string * list nat)). induction entries as [|[name ps] r IH]; intros new H0 st H; cbn [define] in H.
  - now injection H as <-.
  - destruct (existsb (String.eqb name) names || existsb (String.eqb name) (map fst new)) eqn:E; [discriminate H|].
    apply orb_false_iff in E as [E1 E2].
    assert (K : forall l, existsb (String.eqb name) l = false -> ~ In name l).
    { intros l E I. assert (existsb (String.eqb name) l = true) by (apply existsb_exists; exists name; split; [exact I|apply String.eqb_refl]). congruence. }
    apply K in E1, E2. destruct (matching_stations m names ps) as [|p q]; [now apply (IH new H0 st)|].
    destruct (mark st (Z.of_nat (length new)) (p :: q)) as [st'|]; [|discriminate H].
    apply (IH (new ++ [(name, p :: q)])) in H; [exact H|]. rewrite map_app, app_assoc. cbn [map fst].
    apply Permutation_NoDup with (name :: names ++ map fst new); [apply Permutation_cons_append|].
    constructor; [|exact H0]. rewrite in_app_iff. tauto.
Qed.
Print Assumptions C55_names.
Example C55_names_case : let m p n := String.eqb p n in
  superstations m ["A"; "B"; "C"]%string [("S", ["A"]); ("S", ["B"])]%string = Throw /\
  superstations m ["A"; "B"; "C"]%string [("S", ["A"]); ("T", ["B"])]%string = Ok [("S", [0]); ("T", [1])]%string.
Proof. split; reflexivity. Qed.

(** * C37: which baselines *)
(** For all baselines, and superstations without stations in common: the original baselines come first, unchanged.  Every new
    baseline is between a superstation and, as its first antenna, a station outside it, an earlier superstation, or itself.  It
    consists, each once, of exactly the original baselines between the stations on both sides, conjugated exactly if they run in
    the other direction; one of a superstation with itself of the baselines among its stations that were asked for.  Every such
    new baseline that is not empty is made, and none twice. *)
Theorem C37_baselines c orig nold all bls buf :
  (forall i a b, nth_error orig i = Some (a, b) -> a < nold /\ b < nold) ->
  (forall k p, In p (nth k all []) -> p < nold) ->
  (forall j k p, In p (nth j all []) -> In p (nth k all []) -> j = k) ->
  form c orig [] nold all = (bls, buf) ->
  let E r := nth (length orig + r) (expand conjugated from (length orig) buf) [] in
  let other k x := x < nold /\ ~ In x (nth k all []) \/ nold <= x < nold + k in
  exists new, bls = orig ++ new /\ length new = length buf /\ NoDup new /\
    (forall r x s, nth_error new r = Some (x, s) -> exists k, k < length all /\ s = nold + k /\ NoDup (E r) /\ E r <> [] /\
      (other k x /\ (forall u, In u (E r) <-> link orig (stands nold all x) (nth k all []) u) \/
       x = s /\ forall u, In u (E r) <-> inside (make_auto c) (sum_auto c) orig (nth k all []) u)) /\
    (forall k x u, k < length all -> other k x -> link orig (stands nold all x) (nth k all []) u -> In (x, nold + k) new) /\
    (forall k u, k < length all -> inside (make_auto c) (sum_auto c) orig (nth k all []) u -> In (nold + k, nold + k) new).
Proof.
  intros HO HP HD F E other.
  assert (I0 : inv c orig nold all 0 orig []).
  { exists []. split; [now rewrite app_nil_r|]. split; [reflexivity|]. split; [constructor|]. split; [intros r x s X; destruct r; discriminate|]. intros k x u X. lia. }
  destruct (form_inv c orig nold all HO HP HD all 0 orig [] bls buf I0) as (new & N1 & N2 & N3 & N4 & N5); [reflexivity|reflexivity|rewrite Nat.add_0_r; exact F|].
  exists new. split; [exact N1|]. split; [exact N2|]. split; [exact N3|]. split; [|split].
  - intros r x s X. destruct (N4 r x s X) as (k & Hk & Hs & Hp & (u0 & U0) & ND & HU). exists k. split; [exact Hk|]. split; [exact Hs|]. split; [exact ND|].
    split; [intros Z; apply HU in U0; unfold E in Z; rewrite Z in U0; destruct U0|].
    unfold spec_of in HU. destruct (Nat.eqb_spec x (nold + k)) as [Ex|Nx].
    + right. split; [lia|exact HU].
    + left. split; [|exact HU]. destruct Hp as [Hp|Hp]; [now left|right; lia].
  - intros k x u Hk Ho L. apply (N5 k x u Hk).
    + destruct Ho as [Ho|Ho]; [now left|right; lia].
    + unfold spec_of. destruct (Nat.eqb_spec x (nold + k)); [|exact L]. exfalso. destruct Ho as [[Ho _]|Ho]; lia.
  - intros k u Hk L. apply (N5 k (nold + k) u Hk); [right; lia|]. unfold spec_of. now rewrite Nat.eqb_refl.
Qed.
Print Assumptions C37_baselines.
Definition auto_settings : settings := {| make_auto := true; sum_auto := true; average := true; use_weight := true; min_points := 1 |}.
Example C37_baselines_case :
  let orig := [(0, 0); (0, 1); (0, 2); (2, 1); (3, 0); (1, 3)] in
  form auto_settings orig [] 4 [[0; 1]; [2]] =
    (orig ++ [(4, 4); (2, 4); (3, 4); (0, 5); (1, 5); (4, 5)], [[1]; [-3; 4]; [5; -6]; [3]; [-4]; [-8]]%Z) /\
  expand conjugated from 6 [[1]; [-3; 4]; [5; -6]; [3]; [-4]; [-8]]%Z =
    map (fun i => [(i, false)]) (seq 0 6) ++
    [[(0, false)]; [(2, true); (3, false)]; [(4, false); (5, true)]; [(2, false)]; [(3, true)]; [(2, false); (3, true)]].
Proof. split; reflexivity. Qed.

(** * C38: values *)
(** Existing rows are passed unchanged. *)
Theorem C38_existing c nrcc calc rows buf : let out := process c nrcc calc rows buf in
  length out = length rows + length buf /\ firstn (length rows) out = rows.
Proof. apply process_length. Qed.
Print Assumptions C38_existing.

(** Sample [k] of the new row [i], for all settings, in terms of the rows of the output that it is made of: flagged exactly if the
    weight of the unflagged ones is zero or there are fewer than minpoints; then the value is made of all of them, else of the
    unflagged ones.  The weight is the sum of their weights, the value the weighted sum, divided by the weight for averages.
    The imaginary parts of conjugated ones are negated. *)
Theorem C38_value c nrcc calc rows buf i zs k : nth_error buf i = Some zs -> (forall z, In z zs -> from z < length rows + i) -> k < nrcc ->
  let out := process c nrcc calc rows buf in
  let sample_of r := nth k (samples (nth r out no_row)) no_sample in
  let s := sample_of (length rows + i) in
  let w z := if use_weight c then weight (sample_of (from z)) else 1%Qc in
  let ok := filter (fun z => negb (flagged (sample_of (from z)))) zs in
  let total l := qsum (map w l) in
  let scaled l x := if average c then (x / total l)%Qc else x in
  (flagged s = true <-> total ok = 0%Qc \/ length ok < min_points c) /\
  let l := if flagged s then zs else ok in
  weight s = total l /\
  re (data s) = scaled l (qsum (map (fun z => re (data (sample_of (from z))) * w z)%Qc l)) /\
  im (data s) = scaled l (qsum (map (fun z => (if conjugated z then Qcopp (im (data (sample_of (from z)))) else im (data (sample_of (from z)))) * w z)%Qc l)).
Proof.
  intros E HZ Hk out sample_of s w ok total scaled.
  pose proof (process_row c nrcc calc rows buf i zs E) as R. cbv zeta in R. fold out in R.
  assert (Es : s = new_sample c (firstn (length rows + i) out) zs k).
  { unfold s, sample_of. rewrite (nth_error_nth _ _ _ R). cbn [samples]. apply nth_error_nth. rewrite nth_error_map, (nth_error_nth' _ 0) by now rewrite seq_length.
    rewrite seq_nth by exact Hk. reflexivity. }
  pose proof (new_sample_spec c (firstn (length rows + i) out) zs k) as S. cbv zeta in S. rewrite <- Es, constituents_firstn in S by exact HZ.
  assert (G : good (constituents out zs k) = map (fun z => (conjugated z, sample_of (from z))) ok).
  { unfold good, constituents, ok. clear. induction zs as [|z zs IH]; [reflexivity|]. cbn [map filter snd]. fold (sample_of (from z)). rewrite IH.
    destruct (flagged (sample_of (from z))); reflexivity. }
  assert (A : constituents out zs k = map (fun z => (conjugated z, sample_of (from z))) zs) by reflexivity.
  assert (WL : forall l, wsum_of c (map (fun z => (conjugated z, sample_of (from z))) l) = total l) by (intros l; unfold wsum_of; rewrite map_map; reflexivity).
  assert (DL : forall imag l, dsum_of c imag (map (fun z => (conjugated z, sample_of (from z))) l) =
     qsum (map (fun z => (signed imag (conjugated z) (cpart imag (data (sample_of (from z)))) * w z)%Qc) l)) by (intros; unfold dsum_of; rewrite map_map; reflexivity).
  rewrite G, A, !WL, map_length in S. destruct S as (S1 & S2 & S3). split; [exact S1|]. cbv zeta.
  assert (SC : forall l x, (x * (if average c then / total l else 1))%Qc = scaled l x) by (intros l x; unfold scaled; destruct (average c); [reflexivity|ring]).
  destruct (flagged s) eqn:Fs.
  - destruct (S3 eq_refl) as [W D]. split; [exact W|]. split.
    + specialize (D false). rewrite DL, SC in D. exact D.
    + specialize (D true). rewrite DL, SC in D. exact D.
  - destruct (S2 eq_refl) as [W D]. split; [exact W|]. split.
    + specialize (D false). rewrite DL, SC in D. exact D.
    + specialize (D true). rewrite DL, SC in D. exact D.
Qed.
Print Assumptions C38_value.

(** The coordinates of a new row: for averages with unflagged samples the mean over all of those, of the coordinates of their rows
    with the sign changed for conjugated ones; otherwise the calculated ones of the two antennas. *)
Theorem C38_uvw c nrcc calc rows buf i zs ui : nth_error buf i = Some zs -> (forall z, In z zs -> from z < length rows + i) -> ui < 3 ->
  let out := process c nrcc calc rows buf in
  let total z := qsum (map (fun k => let s := nth k (samples (nth (from z) out no_row)) no_sample in
                                     if flagged s then 0%Qc else if use_weight c then weight s else 1%Qc) (seq 0 nrcc)) in
  let coordinate z := let x := nth ui (uvw (nth (from z) out no_row)) 0%Qc in if conjugated z then Qcopp x else x in
  let W := qsum (map total zs) in
  nth ui (uvw (nth (length rows + i) out no_row)) 0%Qc =
  if average c && negb (Qc_eq_bool W 0) then (qsum (map (fun z => coordinate z * total z)%Qc zs) / W)%Qc else calc (length rows + i) ui.
Proof.
  intros E HZ Hu out total coordinate W.
  pose proof (process_row c nrcc calc rows buf i zs E) as R. cbv zeta in R. fold out in R.
  rewrite (nth_error_nth _ _ _ R). cbn [uvw]. rewrite uvw_firstn by assumption. rewrite new_uvw_spec by exact Hu. reflexivity.
Qed.
Print Assumptions C38_uvw.

Definition one (w : nat) (r i : nat) (f : bool) (u : nat) : row :=
  {| samples := [{| data := {| re := qn r; im := qn i |}; weight := qn w; flagged := f |}]; uvw := [qn u; 0; 0]%Qc |}.
Definition shown (x : row) : list (Q * Q * Q * bool) * list Q :=
  (map (fun s => (this (re (data s)), this (im (data s)), this (weight s), flagged s)) (samples x), map this (uvw x)).
Example C38_case :
  let rows := [one 1 4 2 false 3; one 3 8 1 false 7; one 2 5 5 true 1] in
  shown (nth 3 (process auto_settings 1 (fun _ _ => 0%Qc) rows [[1; -2; 3]]%Z) no_row) = ([(7, -1 # 4, 4, false)], [-9 # 2; 0; 0])%Q.
Proof. vm_compute. reflexivity. Qed.

(** * C56: in terms of the original data *)
(** Averages with weights and minpoints at most one: every new row, also one between two superstations, holds the weighted mean of
    the unflagged samples of all original baselines behind it, and is flagged exactly if their weight is zero. *)
Theorem C56_original_data_partial c nrcc calc rows buf r k :
  average c = true -> use_weight c = true -> min_points c <= 1 ->
  (forall r k, let s := nth k (samples (nth r rows no_row)) no_sample in flagged s = false -> (0 <= weight s)%Qc) ->
  length rows <= r < length rows + length buf -> k < nrcc ->
  let E := nth r (expand conjugated from (length rows) buf) [] in
  let sample_of r := nth k (samples (nth r rows no_row)) no_sample in
  let ok := filter (fun u : use => negb (flagged (sample_of (fst u)))) E in
  let W := qsum (map (fun u : use => weight (sample_of (fst u))) ok) in
  let s := nth k (samples (nth r (process c nrcc calc rows buf) no_row)) no_sample in
  (flagged s = true <-> W = 0%Qc) /\
  (flagged s = false -> weight s = W /\
    re (data s) = (qsum (map (fun u : use => re (data (sample_of (fst u))) * weight (sample_of (fst u)))%Qc ok) / W)%Qc /\
    im (data s) = (qsum (map (fun u : use => (if snd u then Qcopp (im (data (sample_of (fst u)))) else im (data (sample_of (fst u)))) * weight (sample_of (fst u)))%Qc ok) / W)%Qc).
Proof.
  intros Ha Hw Hm HP Hr Hk E sample_of ok W s.
  assert (HP' : forall r k, (0 <= den (at_row rows r k))%Qc).
  { intros r' k'. unfold den. destruct (flagged (at_row rows r' k')) eqn:F; [apply Qcle_refl|]. apply (HP r' k'). exact F. }
  pose proof (process_inv c Ha Hw Hm nrcc calc rows HP' buf rows _ (start_inv c Ha Hw Hm nrcc calc rows HP')) as (_ & _ & H).
  fold (expand conjugated from (length rows) buf) in H. destruct (process_length c nrcc calc buf rows) as [L _].
  specialize (H r k Hk ltac:(rewrite L; lia)). fold E in H. fold s in H. change (at_row (process c nrcc calc rows buf) r k) with s in H. destruct H as (H1 & H2 & H3). specialize (H3 ltac:(lia)).
  assert (EW : dens rows E k = W).
  { unfold dens, W, ok. rewrite filter_sum. apply qsum_map_ext. intros u _. unfold den, at_row. fold (sample_of (fst u)). destruct (flagged (sample_of (fst u))); reflexivity. }
  rewrite EW in H1. rewrite H1 in H3. split; [exact H3|]. intros F. unfold den in H1. rewrite F in H1.
  assert (NW : W <> 0%Qc) by (intros Z; apply H3 in Z; congruence). split; [exact H1|].
  assert (EN : forall imag, nums imag rows E k = qsum (map (fun u : use => signed imag (snd u) (cpart imag (data (sample_of (fst u)))) * weight (sample_of (fst u)))%Qc ok)).
  { intros imag. unfold nums, ok. rewrite filter_sum. apply qsum_map_ext. intros u _. unfold num, at_row. fold (sample_of (fst u)).
    destruct (flagged (sample_of (fst u))); cbn [negb]; [apply signed_0|symmetry; apply signed_mult]. }
  assert (HD : forall imag, cpart imag (data s) = (nums imag rows E k / W)%Qc).
  { intros imag. specialize (H2 imag). unfold num in H2. rewrite F, H1 in H2. rewrite <- H2. field. exact NW. }
  split; [specialize (HD false)|specialize (HD true)]; rewrite EN in HD; exact HD.
Qed.
Print Assumptions C56_original_data_partial.
Example C56_case :
  let orig := [(0, 2); (1, 2); (3, 0); (1, 3)] in
  let rows := [one 1 4 2 false 0; one 3 8 1 false 0; one 2 5 5 true 0; one 4 2 3 false 0] in
  form auto_settings orig [] 4 [[0; 1]; [2; 3]] = (orig ++ [(2, 4); (3, 4); (0, 5); (1, 5); (4, 5)], [[-1; -2]; [3; -4]; [1; -3]; [2; 4]; [-5; -6]]%Z) /\
  fst (shown (nth 8 (process auto_settings 1 (fun _ _ => 0%Qc) rows [[-1; -2]; [3; -4]; [1; -3]; [2; 4]; [-5; -6]]%Z) no_row)) =
  [(9 # 2, 17 # 8, 8, false)]%Q.
Proof. split; [reflexivity|]. vm_compute. reflexivity. Qed.

(** Missing: without averaging, the rows of a superstation already are weighted sums; between two superstations they are multiplied
    with the weights again. *)
Definition sum_settings : settings := {| make_auto := false; sum_auto := true; average := false; use_weight := true; min_points := 1 |}.
Theorem C56_summed_twice_refuted : exists orig rows bls buf, form sum_settings orig [] 2 [[0]; [1]] = (bls, buf) /\
  nth_error bls 3 = Some (2, 3) /\ nth 3 (expand conjugated from 1 buf) [] = [(0, false)] /\
  let s0 := nth 0 (samples (nth 0 rows no_row)) no_sample in
  let s := nth 0 (samples (nth 3 (process sum_settings 1 (fun _ _ => 0%Qc) rows buf) no_row)) no_sample in
  flagged s0 = false /\ flagged s = false /\ re (data s) <> (re (data s0) * weight s0)%Qc.
Proof.
  exists [(0, 1)], [one 2 1 0 false 0], [(0, 1); (1, 2); (0, 3); (2, 3)], [[-1]; [1]; [-2]]%Z.
  split; [reflexivity|]. split; [reflexivity|]. split; [reflexivity|]. split; [reflexivity|]. split; [vm_compute; reflexivity|].
  intros H. apply (f_equal (fun x => Qc_eq_bool x (qn 4))) in H. vm_compute in H. discriminate.
Qed.
Print Assumptions C56_summed_twice_refuted.
