(** Property C23: parameter files and command-line arguments. *)
From Coq Require Import List Bool Arith ZArith Ascii String Lia.
From Verif Require Import StrModel NumParseSpec SplitModel SplitSpec SplitProofs ParsetModel ParsetSpec ParsetProofs ReadModel ReadSpec ReadProofs.
Import ListNotations.
Open Scope nat_scope.

Notation str x := (list_ascii_of_string x).

(** A file of settings is accepted and gives them, in order. *)
Theorem C23_file : forall prefix lines bs, settings lines bs ->
  read_stream prefix lines = Some (map (fun b => (prefix ++ fst b, snd b)) bs).
Proof. exact read_stream_settings. Qed.
Print Assumptions C23_file.

(** Reading it into a set: the last setting of a key decides, other keys keep their value. *)
Theorem C23_last_wins : forall md (h : list (op (list ascii))) prefix lines bs, settings lines bs ->
  exists s', adopt_lines md prefix lines (exec _ md h) = Some s' /\ forall k v,
    gives md (pmap s') k v <-> last_setting md (map (fun b => (prefix ++ fst b, snd b)) bs) k v \/
      ((forall k1 v1, In (k1, v1) bs -> ~ same md (prefix ++ k1) k) /\ gives md (pmap (exec _ md h)) k v).
Proof. intros. apply adopt_lines_gives; auto. apply exec_sorted. Qed.
Print Assumptions C23_last_wins.

(** The same settings as command-line arguments give every key the same value.
    Partial: keys without blanks, quotes, '#' and '='; values without '#' and '=' outside quotes and
    not ending with a backslash (the refutations below show what happens otherwise). *)
Theorem C23_agree_partial : forall md (h : list (op (list ascii))) lines args bs, settings lines bs ->
  Forall2 (fun arg kv => exists w, arg = fst kv ++ "="%char :: w /\ trimmed w (snd kv)) args bs ->
  exists s', adopt_lines md [] lines (exec _ md h) = Some s' /\ forall k v,
    gives md (pmap s') k v <-> gives md (pmap (adopt_arguments md args (exec _ md h))) k v.
Proof.
  intros md h lines args bs Hs F. destruct (adopt_lines_gives md [] lines bs (exec _ md h) (exec_sorted md h) Hs) as (s' & E & G).
  exists s'. split; [exact E|]. intros k v. rewrite G. rewrite (adopt_arguments_gives md args bs); [|apply exec_sorted|].
  - cbn [app]. replace (map (fun b : list ascii * list ascii => (fst b, snd b)) bs) with bs; [reflexivity|].
    clear. induction bs as [|[x y] bs IH]; [reflexivity|]. cbn. now rewrite <- IH.
  - assert (K : Forall (fun kv => ~ In "="%char (fst kv)) bs).
    { clear -Hs. induction Hs as [|l ls bs Hl H IH|l k v ls bs Hl H IH]; auto. constructor; auto. cbn.
      destruct Hl as (a & b & w & c & _ & _ & _ & [_ Hk] & _). rewrite Forall_forall in Hk. intros X. destruct (Hk _ X) as [_ Y]. apply Y. cbn. auto. }
    clear -F K. induction F; constructor; apply Forall_cons_iff in K as [K1 K2]; auto.
Qed.
Print Assumptions C23_agree_partial.

(** A file with settings, comments and blank lines. *)
Example C23_case : settings [str "# head"; str " a.b = [1,'x=#'] # note"; []; str "c=2"; str "c=3 "] [(str "a.b", str "[1,'x=#']"); (str "c", str "2"); (str "c", str "3")] /\
  read_stream (str "p.") [str "# head"; str " a.b = [1,'x=#'] # note"; []; str "c=2"; str "c=3 "] = Some [(str "p.a.b", str "[1,'x=#']"); (str "p.c", str "2"); (str "p.c", str "3")].
Proof.
  split; [|reflexivity].
  apply set_skip; [right; exists [], (str " head"); split; [reflexivity|constructor]|].
  apply set_line.
  - exists (str " "), (str " "), (str " [1,'x=#'] "), (str "# note"). split; [reflexivity|]. split; [repeat constructor|]. split; [repeat constructor|].
    split; [split; [discriminate|repeat constructor; try (apply not_blank1; reflexivity); cbn; intuition discriminate]|].
    split; [|split; [apply trimmed_iff; reflexivity|right; eexists; reflexivity]].
    exists [plain " "; plain "["; plain "1"; plain ","; quoted "'" (str "x=#"); plain "]"; plain " "]. split; [repeat constructor; try discriminate; cbn; intuition discriminate|].
    split; [reflexivity|]. split; [repeat constructor; discriminate|]. intros w X. apply trimmed_iff in X. apply (f_equal (@rev _)) in X. rewrite rev_app_distr in X. vm_compute in X. discriminate.
  - apply set_skip; [left; constructor|].
    assert (L : forall c, In c ["2"; "3"]%char -> forall y, y = [] \/ y = [" "%char] -> setting_line (str "c=" ++ c :: y) (str "c") [c]).
    { intros c Hc y Hy. exists [], [], (c :: y), []. split; [rewrite app_nil_r; reflexivity|]. split; [constructor|]. split; [constructor|].
      split; [split; [discriminate|repeat constructor; try (apply not_blank1; reflexivity); cbn; intuition discriminate]|].
      assert (T : trim (c :: y) = [c]) by (destruct Hc as [<-|[<-|[]]], Hy as [->| ->]; reflexivity).
      split; [|split; [now apply trimmed_iff|auto]]. exists (map plain (c :: y)). rewrite text_plain.
      split; [destruct Hc as [<-|[<-|[]]], Hy as [->| ->]; repeat constructor; discriminate|]. split; [reflexivity|].
      split; [destruct Hc as [<-|[<-|[]]], Hy as [->| ->]; repeat constructor; discriminate|]. intros w X. apply trimmed_iff in X. rewrite T in X.
      destruct w as [|x [|? ?]]; [|discriminate|discriminate]. injection X as X. destruct Hc as [<-|[<-|[]]]; discriminate. }
    apply (set_line (str "c=2") (str "c") (str "2")); [apply (L "2"%char); cbn; auto|].
    apply (set_line (str "c=3 ") (str "c") (str "3")); [apply (L "3"%char); cbn; auto|constructor].
Qed.

(** Finding: a value containing '=' is read differently from a file: "sel=a=b" sets sel to nothing and
    defines a key "a"; as an argument it sets sel to "a=b". *)
Theorem C23_equals_refuted : exists k v, simple_key k /\
  adopt_arguments NORMAL [k ++ "="%char :: v] (empty _) = {| pmap := [(k, v)]; pasked := [] |} /\
  read_stream [] [k ++ "="%char :: v] = Some [(k, []); (str "a", str "b")].
Proof.
  exists (str "sel"), (str "a=b"). split; [|split; reflexivity].
  split; [discriminate|]. repeat constructor; try (apply not_blank1; reflexivity); cbn; intuition discriminate.
Qed.
Print Assumptions C23_equals_refuted.

(** Finding: with two '=' in a row the length of the key text wraps around and the key becomes the rest of
    the line: "sel=a==b" defines the keys sel, a and "=b". *)
Theorem C23_double_equals_refuted : exists line bs, read_stream [] [line] = Some bs /\ In (str "=b", str "b") bs /\
  line = str "sel=a==b".
Proof. exists (str "sel=a==b"), [(str "sel", []); (str "a", []); (str "=b", str "b")]. cbn. repeat split; auto. Qed.
Print Assumptions C23_double_equals_refuted.

(** Finding: text before the first setting ends up in the value of the first key; a line without '='
    is otherwise appended to the previous value. *)
Theorem C23_stray_text_refuted : read_stream [] [str "steps"; str "msin=x.ms"] = Some [(str "msin", str "steps x.ms")] /\
  read_stream [] [str "a=1"; str "steps"] = Some [(str "a", str "1 steps")].
Proof. split; reflexivity. Qed.
Print Assumptions C23_stray_text_refuted.

(** Finding: blanks before '=' belong to the key on the command line, not in a file. *)
Theorem C23_blank_refuted : read_stream [] [str "a =1"] = Some [(str "a", str "1")] /\
  pmap (adopt_arguments NORMAL [str "a =1"] (empty _)) = [(str "a ", str "1")].
Proof. split; reflexivity. Qed.
Print Assumptions C23_blank_refuted.
