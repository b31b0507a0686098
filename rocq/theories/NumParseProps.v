(** Property C28: integers in parameter values. *)
From Coq Require Import List Bool Arith ZArith Ascii String Lia.
From Verif Require Import StrModel NumParseModel NumParseSpec NumParseProofs.
Import ListNotations.
Open Scope nat_scope.

(** Signed: a text that is not blank is accepted exactly if it denotes a number in range, and gives that number. *)
Theorem C28_signed : forall s f lo hi,
  In (f, (lo, hi)) [(str_to_long s, (- 2 ^ 63, 2 ^ 63 - 1)); (str_to_int64 s, (- 2 ^ 63, 2 ^ 63 - 1)); (str_to_int s, (- 2 ^ 31, 2 ^ 31 - 1));
     (str_to_int32 s, (- 2 ^ 31, 2 ^ 31 - 1)); (str_to_int16 s, (- 2 ^ 15, 2 ^ 15 - 1))]%Z ->
  ~ blank s -> forall z, f = Some z <-> text_denotes s z /\ (lo <= z <= hi)%Z.
Proof. intros s f lo hi H Hb z. rewrite (signed_iff s f lo hi H). tauto. Qed.
Print Assumptions C28_signed.

(** Unsigned: likewise, if there is no minus sign. *)
Theorem C28_unsigned : forall s f hi,
  In (f, hi) [(str_to_ulong s, 2 ^ 64 - 1); (str_to_uint64 s, 2 ^ 64 - 1); (str_to_uint s, 2 ^ 32 - 1); (str_to_uint32 s, 2 ^ 32 - 1); (str_to_uint16 s, 2 ^ 16 - 1)]%Z ->
  ~ blank s -> forall z, f = Some z <-> no_minus s /\ text_denotes s z /\ (z <= hi)%Z.
Proof. intros s f hi H Hb z. rewrite (unsigned_iff s f hi H). tauto. Qed.
Print Assumptions C28_unsigned.

(** A text denotes at most one number. *)
Theorem C28_unique : forall s z z', text_denotes s z -> text_denotes s z' -> z = z'.
Proof. exact text_denotes_unique. Qed.
Print Assumptions C28_unique.

Notation str x := (list_ascii_of_string x).

Example C28_case :
  text_denotes (str " -012 ") (-12) /\ ~ blank (str " -012 ") /\ str_to_int16 (str " -012 ") = Some (-12)%Z /\
  str_to_long (str "0x1F") = Some 31%Z /\ str_to_int16 (str "32768") = None /\ str_to_uint16 (str "65535") = Some 65535%Z /\
  str_to_uint (str "-1") = None /\ str_to_int (str "12a") = None /\ str_to_int (str "1 2") = None /\
  str_to_long (str "9223372036854775808") = None /\ str_to_ulong (str "9223372036854775808") = Some (2 ^ 63)%Z.
Proof.
  split.
  - exists (str " "), (str "-012"), (str " "). split; [reflexivity|]. split; [repeat constructor|]. split; [repeat constructor|].
    apply (den_minus (str "012") 12); [discriminate|].
    apply (pos_cons 10 dec_digit "0" 0 (str "12") 12); [reflexivity|].
    apply (pos_cons 10 dec_digit "1" 1 (str "2") 2); [reflexivity|].
    apply (pos_cons 10 dec_digit "2" 2 [] 0); [reflexivity|constructor].
  - split; [|vm_compute; repeat split].
    intros H. unfold blank in H. rewrite Forall_forall in H. specialize (H "0"%char ltac:(cbn; auto)). cbn in H. intuition discriminate.
Qed.

(** Finding: an empty or blank text is accepted and gives 0. *)
Theorem C28_blank_refuted : exists s, (forall z, ~ text_denotes s z) /\ str_to_int s = Some 0%Z /\ str_to_uint s = Some 0%Z.
Proof.
  exists (str " "). split; [|split; reflexivity]. intros z (a & t & b & E & _ & _ & Hd).
  destruct (denotes_parse_core t z Hd) as [_ (Hn & H0 & _)].
  destruct a as [|x a]; cbn in E.
  - destruct t as [|c t]; [congruence|]. cbn in E. injection E as <- _. discriminate.
  - injection E as _ E. symmetry in E. apply app_eq_nil in E as [_ E]. apply app_eq_nil in E as [E _]. contradiction.
Qed.
Print Assumptions C28_blank_refuted.
