(** Model of the sums that DDECal makes of the slots of its intervals: steps/DDECal.cc:299-321, 533-559 and 929-967.  Numbers are exact. *)
From Coq Require Import List Bool Arith QArith Qcanon.
From Verif Require Import QcUtil AverageModel GainModel.
Import ListNotations.
Open Scope nat_scope.

(** steps/DDECal.cc:269-271, 299: nChannelBlocks for the requested number of channels *)
Definition n_blocks (n_chan requested : nat) : nat := n_chan / (if (requested =? 0) || (n_chan <? requested) then n_chan else requested).
(** steps/DDECal.cc:307-312: channel_block_start_ *)
Definition block_starts (n_chan nb : nat) : list nat := 0 :: map (fun k => (k + 1) * n_chan / nb) (seq 0 nb).

(** steps/DDECal.h: weights_per_antenna_ and the two numbers of visibilities_in_interval_ *)
Record sums := Sums { weights : nat -> Qc; good : nat -> nat; total : nat -> nat }.
(** steps/DDECal.cc:944-954: one correlation, given as its weight and flag, of a baseline of (renumbered) antennas [a1] and [a2].  The indices are inside the vectors if the
    antennas are less than the number of antennas. *)
Definition sample (nb a1 a2 cb : nat) (acc : sums) (x : Qc * bool) : sums :=
  let w := if snd x then 0%Qc else fst x in
  let v := fun i => if i =? a1 * nb + cb then (weights acc i + w)%Qc else weights acc i in
  let v := fun i => if i =? a2 * nb + cb then (v i + w)%Qc else v i in
  Sums v (fun i => if i =? cb then good acc i + (if qltb 0 w then 1 else 0) else good acc i) (fun i => if i =? cb then S (total acc i) else total acc i).
(** steps/DDECal.cc:940-955: the channels of a baseline, from channel [ch] *)
Fixpoint walk (starts : list nat) (nb a1 a2 cb ch : nat) (chans : list (list (Qc * bool))) (acc : sums) : outcome sums :=
  match chans with
  | [] => Ok acc
  | c :: chans =>
      let! e := get starts (cb + 1) in
      let cb := if ch =? e then cb + 1 else cb in
      walk starts nb a1 a2 cb (S ch) chans (fold_left (sample nb a1 a2 cb) c acc)
  end.
(** steps/DDECal.cc:936-956: all baselines of a slot, each with its two antennas *)
Fixpoint baselines (starts : list nat) (nb : nat) (l : list (nat * nat * list (list (Qc * bool)))) (acc : sums) : outcome sums :=
  match l with
  | [] => Ok acc
  | (a1, a2, chans) :: l => let! acc := walk starts nb a1 a2 0 0 chans acc in baselines starts nb l acc
  end.
(** steps/DDECal.cc:929-963 *)
Definition add_slot (starts : list nat) (nb : nat) (factor : Qc) (acc : sums) (l : list (nat * nat * list (list (Qc * bool)))) : outcome sums :=
  let! acc := baselines starts nb l acc in
  Ok (Sums (fun i => (weights acc i * factor)%Qc) (good acc) (total acc)).
(** steps/DDECal.cc:958-960: weightFactor *)
Definition weight_factor (n_chan n_used solint : nat) : Qc := (1 / qn (n_chan * (n_used - 1) * 4 * solint))%Qc.
(** steps/DDECal.cc:823-826: at the start *)
Definition no_sums : sums := Sums (fun _ => 0%Qc) (fun _ => 0) (fun _ => 0).
(** steps/DDECal.cc:794-837: the slots that are held *)
Fixpoint add_slots (starts : list nat) (nb : nat) (factor : Qc) (acc : sums) (l : list (list (nat * nat * list (list (Qc * bool))))) : outcome sums :=
  match l with [] => Ok acc | x :: l => let! acc := add_slot starts nb factor acc x in add_slots starts nb factor acc l end.

(** steps/DDECal.cc:547-550: the flag of a sample in channel [ch] after flagChannelBlock *)
Definition flag_block (starts : list nat) (cb ch : nat) (f : bool) : outcome bool :=
  let! b := get starts cb in let! e := get starts (cb + 1) in Ok (f || ((b <=? ch) && (ch <? e))).
(** steps/DDECal.cc:553-559 (checkMinimumVisibilities): the flag of a sample in channel [ch], from channel block [cb] *)
Fixpoint check_from (starts : list nat) (acc : sums) (ratio : Qc) (ch cb n : nat) (f : bool) : outcome bool :=
  match n with
  | 0 => Ok f
  | S n => let! f := if qltb (qn (good acc cb) / qn (total acc cb)) ratio then flag_block starts cb ch f else Ok f in check_from starts acc ratio ch (S cb) n f
  end.
(** steps/DDECal.cc:553-559 *)
Definition check (starts : list nat) (nb : nat) (acc : sums) (ratio : Qc) (ch : nat) (f : bool) : outcome bool := check_from starts acc ratio ch 0 nb f.

(** steps/DDECal.cc:967: average_time_ *)
Definition add_time (average t : Qc) : Qc := (average + (average + t))%Qc.
(** steps/DDECal.cc:667: the time that is given to the solver *)
Definition solver_time (solint : nat) (times : list Qc) : Qc := (fold_left add_time times 0 / qn solint)%Qc.
