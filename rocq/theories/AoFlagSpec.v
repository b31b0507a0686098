(** What a user may expect of the AOFlagger step, apart from how it works: the windows of time slots in which interference is looked for, and which visibilities are flagged *)
From Coq Require Import List Bool Arith.
From Verif Require Import AoFlagModel.
Import ListNotations.
Open Scope nat_scope.

(** The windows are a number [n] of time slots apart, and [2 * m] longer than that; the last one ends with the data ([total] time slots) *)
Definition is_window (n m total a b : nat) : Prop :=
  exists k, a = k * n /\ ((b = a + n + 2 * m /\ b <= total) \/ (b = total /\ a < total /\ total < a + n + 2 * m /\ (k = 0 \/ a + 2 * m <= total))).
(** Elements from [a] up to [b] *)
Definition slice {A} (a b : nat) (l : list A) : list A := firstn (b - a) (skipn a l).
(** The flags of all correlations of a visibility *)
Definition at_ {D T} (s : slot D T) (bl ch : nat) : option (list bool) := match nth_error (flags s) bl with Some r => nth_error r ch | None => None end.
(** Interference is found in a visibility, in one of the windows with that time slot *)
Definition found {D T} (n m : nat) (selected : nat -> bool) (detect : nat -> list (T * list D) -> nat -> nat -> bool) (l : list (slot D T)) (t bl ch : nat) : Prop :=
  selected bl = true /\ exists a b, is_window n m (length l) a b /\ a <= t < b /\
    detect bl (map (fun s => (time s, nth bl (data s) [])) (slice a b l)) (t - a) ch = true.
(** All correlations of a visibility have the same flag *)
Definition uniform {D T} (s : slot D T) : Prop := forall bl ch f, at_ s bl ch = Some f -> exists b, f = repeat b 4.
(** Whether a visibility exists and is not flagged in its first correlation *)
Definition open_ {D T} (s : slot D T) (bl ch : nat) : bool := match at_ s bl ch with Some f => negb (nth 0 f false) | None => false end.
(** In how many time slots a visibility is flagged afterwards but not before *)
Definition newly {D T} (before after : list (slot D T)) (bl ch : nat) : nat :=
  length (filter (fun p => open_ (fst p) bl ch && negb (open_ (snd p) bl ch)) (combine before after)).
