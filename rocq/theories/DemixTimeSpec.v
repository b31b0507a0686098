(** What the bookkeeping of demixing promises. *)
From Coq Require Import List Arith.
From Verif Require Import DemixTimeModel.
Import ListNotations.

(** The k-th group of w of n time slots *)
Definition group (w n k : nat) : list nat := seq (k * w) (Nat.min w (n - k * w)).
(** The number of groups *)
Definition groups (w n : nat) : nat := (n + w - 1) / w.
(** The output is every group of the output averaging, in order.  If there are sources with a model, they are subtracted once, with the solution of the time and the factors of the time slots of the average *)
Definition expected_output (c : conf) (n : nat) : list cell :=
  map (fun k => Cell (group (n_sub c) n k) (if models c then [(k * n_sub c / n_avg c, group (n_sub c) n k)] else [])) (seq 0 (groups (n_sub c) n)).
(** There is a solution for every group of the averaging for solving, in order, from the data and the factors of these time slots *)
Definition expected_solutions (c : conf) (n : nat) : list (nat * list nat * list nat) :=
  if models c then map (fun k => (k, group (n_avg c) n k, group (n_avg c) n k)) (seq 0 (groups (n_avg c) n)) else [].
