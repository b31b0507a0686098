(** What the users of the axes of the parameter database rely on: a cell is an
   interval, an axis is a row of cells. *)
From Coq Require Import Qcanon List Arith Bool.
Import ListNotations.
Open Scope Qc_scope.
Open Scope nat_scope.

(** The cells do not overlap, are in order and are not empty: the first one
   starts at lo or later. *)
Fixpoint ordered_after (lo : Qc) (l : list (Qc * Qc)) : Prop :=
  match l with
  | [] => True
  | (s, e) :: l' => (lo <= s)%Qc /\ (s < e)%Qc /\ ordered_after e l'
  end.

Definition ordered (l : list (Qc * Qc)) : Prop :=
  match l with [] => True | (s, e) :: l' => (s < e)%Qc /\ ordered_after e l' end.

(** The cells follow each other without a hole, from a to b. *)
Fixpoint tiles (a b : Qc) (l : list (Qc * Qc)) : Prop :=
  match l with
  | [] => a = b
  | (s, e) :: l' => s = a /\ (s < e)%Qc /\ tiles e b l'
  end.

(** They all have the width w. *)
Definition wide (w : Qc) (l : list (Qc * Qc)) : Prop :=
  forall s e, In (s, e) l -> (e - s)%Qc = w.

(** The point x is in the cell; a point on the border between two cells is in the
   right one (bias true) or in the left one. *)
Definition inside (bias : bool) (x : Qc) (c : Qc * Qc) : Prop :=
  if bias then (fst c <= x)%Qc /\ (x < snd c)%Qc else (fst c < x)%Qc /\ (x <= snd c)%Qc.

(** The cell is left of x. *)
Definition left_of (bias : bool) (x : Qc) (c : Qc * Qc) : Prop :=
  if bias then (snd c <= x)%Qc else (snd c < x)%Qc.

(** The open interval from s to e has points of the cell. *)
Definition meets (s e : Qc) (c : Qc * Qc) : Prop := (s < snd c)%Qc /\ (fst c < e)%Qc.

(** The part of a list with the indices from s up to e. *)
Definition slice {A} (s e : nat) (l : list A) : list A := firstn (e - s) (skipn s l).

(** m is the row of those elements of l that satisfy P, which are at the indices
   from k on. *)
Definition those {A} (P : A -> Prop) (l m : list A) (k : nat) : Prop :=
  exists before after,
    l = before ++ m ++ after /\ length before = k /\
    Forall P m /\ Forall (fun c => ~ P c) before /\ Forall (fun c => ~ P c) after.

(** The cells of an axis: at least one, and those of a regular axis follow each
   other and have one width. *)
Definition axis_cells (reg : bool) (l : list (Qc * Qc)) : Prop :=
  l <> [] /\ ordered l /\
  (reg = true -> exists a b w, tiles a b l /\ wide w l).

(** Each cell of r is the union of a row of factor cells of l; the last one is the
   union of the cells that are left. *)
Definition joined (factor : nat) (l r : list (Qc * Qc)) : Prop :=
  length l <= length r * factor < length l + factor /\
  forall i c, nth_error r i = Some c ->
    exists p q, nth_error l (i * factor) = Some p /\
                nth_error l (Nat.min (i * factor + factor) (length l) - 1) = Some q /\
                c = (fst p, snd q).

(** The cell of b on which a point is mapped: the cells before it are left of the
   point, and the point is not right of it, unless it is the last cell. *)
Definition mapped (b : list (Qc * Qc)) (x : Qc) (m : nat) : Prop :=
  m < length b /\
  (forall i c, i < m -> nth_error b i = Some c -> (snd c <= x)%Qc) /\
  (forall i c, m <= i -> nth_error b i = Some c -> (x < snd c)%Qc \/ m = length b - 1).

(** The borders of the rows of equal numbers of a list, the last one being its
   length. *)
Definition borders_of (mapping : list nat) (borders : list nat) : Prop :=
  (forall i j x y, i < j -> nth_error borders i = Some x -> nth_error borders j = Some y -> x < y) /\
  forall x, In x borders <->
    x = length mapping \/
    (0 < x < length mapping /\ nth_error mapping (x - 1) <> nth_error mapping x).

(** u, which is a row of cells without holes, has the cells of a at the indices
   from s1 up to e1, those of b from s2 up to e2, and nothing else but the hole
   between a and b. *)
Definition union_of (a b u : list (Qc * Qc)) (r1 r2 : nat * nat) : Prop :=
  (exists lo hi, tiles lo hi u) /\
  slice (fst r1) (snd r1) u = a /\ slice (fst r2) (snd r2) u = b /\
  snd r1 = fst r1 + length a /\ snd r2 = fst r2 + length b /\
  Nat.min (fst r1) (fst r2) = 0 /\ Nat.max (snd r1) (snd r2) = length u /\
  (forall c, In c u ->
     In c a \/ In c b \/
     c = (snd (last a c), fst (hd c b)) \/ c = (snd (last b c), fst (hd c a))).

(** Both a and b are rows of one row of cells without holes. *)
Definition fitting (a b : list (Qc * Qc)) : Prop :=
  exists lo hi u i j, tiles lo hi u /\
    slice i (i + length a) u = a /\ slice j (j + length b) u = b.
