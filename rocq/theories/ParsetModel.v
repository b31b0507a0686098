(** Model of the key/value map of common/ParameterSetImpl.cc (75-125 makeSubset,
    subtractSubset; 154-189 adoptCollection, adoptArguments; 300-375 addMerge, findKV,
    add, replace, remove; 648-657 unusedKeys).

    The std::map is a list of bindings in the order of the key comparison
    (common/StringTools.h:43-69); the operations of std::map are written out on that list.
    Not modelled: the mutex.  Characters are compared as in the C locale. *)
From Coq Require Import List Bool Arith ZArith Ascii String.
From Verif Require Import StrModel.
Import ListNotations.
Open Scope nat_scope.

(** common/StringTools.h:46: the modes of Compare *)
Inductive mode := NORMAL | NOCASE.
(** common/ParameterSetImpl.h:37: std::string *)
Definition key := list ascii.

(** toupper, tolower in the C locale *)
(** common/StringTools.h:53-65 *)
Definition toupper (c : ascii) : ascii := if (97 <=? code c) && (code c <=? 122) then ascii_of_nat (code c - 32) else c.
(** common/ParameterSetImpl.cc:75, 109: boost::to_lower_copy *)
Definition tolower (c : ascii) : ascii := if (65 <=? code c) && (code c <=? 90) then ascii_of_nat (code c + 32) else c.
(** value of a (signed) char *)
(** common/StringTools.h:53-65: char is signed *)
Definition schar (c : ascii) : Z := let z := Z.of_nat (code c) in if (128 <=? z)%Z then (z - 256)%Z else z.

(** common/StringTools.h:53-65: std::string < compares unsigned characters; nocaseCompare
    compares the int results of toupper *)
Definition char_lt (m : mode) (a b : ascii) : bool :=
  match m with NORMAL => code a <? code b | NOCASE => (schar (toupper a) <? schar (toupper b))%Z end.
(** lexicographical_compare *)
(** common/StringTools.h:53-65 *)
Fixpoint less (m : mode) (a b : key) : bool :=
  match a, b with
  | _, [] => false
  | [], _ :: _ => true
  | x :: a', y :: b' => if char_lt m x y then true else if char_lt m y x then false else less m a' b'
  end.

(** boost::to_lower_copy *)
(** common/ParameterSetImpl.cc:73-84, 107-120: boost::to_lower_copy *)
Definition to_lower (k : key) : key := map tolower k.

(** k.compare(0, base.size(), base) == 0 *)
(** common/ParameterSetImpl.cc:81-84: equality of std::string *)
Fixpoint key_eqb (a b : key) : bool :=
  match a, b with
  | [], [] => true
  | x :: a', y :: b' => Ascii.eqb x y && key_eqb a' b'
  | _, _ => false
  end.
(** common/ParameterSetImpl.cc:81-84, 117-120: compare(0, base.size(), base) == 0 *)
Definition starts (k base : key) : bool := key_eqb (firstn (List.length base) k) base.

Section Map.
Variable V : Type.
Variable md : mode.
(** common/ParameterSetImpl.h:37: std::map with the compare functor; a list in order *)
Definition kvmap := list (key * V).

(** std::map::lower_bound: the bindings from the first key that is not less than [k];
    [below] are the bindings before it *)
Fixpoint lower_bound (k : key) (m : kvmap) : kvmap :=
  match m with
  | [] => []
  | (k0, v0) :: r => if less md k0 k then lower_bound k r else m
  end.
(** common/ParameterSetImpl.cc:80, 115: the bindings before lower_bound *)
Fixpoint below (k : key) (m : kvmap) : kvmap :=
  match m with
  | [] => []
  | (k0, v0) :: r => if less md k0 k then (k0, v0) :: below k r else []
  end.
(** std::map::find *)
Definition find (k : key) (m : kvmap) : option (key * V) :=
  match lower_bound k m with
  | [] => None
  | (k0, v0) :: _ => if less md k k0 then None else Some (k0, v0)
  end.
(** std::map::insert, with or without hint; the flag tells if the binding was inserted *)
Definition insert (k : key) (v : V) (m : kvmap) : kvmap * bool :=
  match find k m with
  | Some _ => (m, false)
  | None => (below k m ++ (k, v) :: lower_bound k m, true)
  end.
(** std::map::erase(key); the flag tells if a binding was removed *)
Definition erase (k : key) (m : kvmap) : kvmap * bool :=
  match find k m with
  | Some _ => (below k m ++ tl (lower_bound k m), true)
  | None => (m, false)
  end.
(** m[k] = v: keeps the key as it is stored *)
(** common/ParameterSetImpl.cc:159-177, 355-364 *)
Definition assign (k : key) (v : V) (m : kvmap) : kvmap :=
  match find k m with
  | Some (k0, _) => below k m ++ (k0, v) :: tl (lower_bound k m)
  | None => fst (insert k v m)
  end.

(** common/ParameterSetImpl.cc:80-91, 117-126: does the key match the (lower-cased) base? *)
Definition matches (base k : key) : bool :=
  match md with NOCASE => starts (to_lower k) base | NORMAL => starts k base end.
(** common/ParameterSetImpl.cc:73-75, 107-110 *)
Definition fold_base (base : key) : key := match md with NOCASE => to_lower base | NORMAL => base end.

(** common/ParameterSetImpl.cc:79-94: the scan of makeSubset; result: subset and keys asked *)
Fixpoint subset_scan (base prefix : key) (it : kvmap) (sub : kvmap) (asked : list key) : kvmap * list key :=
  match it with
  | [] => (sub, asked)
  | (k, v) :: r => if matches base k then subset_scan base prefix r (fst (insert (prefix ++ skipn (List.length base) k) v sub)) (k :: asked)
                   else (sub, asked)
  end.

(** common/ParameterSetImpl.cc:115-132: the loop of subtractSubset, on the bindings from the lower bound *)
Fixpoint subtract_scan (prefix : key) (it : kvmap) : kvmap :=
  match it with
  | [] => []
  | (k, v) :: r => if matches prefix k then subtract_scan prefix r else it
  end.

(** The parameter set: the map and the keys asked for (ParameterSetImpl.h:334) *)
Record pset := { pmap : kvmap; pasked : list key }.
(** common/ParameterSetImpl.cc:35-36: the constructor *)
Definition empty : pset := {| pmap := []; pasked := [] |}.
(** Not in the code: changing the map member (ParameterSetImpl.h:51) *)
Definition with_map (s : pset) (m : kvmap) : pset := {| pmap := m; pasked := pasked s |}.

(** common/ParameterSetImpl.cc:69-96 *)
Definition make_subset (base prefix : key) (s : pset) : kvmap * pset :=
  let b := fold_base base in
  let '(sub, asked) := subset_scan b prefix (lower_bound b (pmap s)) [] (pasked s) in
  (sub, {| pmap := pmap s; pasked := asked |}).
(** common/ParameterSetImpl.cc:103-132 *)
Definition subtract_subset (p : key) (s : pset) : pset :=
  let b := fold_base p in with_map s (below b (pmap s) ++ subtract_scan b (lower_bound b (pmap s))).
(** common/ParameterSetImpl.cc:159-177 (another collection; the bindings in its order) *)
Definition adopt_collection (c : kvmap) (prefix : key) (s : pset) : pset :=
  with_map s (fold_left (fun m kv => assign (prefix ++ fst kv) (snd kv) m) c (pmap s)).
(** common/ParameterSetImpl.cc:159-177 (itself) *)
Definition adopt_itself (prefix : key) (s : pset) : pset :=
  match prefix with [] => s | _ => adopt_collection (pmap s) prefix s end.
(** common/ParameterSetImpl.cc:305-312; the insertion cannot fail after the erase *)
Definition add_merge (k : key) (v : V) (s : pset) : pset := with_map s (fst (insert k v (fst (erase k (pmap s))))).
(** common/ParameterSetImpl.cc:339-350: throws if the key exists, leaving the set as it was *)
Definition add (k : key) (v : V) (s : pset) : pset := with_map s (fst (insert k v (pmap s))).
(** common/ParameterSetImpl.cc:355-364 *)
Definition replace (k : key) (v : V) (s : pset) : pset := with_map s (assign k v (pmap s)).
(** common/ParameterSetImpl.cc:369-373 *)
Definition remove (k : key) (s : pset) : pset := with_map s (fst (erase k (pmap s))).
(** common/ParameterSetImpl.cc:318-334 (findKV), used by all getters: value and new state *)
Definition find_kv (k : key) (s : pset) : option V * pset :=
  match find k (pmap s) with
  | None => (None, s)
  | Some (_, v) => (Some v, {| pmap := pmap s; pasked := k :: pasked s |})
  end.
(** common/ParameterSetImpl.h:167-169 *)
Definition is_defined (k : key) (s : pset) : bool := match find k (pmap s) with Some _ => true | None => false end.
(** common/ParameterSetImpl.cc:648-657 *)
Definition unused_keys (s : pset) : list key :=
  filter (fun k => negb (existsb (key_eqb k) (pasked s))) (map fst (pmap s)).

(** A history of calls. *)
(** common/ParameterSetImpl.h:51-330: the calls *)
Inductive op :=
| Add (k : key) (v : V) | Replace (k : key) (v : V) | Remove (k : key) | Merge (k : key) (v : V)
| Adopt (c : kvmap) (prefix : key) | AdoptItself (prefix : key)
| Subtract (p : key) | Subset (base prefix : key) | Get (k : key) | IsDefined (k : key).
(** common/ParameterSetImpl.cc:69-373: one call *)
Definition step (s : pset) (o : op) : pset :=
  match o with
  | Add k v => add k v s
  | Replace k v => replace k v s
  | Remove k => remove k s
  | Merge k v => add_merge k v s
  | Adopt c p => adopt_collection c p s
  | AdoptItself p => adopt_itself p s
  | Subtract p => subtract_subset p s
  | Subset b p => snd (make_subset b p s)
  | Get k => snd (find_kv k s)
  | IsDefined _ => s
  end.
(** Not in the code: a sequence of calls on a new set (ParameterSetImpl.cc:35-373) *)
Definition exec (h : list op) : pset := fold_left step h empty.
End Map.
Arguments pmap {V} _.
Arguments pasked {V} _.
