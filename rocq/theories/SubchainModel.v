(** Model of the constructor of steps/Split.cc: the parameters with which the chains of steps inside it are made. *)
From Coq Require Import Ascii String List Bool Arith.
From Verif Require Import StrModel SplitModel AverageModel CombineModel.
Import ListNotations.
Open Scope nat_scope.

(** common/ParameterSetImpl.h, a map of texts.  common/ParameterSet.cc:43-56: copies share the map. *)
Definition parset : Type := list (string * list ascii).

(** common/ParameterValue.cc:280-289 (getStringVector) of a parameter; an error without the parameter *)
Definition string_vector (p : parset) (key : string) : outcome (list (list ascii)) :=
  match lookup key p with
  | None => Throw
  | Some v => match get_vector v with
              | None => Throw
              | Some es => match opt_map get_string es with Some r => Ok r | None => Throw end
              end
  end.

(** steps/Split.cc:38-48: the values of all parameters; [first]: the number of values of the first one, if any *)
Fixpoint replace_values (p : parset) (keys : list string) (first : option nat) : outcome (list (list (list ascii))) :=
  match keys with
  | [] => Ok []
  | k :: r =>
      match string_vector p k with
      | Ok v =>
          let n := match first with Some n => n | None => List.length v end in
          if List.length v =? n then
            match replace_values p r (Some n) with Ok vs => Ok (v :: vs) | o => o end
          else Throw
      | Throw => Throw
      | Undefined => Undefined
      end
  end.

(** steps/Split.cc:61-63: the parameters get their values with number [i] *)
Definition replace_all (keys : list string) (values : list (list (list ascii))) (i : nat) (p : parset) : parset :=
  fold_left (fun p kv => put (fst kv) (nth i (snd kv) []) p) (combine keys values) p.
(** steps/Split.cc:60-70: the parameters of the chains, and those afterwards *)
Fixpoint chains (keys : list string) (values : list (list (list ascii))) (numbers : list nat) (p : parset) : list parset * parset :=
  match numbers with
  | [] => ([], p)
  | i :: r => let p' := replace_all keys values i p in let (l, q) := chains keys values r p' in (p' :: l, q)
  end.
(** steps/Split.cc:30-71; the second result is what the parameters of the caller are afterwards *)
Definition split_step (p : parset) (prefix : string) : outcome (list parset * parset) :=
  match string_vector p (prefix ++ "replaceparms")%string with
  | Ok names =>
      let keys := map string_of_list_ascii names in
      match replace_values p keys None with
      | Ok values =>
          let num_splits := match values with [] => 0 | v :: _ => List.length v end in
          Ok (chains keys values (seq 0 num_splits) p)
      | Throw => Throw
      | Undefined => Undefined
      end
  | Throw => Throw
  | Undefined => Undefined
  end.
