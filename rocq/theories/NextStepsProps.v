(** Properties of the steps for the model data. *)
From Coq Require Import String List.
From Verif Require Import NextStepsModel NextStepsSpec.
Import ListNotations.
Open Scope string_scope.

(** With regular data every direction, from columns, facets or patches, in this order, has the steps that the user asked for, in order, before its result is used *)
Theorem C79_regular lookup prefix columns facets directions i s :
  nth_error (map Column columns ++ map Facet facets ++ map (fun d => Patches (fst d) (snd d)) directions)%list i = Some s ->
  nth_error (regular_chains lookup prefix columns facets directions) i = Some (s, (asked lookup prefix s ++ ["result"])%list).
Proof.
  intros E. unfold regular_chains. rewrite (map_nth_error _ i _ E). f_equal. unfold add_result, regular_chain, set_model_next, asked, set_next, name_of.
  destruct s as [n|n|n o]; cbn [fst snd]; destruct (lookup (prefix ++ "modelnextsteps." ++ n)) as [l|] eqn:E1; rewrite ?E1;
    try (destruct l; reflexivity); destruct (lookup (prefix ++ "modelnextsteps")) as [l|]; try reflexivity; destruct l; reflexivity.
Qed.
Print Assumptions C79_regular.
Definition ex_lookup (k : string) : option (list string) :=
  if k =? "cal.modelnextsteps" then Some ["applybeam"] else if k =? "cal.modelnextsteps.COL" then Some ["uvwflagger"; "scaledata"]
  else if k =? "cal.modelnextsteps.CasA" then Some [] else None.
Example C79_example : regular_chains ex_lookup "cal." ["COL"] ["facet"] [("CasA", ["CasA_2"])] =
  [(Column "COL", ["uvwflagger"; "scaledata"; "result"]); (Facet "facet", ["applybeam"; "result"]); (Patches "CasA" ["CasA_2"], ["result"])].
Proof. reflexivity. Qed.

(** With BDA data these steps are made (for columns) but then dropped when the step for the result is set as next step; for patches they are not looked at: no direction ever has
    any of the steps that are asked for, without a warning *)
Theorem C79_bda_refuted : exists lookup prefix columns directions, asked lookup prefix (Column "COL") = ["scaledata"] /\ asked lookup prefix (Patches "CasA" []) = ["scaledata"] /\
  bda_chains lookup prefix columns directions = [(Column "COL", ["result"]); (Patches "CasA" [], ["result"])].
Proof.
  exists (fun k => if k =? "cal.modelnextsteps" then Some ["scaledata"] else None), "cal.", ["COL"], [("CasA", [])]. repeat split; reflexivity.
Qed.
Print Assumptions C79_bda_refuted.
(** This is so for all settings: the chains of BDA data do not depend on them *)
Theorem C79_bda_partial lookup prefix columns directions i s :
  nth_error (map Column columns ++ map (fun d => Patches (fst d) (snd d)) directions)%list i = Some s ->
  nth_error (bda_chains lookup prefix columns directions) i = Some (s, ["result"]).
Proof.
  intros E. unfold bda_chains. rewrite (map_nth_error _ i _ E). f_equal. destruct s as [n|n|n o]; cbn; try reflexivity. unfold set_next, set_model_next.
  now destruct (lookup match lookup (prefix ++ "modelnextsteps." ++ n) with Some _ => prefix ++ "modelnextsteps." ++ n | None => prefix ++ "modelnextsteps" end) as [[|x l]|].
Qed.
Print Assumptions C79_bda_partial.
