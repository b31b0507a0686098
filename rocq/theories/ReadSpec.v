(** Lines of a parameter file that hold one setting. *)
From Coq Require Import List Bool Arith Ascii String.
From Verif Require Import NumParseSpec SplitSpec ParsetModel ParsetSpec.
Import ListNotations.
Open Scope nat_scope.

(** A key as usually written: not empty, no blanks, quotes, '#' or '='. *)
Definition simple_key (k : list ascii) : Prop :=
  k <> [] /\ Forall (fun c => ~ blank [c] /\ ~ In c ["'"; """"; "#"; "="]%char) k.

(** A value text: quoted strings and other characters; outside quotes no '#' or '=';
    its last character is not a backslash. *)
Definition simple_value (v : list ascii) : Prop :=
  exists ts, Forall good_tok ts /\ text ts = v /\
    Forall (fun t => t <> plain "#" /\ t <> plain "=") ts /\
    (forall w, ~ trimmed v (w ++ ["\"%char])).

(** blanks key blanks = value, optionally followed by a comment *)
Definition setting_line (line k v : list ascii) : Prop :=
  exists a b w c, line = a ++ k ++ b ++ "="%char :: w ++ c /\ blank a /\ Forall (fun x => In x [" "; "009"]%char) b /\
    simple_key k /\ simple_value w /\ trimmed w v /\ (c = [] \/ exists c', c = "#"%char :: c').

(** a line without setting: blank or only comment *)
Definition no_setting (line : list ascii) : Prop :=
  blank line \/ exists a c, line = a ++ "#"%char :: c /\ blank a.

(** The settings of a file, in order. *)
Inductive settings : list (list ascii) -> list (list ascii * list ascii) -> Prop :=
| set_nil : settings [] []
| set_skip l ls bs : no_setting l -> settings ls bs -> settings (l :: ls) bs
| set_line l k v ls bs : setting_line l k v -> settings ls bs -> settings (l :: ls) ((k, v) :: bs).

(** The last of a list of settings decides. *)
Definition last_setting {V} (md : mode) (bs : list (key * V)) (k : key) (v : V) : Prop :=
  exists b1 k0 b2, bs = b1 ++ (k0, v) :: b2 /\ same md k0 k /\ forall k1 v1, In (k1, v1) b2 -> ~ same md k1 k.
