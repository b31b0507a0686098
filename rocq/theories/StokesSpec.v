(** What it means to remove Stokes parameters. *)
From Coq Require Import List Bool Arith QArith Qcanon.
From Verif Require Import QcUtil AdderModel.
Import ListNotations.
Open Scope nat_scope.

(** A 2x2 visibility as four complex numbers, of one baseline and channel *)
Definition jones : Type := cplx * cplx * cplx * cplx.
(** Sum and difference of complex numbers *)
Definition plus (a b : cplx) : cplx := {| re := re a + re b; im := im a + im b |}%Qc.
Definition minus (a b : cplx) : cplx := {| re := re a - re b; im := im a - im b |}%Qc.
(** Stokes parameters for linear feeds, up to a factor (V without the factor -i) *)
Definition stokes_i (j : jones) : cplx := let '(xx, xy, yx, yy) := j in plus xx yy.
Definition stokes_q (j : jones) : cplx := let '(xx, xy, yx, yy) := j in minus xx yy.
Definition stokes_u (j : jones) : cplx := let '(xx, xy, yx, yy) := j in plus xy yx.
Definition stokes_v (j : jones) : cplx := let '(xx, xy, yx, yy) := j in minus xy yx.
Definition zero : cplx := {| re := 0; im := 0 |}%Qc.

(** The sample after removal of the chosen parameters *)
Definition removed (i q u v : bool) (before after : jones) : Prop :=
  stokes_i after = (if i then zero else stokes_i before) /\ stokes_q after = (if q then zero else stokes_q before) /\
  stokes_u after = (if u then zero else stokes_u before) /\ stokes_v after = (if v then zero else stokes_v before).
(** The visibilities of a buffer with four correlations *)
Definition flat (l : list jones) : list cplx := flat_map (fun '(a, b, c, d) => [a; b; c; d]) l.
(** The visibilities of a buffer with two correlations (xx and yy) *)
Definition flat2 (l : list (cplx * cplx)) : list cplx := flat_map (fun '(a, b) => [a; b]) l.
