(** What an iteration of a gain solver is to compute: for every antenna and direction the solution that fits best if all other solutions stay as they are. *)
From Coq Require Import QArith Qcanon List Bool Arith ZArith.
From Verif Require Import QcUtil SolveDataModel SolveDataSpec Cplx.
Import ListNotations.
Open Scope nat_scope.

(** A channel block that fits [n_antennas] antennas and [n_sol] solutions for the directions: the solutions of the directions are numbered one after the other, and the
    first visibility has the first solution of every direction. *)
Definition fits_block (n_antennas : nat) (n_sol : list nat) (b : list (@visibility mat unit)) : Prop :=
  Forall (fun v => fst (vis_antennas v) < n_antennas /\ snd (vis_antennas v) < n_antennas /\ fst (vis_antennas v) <> snd (vis_antennas v) /\ length (vis_models v) = length n_sol /\
                   length (vis_solutions v) = length n_sol /\
                   forall d, d < length n_sol -> first_solution n_sol d <= nth d (vis_solutions v) 0 < first_solution n_sol d + nth d n_sol 0) b /\
  (exists v b', b = v :: b' /\ forall d, d < length n_sol -> nth d (vis_solutions v) 0 = first_solution n_sol d).

Section Fit.
(** The Jones matrix of an antenna, for every number of a solution *)
Variable jones : nat -> nat -> mat.
Variable n_directions : nat.
(** The measurement equation: what a source with model visibility M looks like *)
Definition seen (j1 m j2 : mat) : mat := mmul (mmul j1 m) (mherm j2).
Definition expected (v : @visibility mat unit) (d : nat) : mat :=
  let s := nth d (vis_solutions v) 0 in
  seen (jones (fst (vis_antennas v)) s) (nth d (vis_models v) mzero) (jones (snd (vis_antennas v)) s).
Definition msum (l : list mat) : mat := fold_right madd mzero l.
(** The data without what is expected of the other directions *)
Definition rest (v : @visibility mat unit) (d : nat) : mat :=
  msub (vis_data v) (msum (map (expected v) (filter (fun d' => negb (d' =? d)) (seq 0 n_directions)))).
(** The misfit of direction [d], for the visibilities with antenna [a] and solution [s], if this antenna has the solution [x] *)
Definition misfit_of (d a s : nat) (x : mat) (v : @visibility mat unit) : Qc :=
  let m := nth d (vis_models v) mzero in
  if nth d (vis_solutions v) 0 =? s then
    if fst (vis_antennas v) =? a then mnorm (msub (rest v d) (seen x m (jones (snd (vis_antennas v)) s)))
    else if snd (vis_antennas v) =? a then mnorm (msub (rest v d) (seen (jones (fst (vis_antennas v)) s) m x))
    else 0%Qc
  else 0%Qc.
Definition misfit (b : list (@visibility mat unit)) (d a s : nat) (x : mat) : Qc := qsum (map (misfit_of d a s x) b).
End Fit.
