(** Model of how the solutions are applied to BDA model data: steps/BdaDdeCal.cc:316-348 (the channel blocks), 805-829 (subtraction), and
    ddecal/gain_solvers/BdaSolverBuffer.cc:206-272.  Numbers are exact; conversion to float is left out.  Assertions are not there, as in a release build. *)
From Coq Require Import List Bool Arith QArith Qcanon.
From Verif Require Import QcUtil Cplx AverageModel GainModel SubtractModel.
Import ListNotations.
Open Scope nat_scope.

(** steps/BdaDdeCal.cc:319-323: the number of channel blocks for the requested number of channels *)
Definition bda_n_blocks (n_chan requested : nat) : nat := if 0 <? requested then Nat.max (n_chan / requested) 1 else 1.
(** steps/BdaDdeCal.cc:338-347: the blocks from number [cb], [n] more *)
Fixpoint next_starts (n_chan nb : nat) (chan_width : Qc) (n cb start_index : nat) (start_freq : Qc) : list Qc :=
  match n with
  | 0 => []
  | S n =>
      let next_index := (cb + 1) * n_chan / nb in
      let next_freq := (start_freq + qn (next_index - start_index) * chan_width)%Qc in
      next_freq :: next_starts n_chan nb chan_width n (S cb) next_index next_freq
  end.
(** steps/BdaDdeCal.cc:316-348 (DetermineChannelBlocks), for the lower and upper edge of the band *)
Definition start_freqs (n_chan nb : nat) (min_freq max_freq : Qc) : list Qc :=
  min_freq :: next_starts n_chan nb ((max_freq - min_freq) / qn n_chan)%Qc nb 0 0 min_freq.

(** BdaSolverBuffer.cc:223: the first block from [b] of which the end is not below [freq]; there are no more than [fuel] ends *)
Fixpoint find_block (starts : list Qc) (freq : Qc) (fuel b : nat) : outcome nat :=
  let! e := get starts (b + 1) in
  if qltb e freq then match fuel with 0 => Undefined | S fuel => find_block starts freq fuel (S b) end else Ok b.
(** BdaSolverBuffer.cc:216-225: channel_blocks, from block [b] *)
Fixpoint channel_blocks (starts : list Qc) (b : nat) (freqs : list Qc) : outcome (list nat) :=
  match freqs with
  | [] => Ok []
  | f :: freqs => let! b := find_block starts f (length starts) b in let! l := channel_blocks starts b freqs in Ok (b :: l)
  end.
(** BdaSolverBuffer.cc:236-269: the channels of one direction *)
Fixpoint apply_channels (n_pol : nat) (sols : list (list cplx)) (i1 i2 : nat) (blocks : list nat) (ms : list mat) : outcome (list mat) :=
  match ms with
  | [] => Ok []
  | m :: ms =>
      match blocks with
      | [] => Undefined
      | b :: blocks =>
          let! s := get sols b in
          let! m := apply_solution n_pol s i1 i2 m in
          let! ms := apply_channels n_pol sols i1 i2 blocks ms in
          Ok (m :: ms)
      end
  end.
(** BdaSolverBuffer.cc:231-270: the directions of a row from [d] *)
Fixpoint apply_directions (n_pol n_dir : nat) (sols : list (list cplx)) (a1 a2 d : nat) (blocks : list nat) (l : list (list mat)) : outcome (list (list mat)) :=
  match l with
  | [] => Ok []
  | ms :: l =>
      let! ms := apply_channels n_pol sols (a1 * n_dir + d) (a2 * n_dir + d) blocks ms in
      let! l := apply_directions n_pol n_dir sols a1 a2 (S d) blocks l in
      Ok (ms :: l)
  end.
(** BdaSolverBuffer.cc:206-272 (ApplySolutions), for one row: its (renumbered) antennas, the frequencies of its baseline, its model data for every direction and channel *)
Definition apply_row (n_pol : nat) (starts : list Qc) (sols : list (list cplx)) (a1 a2 : nat) (freqs : list Qc) (l : list (list mat)) : outcome (list (list mat)) :=
  let! blocks := channel_blocks starts 0 freqs in apply_directions n_pol (length l) sols a1 a2 0 blocks l.
(** steps/BdaDdeCal.cc:816-818 *)
Fixpoint subtract_one (x m : list mat) : list mat := match x, m with x :: xs, m :: ms => msub x m :: subtract_one xs ms | _, _ => x end.
(** steps/BdaDdeCal.cc:805-820 (ProcessDone), for one row: the data and the model data of all directions *)
Definition subtract_row (x : list mat) (l : list (list mat)) : list mat := fold_left subtract_one l x.
