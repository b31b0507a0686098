(** Model of steps/Upsample.cc (updateuvw off; with it on, the uvw coordinates of
    each output slot are a function of its time, Upsample.cc:77-87). *)
From Coq Require Import QArith Qcanon List Bool Arith.
From Verif Require Import QcUtil AverageModel.
Import ListNotations.
Open Scope Qc_scope.

Section Upsample.
Variable P : Type.         (* data, flags, weights and uvw of a time slot *)

(** base/DPBuffer.h: a time slot; [u_flagged]: all its flags are set. *)
Record ubuf := MkUbuf { u_time : Qc; u_exposure : Qc; u_flagged : bool; u_payload : P }.

Variables (ts : nat) (dt : Qc).     (* time_step_, output time interval *)

(** casacore::nearAbs *)
Definition near_abs (a b tol : Qc) : bool := qleb (b - a) tol && qleb (a - b) tol.

(** Upsample.cc:91-106: the output slots made from one input slot. *)
Definition pieces (b : ubuf) : list ubuf :=
  let time0 := u_time b - half * dt * qn ts in
  map (fun i => MkUbuf (time0 + dt * (qn i + half)) (u_exposure b / qn ts) (u_flagged b) (u_payload b)) (seq 0 ts).

(** Upsample.cc:128-137: do the times of two slots coincide? *)
Definition same_time (p b : ubuf) : bool := near_abs (u_time p) (u_time b) (Q2Qc (2 # 5) * dt).

(** Upsample.cc:128-134: advance in the current slots; [None]: read beyond the
    end of the vector. *)
Fixpoint advance (fuel : nat) (cur : list ubuf) (p : ubuf) (c : nat) : option nat :=
  match nth_error cur c with
  | None => None
  | Some b =>
    if qltb (u_time b) (u_time p) && negb (same_time p b)
    then match fuel with O => None | S fuel' => advance fuel' cur p (S c) end
    else Some c
  end.

(** Upsample.cc:122-154: flush the previous slots [prevs] (from index
    first_to_flush_ on); [f] is first_to_flush_, [c] is curIndex. *)
Fixpoint flush (prevs cur : list ubuf) (c f : nat) : option (list ubuf * nat) :=
  match prevs with
  | [] => Some ([], f)
  | p :: r =>
    match advance (length cur) cur p c with
    | None => None
    | Some c' =>
      match nth_error cur c' with
      | None => None
      | Some b =>
        if same_time p b then
          if u_flagged b then
            match flush r cur c' (S c') with None => None | Some (o, f') => Some (p :: o, f') end
          else Some ([], 0%nat)
        else match flush r cur c' 0 with None => None | Some (o, f') => Some (p :: o, f') end
      end
    end
  end.

(** Upsample.h: prev_buffers_ (empty at the start), first_to_flush_, and the
    slots sent on. *)
Record ustate := MkUstate { us_prev : list ubuf; us_first : nat; us_out : list ubuf }.

(** Upsample.cc:29-48: the state of a new step *)
Definition uinit : ustate := MkUstate [] 0 [].

(** Upsample.cc:90-159 process; [None]: undefined behaviour. *)
Definition uprocess (s : option ustate) (b : ubuf) : option ustate :=
  match s with
  | None => None
  | Some s =>
    let cur := pieces b in
    match us_prev s with
    | [] => Some (MkUstate cur (us_first s) (us_out s))
    | _ =>
      match flush (skipn (us_first s) (us_prev s)) cur 0 (us_first s) with
      | None => None
      | Some (o, f) => Some (MkUstate cur f (us_out s ++ o))
      end
    end
  end.

(** Upsample.cc:161-169 finish: reads prev_buffers_ from first_to_flush_ to
    time_step_. *)
Definition ufinish (s : option ustate) : option (list ubuf) :=
  match s with
  | None => None
  | Some s =>
    if (length (us_prev s) <? ts)%nat && (us_first s <? ts)%nat then None
    else Some (us_out s ++ skipn (us_first s) (us_prev s))
  end.

(** Upsample.cc:90-169: process for each slot, then finish *)
Definition urun (slots : list ubuf) : option (list ubuf) := ufinish (fold_left uprocess slots (Some uinit)).
End Upsample.
Arguments MkUbuf {P}. Arguments u_time {P}. Arguments u_exposure {P}. Arguments u_flagged {P}. Arguments u_payload {P}.
Arguments urun {P}. Arguments pieces {P}. Arguments flush {P}. Arguments advance {P}. Arguments same_time {P}.
Arguments uprocess {P}. Arguments ufinish {P}. Arguments uinit {P}. Arguments MkUstate {P}.
Arguments us_prev {P}. Arguments us_first {P}. Arguments us_out {P}.
