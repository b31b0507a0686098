(** Model of common/buffered_lane.h: one writer and some readers of a queue.  The queue itself (aocommon::Lane) is of a library, and is
    taken as a first-in first-out queue of limited size: a write of several elements may wait between any of them, a read waits until
    there are elements or the queue is closed, takes at most the asked number of elements, and gets none only if it is closed. *)
From Coq Require Import List Bool Arith.
From Verif Require Import InfoModel.
Import ListNotations.

Section Lane.
Variables (A : Type) (write_size read_size capacity : nat).

(** common/buffered_lane.h:71-73 (lane_write_buffer), 101-104 (lane_read_buffer).  [w_buffer]: _buffer of the writer; [moving]: what the
    writer is moving into the queue (common/buffered_lane.h:66); [ending]: the writer has called write_end; [queue], [closed]: the queue;
    [readers]: the rest of _buffer of each reader, and whether it has got to the end; [sent] and [received] are not in the code: all
    elements that were written, and those that were read, with the reader *)
Record state := MkState { w_buffer : list A; moving : list A; ending : bool; queue : list A; closed : bool;
                          readers : list (list A * bool); sent : list A; received : list (nat * A) }.
(** common/buffered_lane.h:24-27, 91-95: a new writer and [n] readers *)
Definition init (n : nat) : state := MkState [] [] false [] false (repeat ([], false) n) [] [].

(** What can happen next: the writer writes an element (common/buffered_lane.h:43-55) or calls write_end
    (common/buffered_lane.h:57-60), one element gets into the queue, the queue is closed, or reader [k] reads an element *)
(** common/buffered_lane.h:43-69,99-108 *)
Inductive event := Write (x : A) | End | Move | Close | Read (k : nat).

(** common/buffered_lane.h:65-68 (flush) *)
Definition flush (buffer : list A) (s : state) : state :=
  MkState [] (moving s ++ buffer) (ending s) (queue s) (closed s) (readers s) (sent s) (received s).
(** An event; one that cannot happen now (the writer or the reader waits, or has ended) does nothing *)
(** common/buffered_lane.h:43-69,99-108 *)
Definition step (s : state) (e : event) : state :=
  match e with
  | Write x =>
    match moving s with
    | [] =>
      if ending s then s
      else
        let buffer := w_buffer s ++ [x] in
        let s' := MkState buffer [] (ending s) (queue s) (closed s) (readers s) (sent s ++ [x]) (received s) in
        if length buffer =? write_size then flush buffer s' else s'
    | _ => s
    end
  | End =>
    match moving s with
    | [] =>
      if ending s then s
      else flush (w_buffer s) (MkState (w_buffer s) [] true (queue s) (closed s) (readers s) (sent s) (received s))
    | _ => s
    end
  | Move =>
    match moving s with
    | [] => s
    | x :: rest =>
      if length (queue s) <? capacity
      then MkState (w_buffer s) rest (ending s) (queue s ++ [x]) (closed s) (readers s) (sent s) (received s) else s
    end
  | Close =>
    match moving s with
    | [] => MkState (w_buffer s) [] (ending s) (queue s) (ending s) (readers s) (sent s) (received s)
    | _ => s
    end
  | Read k =>
    match nth_error (readers s) k with
    | None => s
    | Some (_, true) => s
    | Some (x :: rest, false) =>
      MkState (w_buffer s) (moving s) (ending s) (queue s) (closed s) (set_nth (readers s) k (rest, false)) (sent s) (received s ++ [(k, x)])
    | Some ([], false) =>
      match firstn read_size (queue s) with
      | x :: rest =>
        MkState (w_buffer s) (moving s) (ending s) (skipn read_size (queue s)) (closed s) (set_nth (readers s) k (rest, false))
          (sent s) (received s ++ [(k, x)])
      | [] =>
        if closed s || (read_size =? 0)
        then MkState (w_buffer s) (moving s) (ending s) (queue s) (closed s) (set_nth (readers s) k ([], true)) (sent s) (received s)
        else s
      end
    end
  end.
(** Any sequence of events, with [n] readers *)
(** common/buffered_lane.h *)
Definition run (n : nat) (events : list event) : state := fold_left step events (init n).
End Lane.
Arguments MkState {A}. Arguments w_buffer {A}. Arguments moving {A}. Arguments ending {A}. Arguments queue {A}. Arguments closed {A}.
Arguments readers {A}. Arguments sent {A}. Arguments received {A}. Arguments Write {A}. Arguments End {A}. Arguments Move {A}.
Arguments Close {A}. Arguments Read {A}. Arguments step {A}. Arguments run {A}. Arguments init {A}. Arguments flush {A}.
