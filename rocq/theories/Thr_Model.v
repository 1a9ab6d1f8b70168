(** Model of the thread that prints the progress of a processing run: /repo/rt1/_rtprocess_writer.py RepeatTimer (30-59), print_progress (156-202),
    start_print_thread (548-554), run_starmap (626) and the order in which stop (643-667) ends everything.

    Time is not modelled: the thread does a step whenever the schedule says so.  What is printed is C169. *)
From Coq Require Import Bool Arith List.
From Verif Require Import Base.
Import ListNotations.
Local Open Scope list_scope.

(** the thread: in finished.wait (58), in the middle of print_progress, ended, ended by an exception *)
Inductive thread : Type := Waiting | Printing | Ended | Died.
(** the shared objects (510-533) and the thread; [up]: the manager that holds the events, the queue and the counters runs *)
Record world : Type := mkworld { should_stop : bool; stopped : bool; up : bool; queue : nat; finished : bool; th : thread; lines : nat }.
(** start_print_thread (548-554) *)
Definition started (q : nat) : world := mkworld false false true q false Waiting 0.

(** what happens: a result is put into the queue or taken from it; stop(): should_stop.set() (645), _stop.set() (658; also 141, 453), manager.shutdown()
    (660); a step of the thread *)
Inductive event : Type := Put | Get | ShouldStop | Stop | Shutdown | Step.

(** rtprocess_writer.py 158: the condition for the end of the thread *)
Definition closing (w : world) : bool := (should_stop w && Nat.eqb (queue w) 0) || stopped w.

(** one event; without the manager every access of a shared object raises (in the other processes these end, they do not occur any more) *)
Definition step (w : world) (e : event) : world :=
  match e with
  | Put => if up w then mkworld (should_stop w) (stopped w) (up w) (S (queue w)) (finished w) (th w) (lines w) else w
  | Get => if up w then mkworld (should_stop w) (stopped w) (up w) (pred (queue w)) (finished w) (th w) (lines w) else w
  | ShouldStop => if up w then mkworld true (stopped w) (up w) (queue w) (finished w) (th w) (lines w) else w
  | Stop => if up w then mkworld (should_stop w) true (up w) (queue w) (finished w) (th w) (lines w) else w
  | Shutdown => mkworld (should_stop w) (stopped w) false (queue w) (finished w) (th w) (lines w)
  | Step =>
      let set t f n := mkworld (should_stop w) (stopped w) (up w) (queue w) f t n in
      match th w with
      | Waiting =>
          if finished w then set Ended (finished w) (lines w)                        (* 58: wait returns True *)
          else if up w then set Printing (closing w) (lines w)                       (* 158-160: cancel() sets finished *)
          else set Died (finished w) (lines w)
      | Printing => if up w then set Waiting (finished w) (S (lines w)) else set Died (finished w) (lines w)   (* 162-202 *)
      | Ended | Died => w
      end
  end.
(** a history *)
Definition run (w : world) (es : list event) : world := fold_left step es w.
