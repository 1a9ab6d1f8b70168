(** Model of the names of the worker processes: /repo/rt1/rtprocess.py [_initializer] (555-582) with the counter of
    [run_processing] / [run_finaloutput] (866, 1085: multiprocessing.Manager().Value).  The value of the counter is read and
    written by separate requests to the manager process (no lock), so [proc_counter.value += 1] and the f-string are three
    requests; requests of different processes come in any order. *)
From Coq Require Import List Arith Bool.
Import ListNotations.

(** rtprocess.py 572-574: a worker before, between and after its three requests; the number in its name *)
Inductive wpc : Type := Start | Got (x : nat) | Put | Named (k : nat).
(** the value of the counter and the workers *)
Record wstate : Type := mkw { counter : nat; workers : list wpc }.
(** rtprocess.py 866: n workers, the counter is 0 *)
Definition init (n : nat) : wstate := mkw 0 (repeat Start n).

(** replace the i-th element (no /repo code) *)
Fixpoint upd {A} (i : nat) (x : A) (l : list A) : list A :=
  match l, i with [], _ => [] | _ :: r, O => x :: r | y :: r, S j => y :: upd j x r end.

(** rtprocess.py 573-574: the next request of worker i *)
Definition step (s : wstate) (i : nat) : wstate :=
  match nth_error (workers s) i with
  | Some Start => mkw (counter s) (upd i (Got (counter s)) (workers s))      (* 573: read *)
  | Some (Got x) => mkw (S x) (upd i Put (workers s))                        (* 573: write x + 1 *)
  | Some Put => mkw (counter s) (upd i (Named (counter s)) (workers s))      (* 574: read *)
  | _ => s
  end.
(** any order of requests: the list of the workers they come from *)
Definition run (n : nat) (es : list nat) : wstate := fold_left step es (init n).
