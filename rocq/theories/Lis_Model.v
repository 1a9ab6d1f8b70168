(** Model of the log-file of a run: /repo/rt1/rtprocess.py [_listener_process] and the handlers of the processes
    that write into its queue. *)
From Coq Require Import String Arith Bool List.
Import ListNotations.
Local Open Scope list_scope.

(** the processes of a run: MainProcess (rtprocess.py 878, 1097), the processes of the pool
    (_rtprocess_writer.py 615-616), combiners and writers (_rtprocess_writer.py 479-507); [n] counts them *)
Inductive proc : Type := Main | Worker (n : nat) | Combiner (n : nat) | Writer (n : nat).

(** a log-record as far as it is used: who, its level, its message *)
Record record := mkrecord { r_proc : proc; r_level : nat; r_text : string }.

(** the level of logger and handler that [_worker_configurer] sets (rtprocess.py 190-196): the one of the log-file in
    the MainProcess (878, 1097), combiners (_rtprocess_writer.py 224-228 with rtprocess.py 940-941, 1120-1121) and
    writers (371-375); the default 10 in the processes of the pool (rtprocess.py 564) *)
Definition sender_level (level : nat) (p : proc) : nat :=
  match p with Worker _ => 10 | Main | Combiner _ | Writer _ => level end.

(** the queue (None: stop), the content of the file, and whether the listener is running *)
Record state := mkstate { queue : list (option record); file : list record; listening : bool }.

(** rtprocess.py 161-183: the listener is started; without a folder it returns at once (164-166) *)
Definition start (folder : bool) : state := mkstate [] [] folder.

(** what can happen: a process logs (after it was configured), the main process asks the listener to stop
    (rtprocess.py 959, 1136), the listener takes the next element of the queue, the listener is interrupted
    (a KeyboardInterrupt is no [Exception], 185) *)
Inductive event : Type :=
| Logs (r : record)
| Finish
| Listen
| Interrupt.

(** one event.  Logger and QueueHandler of the process compare the level (rtprocess.py 192-195); the listener hands the
    record to its handlers (184: [log2.handle]), and the FileHandler compares the level with its own (174; the comment
    "No level or filter logic applied" is only right for the logger).  Simplified: records can be formatted. *)
Definition step (level : nat) (s : state) (e : event) : state :=
  match e with
  | Logs r => if Nat.leb (sender_level level (r_proc r)) (r_level r)
              then mkstate (queue s ++ [Some r]) (file s) (listening s) else s
  | Finish => mkstate (queue s ++ [None]) (file s) (listening s)
  | Listen =>
      if listening s then
        match queue s with
        | [] => s                                                                 (* 181: get() waits *)
        | None :: q => mkstate q (file s) false                                   (* 182-183 *)
        | Some r :: q => mkstate q (if Nat.leb level (r_level r) then file s ++ [r] else file s) true
        end
      else s
  | Interrupt => mkstate (queue s) (file s) false
  end.

(** a run *)
Definition run (level : nat) (folder : bool) (es : list event) : state := fold_left (step level) es (start folder).
