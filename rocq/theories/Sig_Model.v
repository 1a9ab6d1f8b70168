(** Model of the signals and of the context of a processing pool (/repo/rt1/_rtprocess_writer.py: __init__ 119-120, manual_shutdown 135-142,
    writer_pool 533-546, stop 643-666).  Two signals (SIGINT, SIGTERM) and what the process does when they arrive.  The pipeline itself is
    Pip_Model; here only the order in which things are set up and torn down matters. *)
From Coq Require Import List Bool.
From Verif Require Import Base.
Import ListNotations.

(** the signals that are used *)
Inductive sig : Type := SIGINT | SIGTERM.
(** what happens when a signal arrives: the handler of the session before rt1 was used, nothing, or manual_shutdown of a processor *)
Inductive handler : Type := Before | Ignored | Shutdown.
(** the manager (with its events) of the processor that installed its handlers last: not yet there (498-528 not executed), alive, shut down *)
Inductive manager : Type := NoManager | Alive | Gone.

(** the session: the handlers of the two signals, the manager, whether the events should_stop and _stop have been set *)
Record session := mksession { h_int : handler; h_term : handler; mgr : manager; stop_set : bool }.
(** the start of a session *)
Definition fresh : session := mksession Before Before NoManager false.
(** the handler of a signal *)
Definition handler_of (g : sig) (s : session) : handler := match g with SIGINT => h_int s | SIGTERM => h_term s end.

(** what a signal leads to: the usual effect (KeyboardInterrupt, termination), nothing, or an exception *)
Inductive effect : Type := Usual | Nothing | Raised (e : pyerr).

(** _rtprocess_writer.py:135-142 [manual_shutdown]: both signals are ignored from now on, then the events are set: an AttributeError if there
    is no manager yet, an OSError or EOFError (written RuntimeError) if it has been shut down, otherwise SystemExit *)
Definition manual_shutdown (s : session) : session * effect :=
  match mgr s with
  | NoManager => (mksession Ignored Ignored NoManager (stop_set s), Raised AttributeError)
  | Gone => (mksession Ignored Ignored Gone (stop_set s), Raised RuntimeError)
  | Alive => (mksession Ignored Ignored Alive true, Raised SystemExit)
  end.
(** a signal arrives (in the main thread) *)
Definition arrives (g : sig) (s : session) : session * effect :=
  match handler_of g s with
  | Before => (s, Usual)
  | Ignored => (s, Nothing)
  | Shutdown => manual_shutdown s
  end.

(** a use of writer_pool: is it in the main thread (signal.signal raises a ValueError elsewhere), which step of the setup fails
    (the manager, the writers, the combiners), a signal that arrives while the block is executed, and the exception of the block *)
Record usage := mkusage { main_thread : bool; manager_error : option pyerr; writer_error : option pyerr; combiner_error : option pyerr;
                          interrupted : option sig; body_error : option pyerr }.

(** _rtprocess_writer.py:643-666 [stop]: the manager is shut down *)
Definition stop (s : session) : session := mksession (h_int s) (h_term s) Gone true.

(** _rtprocess_writer.py:535-546 [writer_pool] around a block: in the finally-clause [w], [writer], [combiner] and [manager] are used even if
    they have not been assigned *)
Definition writer_pool (u : usage) (s : session) : session * option pyerr :=
  if negb (main_thread u) then (s, Some UnboundLocalError)                                     (* 119: ValueError; 546: w *)
  else
    let s1 := mksession Shutdown Shutdown NoManager false in                                   (* 119-120 *)
    match manager_error u with
    | Some _ => (s1, Some UnboundLocalError)                                                   (* 546: writer *)
    | None =>
        let s2 := mksession (h_int s1) (h_term s1) Alive false in                              (* 538 *)
        match writer_error u with
        | Some _ => (s2, Some UnboundLocalError)                                               (* 546: writer *)
        | None =>
            match combiner_error u with
            | Some _ => (s2, Some UnboundLocalError)                                           (* 546: combiner *)
            | None =>
                let '(s3, e) := match interrupted u with
                                | None => (s2, body_error u)
                                | Some g => let '(s', f) := arrives g s2 in
                                            (s', match f with Raised x => Some x | _ => body_error u end)
                                end in
                (stop s3, e)                                                                   (* 544-546 *)
            end
        end
    end.

(** the session: uses of pools and signals *)
Inductive op : Type := Pool (u : usage) | Arrive (g : sig).
(** an operation and what it leads to *)
Definition do_op (o : op) (s : session) : session * effect :=
  match o with
  | Pool u => let '(s', e) := writer_pool u s in (s', match e with Some x => Raised x | None => Nothing end)
  | Arrive g => arrives g s
  end.
(** a history *)
Definition after (ops : list op) : session := fold_left (fun s o => fst (do_op o s)) ops fresh.
