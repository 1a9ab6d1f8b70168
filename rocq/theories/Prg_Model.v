(** Model of the progress-line (/repo/rt1/general_functions.py 237-261 update_progress; /repo/rt1/_rtprocess_writer.py 156-202 print_progress)
    together with the processing pipeline of Pip_Model.  The print-thread is one more process: each of its reads of a shared value is one
    atomic action, and the lock of the counters is respected.  Strings are represented by the numbers they show.  The shutdown of the
    thread and the queue sizes behind the bar (Q=, O=) are not modelled; p_max is the number of tasks (603, never 0: 605-607). *)
From Coq Require Import ZArith QArith List Arith Bool.
From Verif Require Import Base Pip_Model.
Import ListNotations.
Local Open Scope nat_scope.

(** python round(): to the nearest integer, ties to the even one *)
Definition round_half_even (q : Q) : Z :=
  let n := Qnum q in let d := Zpos (Qden q) in
  let k := Z.div (2 * n + d) (2 * d) in
  if Z.eqb (Z.modulo (2 * n + d) (2 * d)) 0 && Z.odd k then (k - 1)%Z else k.
(** general_functions.py:246-247: the number of # (the quotient is computed with floats, which does not matter below 2^47) *)
Definition block (progress max_prog : nat) : res Z :=
  match max_prog with
  | O => Err ZeroDivisionError
  | _ => Ok (round_half_even (inject_Z (20 * Z.of_nat progress) / inject_Z (Z.of_nat max_prog))%Q)
  end.
(** python: "#" * k *)
Definition times {A} (x : A) (k : Z) : list A := repeat x (Z.to_nat k).
(** general_functions.py:249-259: the bar ("#" is true) and the two numbers; None: the final message *)
Definition update_progress (progress max_prog : nat) : res (option (list bool * nat * nat)) :=
  do b <- block progress max_prog;
  if Nat.leb max_prog progress then Ok None
  else Ok (Some (times true b ++ times false (20 - b)%Z, progress, max_prog)).

(** a printed line *)
Inductive line : Type :=
| Bar (bar : list bool) (progress : nat) (failed : Z) (max : nat) (remain : option Q)   (* remain in seconds; None: "estimating time ..." *)
| Finished (max : nat) (failed : Z).

(** the print-thread; _rtprocess_writer.py:162-201 *)
Inductive ppc : Type :=
| PIdle                                                      (* waiting for the timer *)
| PLock                                                      (* 162: lock held *)
| PQ (q : nat)                                               (* 163: qsize read *)
| PT (q tot : nat)                                           (* 164 *)
| PM (q tot mean : nat)                                      (* 165 *)
| PRel (q tot mean : nat)                                    (* 166: lock released *)
| PTime (q tot mean : nat) (remain : option Q)               (* 168-186 *)
| PMsg (q tot mean : nat) (remain : option Q) (t : nat)      (* 194: p_totcnt.value read *)
| PShown (l : line)                                          (* 199-202 *)
| PDead (e : pyerr).                                         (* the thread has ended with an exception *)
(** is the lock held by the print-thread? *)
Definition holds (x : ppc) : bool := match x with PLock | PQ _ | PT _ _ | PM _ _ _ => true | _ => false end.

Section Prg.
Context {Job Row : Type}.

(** actions: those of the pipeline, and the next action of the print-thread ([elapsed] milliseconds since p_start) *)
Inductive pevent : Type := Pipe (e : event) | Print (elapsed : nat).

(** the action increases the counters (it needs the lock), _rtprocess_writer.py:144-154, 261, 274 *)
Definition counts (e : event) (s : @state Job Row) : bool :=
  match e with
  | CStep c => match nth_error (combs s) c with
               | Some x => match c_pc x with CHave MNone | CHave (MDict _) => true | _ => false end
               | None => false
               end
  | _ => false
  end.

(** _rtprocess_writer.py:156-202 [print_progress], n = p_max *)
Definition print_step (n elapsed : nat) (s : @state Job Row) (x : ppc) : ppc :=
  match x with
  | PIdle => PLock
  | PLock => PQ (List.length (queue s))
  | PQ q => PT q (totcnt s)
  | PT q tot => PM q tot (meancnt s)
  | PM q tot mean => PRel q tot mean
  | PRel q tot mean =>
      if Nat.eqb (meancnt s) 0 then PTime q tot mean None
      else if Nat.eqb (mean + q) 0 then PDead ZeroDivisionError
      else PTime q tot mean (Some (inject_Z (Z.of_nat elapsed) / inject_Z (1000 * Z.of_nat (mean + q))
                                   * inject_Z (Z.of_nat n - Z.of_nat (tot + q)))%Q)
  | PTime q tot mean r => PMsg q tot mean r (totcnt s)
  | PMsg q tot mean r t =>
      match update_progress (tot + q) n with
      | Err e => PDead e
      | Ok None => PShown (Finished n (Z.of_nat t - Z.of_nat (meancnt s))%Z)
      | Ok (Some (b, pr, mx)) => PShown (Bar b pr (Z.of_nat (tot + q) - Z.of_nat (mean + q))%Z mx r)
      end
  | PShown l => PIdle
  | PDead e => PDead e
  end.

(** one action of the whole system *)
Definition pstep (p : params) (n : nat) (e : pevent) (s : state * ppc) : option (state * ppc) :=
  match e with
  | Print t => Some (fst s, print_step n t (fst s) (snd s))
  | Pipe e => if counts e (fst s) && holds (snd s) then None
              else match step p e (fst s) with Some s' => Some (s', snd s) | None => None end
  end.
(** an execution *)
Fixpoint prun (p : params) (n : nat) (es : list pevent) (s : state * ppc) : option (state * ppc) :=
  match es with
  | [] => Some s
  | e :: r => match pstep p n e s with Some s' => prun p n r s' | None => None end
  end.
End Prg.
