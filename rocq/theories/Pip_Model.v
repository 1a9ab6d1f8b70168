(** Model of /repo/rt1/_rtprocess_writer.py: the processing pipeline
    (workers -> queue -> combiners -> out_queue -> writers -> HDF store) as a
    transition system.

    One event is one atomic action of one process; an execution is any list
    of events, so every interleaving of any number of workers, combiners,
    combine threads and writers is covered.  multiprocessing's queues, events
    and locks are assumed to be linearisable.  Timeouts of [get] may occur at
    any time (more behaviours than the real queue, which only times out when
    nothing arrives).  Logging and the progress bar are not modelled. *)
From Coq Require Import List Arith Bool String Ascii.
From Verif Require Import Base Str_Model.
Import ListNotations.
Open Scope string_scope.

(** [s.lstrip(chars)] *)
Fixpoint lstrip_chars (chars s : string) : string :=
  match s with
  | EmptyString => EmptyString
  | String c r => if existsb (Ascii.eqb c) (list_ascii_of_string chars) then lstrip_chars chars r else s
  end.

Section Pipeline.
Context {Job Row : Type}.

(** a value of the result dict: a pandas object (its rows), a number or
    string, or an object the HDF store cannot hold (a dict, a list, ...) *)
Inductive value : Type := Frame (rows : list Row) | Scalar (r : Row) | Obj.

(** _rtprocess_writer.py:264-271: an entry of the dict returned by
    [process_func]: a value or a dict of values *)
Inductive cfgval : Type := Leaf (v : value) | Sub (d : list (string * value)).
(** the dict returned by [process_func] *)
Definition result := list (string * cfgval).

(** an item of [self.queue]: None, a dict, or something without [items] *)
Inductive msg : Type := MNone | MDict (r : result) | MBad.

(** _rtprocess_writer.py:457-477: what the reader and [process_func] do for a
    task: no data, an exception, or a return value *)
Inductive outcome : Type := NoData | Raises | Returns (m : msg).

(** _rtprocess_writer.py:460-474 [_worker_process]: what is put in the queue *)
Definition worker_put (o : outcome) : list msg :=
  match o with
  | NoData => []
  | Raises => [MNone]
  | Returns m => [m]
  end.

(** [results]: a defaultdict(list) *)
Definition results := dict string (list value).

(** [results[k].append(v)] *)
Definition dappend (k : string) (v : value) (d : results) : results :=
  dset string_dec k (match dget string_dec k d with Some l => (l ++ [v])%list | None => [v] end) d.

(** _rtprocess_writer.py:264-271: the keys under which one entry is collected *)
Definition entry_keys (e : string * cfgval) : list (string * value) :=
  let (cfg, c) := e in
  match c with
  | Leaf v =>
      if startswith "const__" cfg then [(lstrip_chars "const__" cfg, v)] else [(cfg, v)]
  | Sub d =>
      if startswith "const__" cfg then [(lstrip_chars "const__" cfg, Obj)]
      else map (fun kv => (cfg ++ "/" ++ fst kv, snd kv)) d
  end.

(** _rtprocess_writer.py:264-271: all entries of one result *)
Definition collect (rs : results) (r : result) : results :=
  fold_left (fun d kv => dappend (fst kv) (snd kv) d) (flat_map entry_keys r) rs.

(** a combined batch: the dict put into [out_queue]; None: a Series of
    objects, which [store.append] refuses *)
Definition batch := list (string * option (list Row)).

(** [pd.concat(val)]: raises unless all items are pandas objects *)
Fixpoint concat_rows (l : list value) : option (list Row) :=
  match l with
  | [] => Some []
  | Frame rs :: r => option_map (app rs) (concat_rows r)
  | _ :: _ => None
  end.
(** [pd.Series(val)]; None: a Series of objects *)
Fixpoint series_rows (l : list value) : option (list Row) :=
  match l with
  | [] => Some []
  | Scalar x :: r => option_map (cons x) (series_rows r)
  | _ :: _ => None
  end.

(** _rtprocess_writer.py:204-214 [_combine_results]; None: an exception ends the thread *)
Fixpoint combine_results (rs : results) : option batch :=
  match rs with
  | [] => Some []
  | (k, val) :: r =>
      match val with
      | [] => combine_results r
      | Frame _ :: _ =>
          match concat_rows val, combine_results r with
          | Some rows, Some out => Some ((k, Some rows) :: out)
          | _, _ => None
          end
      | _ => option_map (cons (k, series_rows val)) (combine_results r)
      end
  end.

(** program counters of a combiner, _rtprocess_writer.py:235-292 *)
Inductive cpc : Type :=
| CTop               (* 236-245: test should_stop *)
| CTest              (* 246-248: test _stop *)
| CGet               (* 257-263: inner loop, about to call queue.get *)
| CHave (m : msg)    (* 260-274: an item has been taken *)
| CJoin              (* 288-292: joining the threads *)
| CDone.             (* process has ended *)
(** a combiner: counter, collected results, [nres], pending threads *)
Record comb := mkcomb { c_pc : cpc; c_res : results; c_n : nat; c_thr : list results }.

(** program counters of a writer, _rtprocess_writer.py:377-455 *)
Inductive wpc : Type :=
| WTop                 (* 379-387: test combiner_ready *)
| WTest                (* 389-391: test _stop *)
| WGate                (* 394-398: set or clear should_wait *)
| WGet                 (* 402-405: out_queue.get *)
| WHave (b : batch)    (* 408: waiting for the write lock *)
| WWriting (b : batch) (* 410-446: lock held, keys still to be written *)
| WDone.               (* process has ended *)

(** the main process: in [run_starmap] (556-641), in [stop] (643-666) *)
Inductive phase : Type := PRun | PJoinC | PJoinW | PEnd.

(** the whole system; [store] is the sequence of appended rows with their keys *)
Record state := mkstate {
  todo : list Job; running : list Job;
  queue : list msg; combs : list comb; outq : list batch; writers : list wpc;
  store : list (string * Row);
  should_wait : bool; should_stop : bool; stop_ : bool; ready : bool;
  totcnt : nat; meancnt : nat; main : phase }.

(** parameters: numbers of processes, write_chunk_size, out_cache_size and
    what the tasks do *)
Record params := mkparams {
  n_worker : nat; n_combiner : nat; n_writer : nat;
  chunk : nat; cache : nat; what : Job -> outcome }.

(** the start: _rtprocess_writer.py:505-545 (processes started, nothing
    queued, all events unset), tasks handed to [starmap_async] (618-621) *)
Definition init (p : params) (jobs : list Job) : state :=
  mkstate jobs [] [] (repeat (mkcomb CTop [] 0 []) (n_combiner p)) [] (repeat WTop (n_writer p))
          [] false false false false 0 0 PRun.

(** atomic actions *)
Inductive event : Type :=
| WStart (i : nat)              (* a free worker takes the i-th remaining task *)
| WFinish (i : nat)             (* the i-th running task ends *)
| CStep (c : nat)               (* combiner c does its next action *)
| CTimeout (c : nat)            (* queue.get of combiner c times out *)
| CThread (c i : nat)           (* thread i of combiner c runs *)
| SStep (w : nat)               (* writer w does its next action *)
| STimeout (w : nat)            (* out_queue.get of writer w times out *)
| SFail (w : nat)               (* an append of writer w raises *)
| Main                          (* the main process goes on *)
| Signal.                       (* SIGINT / SIGTERM: manual_shutdown *)

(** replace the i-th element *)
Fixpoint upd {A} (i : nat) (x : A) (l : list A) : list A :=
  match l, i with
  | [], _ => []
  | _ :: r, O => x :: r
  | y :: r, S j => y :: upd j x r
  end.
(** remove the i-th element *)
Fixpoint del {A} (i : nat) (l : list A) : list A :=
  match l, i with
  | [], _ => []
  | _ :: r, O => r
  | y :: r, S j => y :: del j r
  end.

(** field updates used below *)
Definition set_comb (c : nat) (x : comb) (s : state) : state :=
  mkstate (todo s) (running s) (queue s) (upd c x (combs s)) (outq s) (writers s) (store s)
          (should_wait s) (should_stop s) (stop_ s) (ready s) (totcnt s) (meancnt s) (main s).
(** replace the queue *)
Definition set_queue (q : list msg) (s : state) : state :=
  mkstate (todo s) (running s) q (combs s) (outq s) (writers s) (store s)
          (should_wait s) (should_stop s) (stop_ s) (ready s) (totcnt s) (meancnt s) (main s).
(** replace the output queue *)
Definition set_outq (q : list batch) (s : state) : state :=
  mkstate (todo s) (running s) (queue s) (combs s) q (writers s) (store s)
          (should_wait s) (should_stop s) (stop_ s) (ready s) (totcnt s) (meancnt s) (main s).
(** replace a writer *)
Definition set_writer (w : nat) (x : wpc) (s : state) : state :=
  mkstate (todo s) (running s) (queue s) (combs s) (outq s) (upd w x (writers s)) (store s)
          (should_wait s) (should_stop s) (stop_ s) (ready s) (totcnt s) (meancnt s) (main s).
(** append rows to the store *)
Definition add_store (rows : list (string * Row)) (s : state) : state :=
  mkstate (todo s) (running s) (queue s) (combs s) (outq s) (writers s) (store s ++ rows)%list
          (should_wait s) (should_stop s) (stop_ s) (ready s) (totcnt s) (meancnt s) (main s).
(** set the events *)
Definition set_flags (wait stop st rdy : bool) (s : state) : state :=
  mkstate (todo s) (running s) (queue s) (combs s) (outq s) (writers s) (store s)
          wait stop st rdy (totcnt s) (meancnt s) (main s).
(** _rtprocess_writer.py:144-154 [_increase_cnt] (under the lock) *)
Definition increase_cnt (err : bool) (s : state) : state :=
  mkstate (todo s) (running s) (queue s) (combs s) (outq s) (writers s) (store s)
          (should_wait s) (should_stop s) (stop_ s) (ready s)
          (S (totcnt s)) (if err then meancnt s else S (meancnt s)) (main s).
(** set the tasks *)
Definition set_jobs (t r : list Job) (s : state) : state :=
  mkstate t r (queue s) (combs s) (outq s) (writers s) (store s)
          (should_wait s) (should_stop s) (stop_ s) (ready s) (totcnt s) (meancnt s) (main s).
(** set the phase of the main process *)
Definition set_main (m : phase) (s : state) : state :=
  mkstate (todo s) (running s) (queue s) (combs s) (outq s) (writers s) (store s)
          (should_wait s) (should_stop s) (stop_ s) (ready s) (totcnt s) (meancnt s) m.

(** [len(l) == 0] *)
Definition isnil {A} (l : list A) : bool := match l with [] => true | _ => false end.

(** _rtprocess_writer.py:249-283: after the inner loop a thread is started
    if anything was collected; then back to the top of the outer loop *)
Definition flush (x : comb) : comb :=
  mkcomb CTop [] 0 (if isnil (c_res x) then c_thr x else (c_thr x ++ [c_res x])%list).

(** _rtprocess_writer.py:216-292 [_combiner_process] *)
Definition comb_step (p : params) (c : nat) (x : comb) (s : state) : option state :=
  match c_pc x with
  | CTop =>
      if should_stop s && isnil (queue s)
      then Some (set_comb c (mkcomb CJoin (c_res x) (c_n x) (c_thr x)) s)
      else Some (set_comb c (mkcomb CTest (c_res x) (c_n x) (c_thr x)) s)
  | CTest =>
      if stop_ s then Some (set_comb c (mkcomb CJoin (c_res x) (c_n x) (c_thr x)) s)
      else Some (set_comb c (mkcomb CGet [] 0 (c_thr x)) s)                     (* 251-254 *)
  | CGet =>
      if Nat.ltb (c_n x) (chunk p)
      then match queue s with
           | [] => None                                                        (* blocked until a timeout *)
           | m :: q => Some (set_comb c (mkcomb (CHave m) (c_res x) (c_n x) (c_thr x)) (set_queue q s))
           end
      else Some (set_comb c (flush x) s)
  | CHave MNone => Some (set_comb c (mkcomb CGet (c_res x) (c_n x) (c_thr x)) (increase_cnt true s))
  | CHave (MDict r) =>
      Some (set_comb c (mkcomb CGet (collect (c_res x) r) (S (c_n x)) (c_thr x)) (increase_cnt false s))
  | CHave MBad => Some (set_comb c (mkcomb CTop [] 0 (c_thr x)) s)             (* 285-286: the batch is dropped *)
  | CJoin => if isnil (c_thr x) then Some (set_comb c (mkcomb CDone (c_res x) (c_n x) []) s) else None
  | CDone => None
  end.

(** is the write lock held? *)
Definition locked (s : state) : bool :=
  existsb (fun w => match w with WWriting _ => true | _ => false end) (writers s).

(** _rtprocess_writer.py:448-455: an append raised *)
Definition write_failed (w : nat) (s : state) : state :=
  set_writer w WTop (set_flags false (should_stop s) true (ready s) s).

(** _rtprocess_writer.py:368-455 [_save_file_process] *)
Definition writer_step (p : params) (w : nat) (x : wpc) (s : state) : option state :=
  match x with
  | WTop => if ready s && isnil (outq s) then Some (set_writer w WDone s) else Some (set_writer w WTest s)
  | WTest => if stop_ s then Some (set_writer w WDone s) else Some (set_writer w WGate s)
  | WGate =>
      let wait := Nat.ltb (List.length (outq s)) (cache p) in
      Some (set_writer w WGet (set_flags wait (should_stop s) (stop_ s) (ready s) s))
  | WGet => match outq s with
            | [] => None
            | b :: q => Some (set_writer w (WHave b) (set_outq q s))
            end
  | WHave b => if locked s then None else Some (set_writer w (WWriting b) s)
  | WWriting [] => Some (set_writer w WTop s)
  | WWriting ((k, None) :: b) => Some (write_failed w s)
  | WWriting ((k, Some rows) :: b) => Some (set_writer w (WWriting b) (add_store (map (pair k) rows) s))
  | WDone => None
  end.

(** one atomic action; None: not possible in this state *)
Definition step (p : params) (e : event) (s : state) : option state :=
  match e with
  | WStart i =>                                                                (* 457-458 *)
      match nth_error (todo s) i with
      | Some j =>
          if should_wait s && Nat.ltb (List.length (running s)) (n_worker p)
          then Some (set_jobs (del i (todo s)) (running s ++ [j])%list s) else None
      | None => None
      end
  | WFinish i =>                                                               (* 460-477 *)
      match nth_error (running s) i with
      | Some j => Some (set_queue (queue s ++ worker_put (what p j))%list
                         (set_jobs (todo s) (del i (running s)) s))
      | None => None
      end
  | CStep c => match nth_error (combs s) c with Some x => comb_step p c x s | None => None end
  | CTimeout c =>                                                              (* 262-263 *)
      match nth_error (combs s) c with
      | Some x => match c_pc x with
                  | CGet => if Nat.ltb (c_n x) (chunk p) then Some (set_comb c (flush x) s) else None
                  | _ => None
                  end
      | None => None
      end
  | CThread c i =>                                                             (* 204-214 *)
      match nth_error (combs s) c with
      | Some x =>
          match nth_error (c_thr x) i with
          | Some rs =>
              let s' := set_comb c (mkcomb (c_pc x) (c_res x) (c_n x) (del i (c_thr x))) s in
              match combine_results rs with
              | Some b => Some (set_outq (outq s ++ [b])%list s')
              | None => Some s'
              end
          | None => None
          end
      | None => None
      end
  | SStep w => match nth_error (writers s) w with Some x => writer_step p w x s | None => None end
  | STimeout w => match nth_error (writers s) w with
                  | Some WGet => Some (set_writer w WTop s)                    (* 404-405 *)
                  | _ => None
                  end
  | SFail w => match nth_error (writers s) w with
               | Some (WWriting _) => Some (write_failed w s)                  (* 448-455 *)
               | _ => None
               end
  | Main =>
      match main s with
      | PRun =>                                                                (* 627-639, 645 *)
          if isnil (todo s) && isnil (running s)
          then Some (set_main PJoinC (set_flags (should_wait s) true (stop_ s) (ready s) s)) else None
      | PJoinC =>                                                              (* 649-651 *)
          if forallb (fun x => match c_pc x with CDone => true | _ => false end) (combs s)
          then Some (set_main PJoinW (set_flags (should_wait s) (should_stop s) (stop_ s) true s)) else None
      | PJoinW =>                                                              (* 654-660 *)
          if forallb (fun x => match x with WDone => true | _ => false end) (writers s)
          then Some (set_main PEnd (set_flags (should_wait s) (should_stop s) true (ready s) s)) else None
      | PEnd => None
      end
  | Signal =>                                                                  (* 135-142 *)
      match main s with
      | PRun => Some (set_flags (should_wait s) true true (ready s) s)
      | _ => None
      end
  end.

(** an execution *)
Fixpoint run (p : params) (es : list event) (s : state) : option state :=
  match es with
  | [] => Some s
  | e :: r => match step p e s with Some s' => run p r s' | None => None end
  end.
End Pipeline.
