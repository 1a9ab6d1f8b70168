(** Model of the runs of an RTprocess object: /repo/rt1/rtprocess.py
    [RTprocess.__init__], [run_processing], [run_finaloutput],
    [_worker_configurer], [_initializer], the first part of [_processfunc].
    [setup] and [override_config] are those of Prc_Model. *)
From Coq Require Import String Ascii Arith Bool List.
From Verif Require Import Base Prc_Model.
Import ListNotations.
Local Open Scope list_scope.

(** ** the logging module as far as the runs change it (rtprocess.py 189-202,
    952-969, 1127-1143): the level of the logger "rt1", its handlers (name and
    the queue they write to), the handlers of "py.warnings" (the queues), and
    whether warnings are captured *)
Record logst := mklog { l_level : nat; l_handlers : list (string * nat); l_warn : list nat; l_capture : bool }.

(** the name of the handlers of a run, rtprocess.py 195 *)
Definition qname : string := "rtprocessing_queuehandler".

(** rtprocess.py 189-202 [_worker_configurer] *)
Definition worker_configurer (q lv : nat) (l : logst) : logst :=
  mklog lv (l_handlers l ++ [(qname, q)]) (l_warn l ++ [q]) true.

(** rtprocess.py 961-969 and 1135-1143: the handlers of the logger with this name are removed *)
Definition remove_handlers (l : logst) : logst :=
  mklog (l_level l) (filter (fun h => negb (String.eqb (fst h) qname)) (l_handlers l)) (l_warn l) (l_capture l).

(** rtprocess.py 952, 1126 [logging.captureWarnings(False)] *)
Definition capture_off (l : logst) : logst := mklog (l_level l) (l_handlers l) (l_warn l) false.

Section Runs.
(** paths and config-file as in Prc_Model.setup; [copy], [ini], [name]: the
    attribute copy, the content and the name of the config-file *)
Context {P : Type} (peq : forall x y : P, {x = y} + {x <> y}) (path_of : config -> P)
        (copy : bool) (ini : config) (name : string).

(** the state: the attributes autocontinue and init_kwargs of the object, the
    dumpfolders on the disc, logging, and the number of queues made so far *)
Record rtp := mkrtp { p_auto : bool; p_kw : config; p_disc : fs P; p_log : logst; p_nq : nat }.

(** self.autocontinue = b (rtprocess.py 1071, 1073) *)
Definition set_auto (b : bool) (st : rtp) : rtp := mkrtp b (p_kw st) (p_disc st) (p_log st) (p_nq st).
(** self.init_kwargs = kw (rtprocess.py 243) *)
Definition set_kw (kw : config) (st : rtp) : rtp := mkrtp (p_auto st) kw (p_disc st) (p_log st) (p_nq st).
(** a change of the logging module *)
Definition set_log (l : logst) (st : rtp) : rtp := mkrtp (p_auto st) (p_kw st) (p_disc st) l (p_nq st).
(** a change of the disc by setup *)
Definition set_disc (d : fs P) (st : rtp) : rtp := mkrtp (p_auto st) (p_kw st) d (p_log st) (p_nq st).

(** self.setup() in the MainProcess, rtprocess.py 263-376.  [late]: what is
    raised (if anything) while the modules are imported and the fit-object is
    created (343-376).  Aborting is sys.exit(0) (54, 61).  The case that the
    config-file is not valid (271-276: nothing is set up) is left out. *)
Definition setup_call (a1 a2 : string) (late : option pyerr) (st : rtp) : rtp * res config :=
  let '(d, o) := setup peq path_of true (p_auto st) copy ini name (p_kw st) a1 a2 (p_disc st) in
  (set_disc d st,
   match o with
   | Aborted => Err SystemExit
   | Failed e => Err e
   | Using c => match late with Some e => Err e | None => Ok c end
   end).

(** a new queue, and the MainProcess listens to it (rtprocess.py 859-877, 1081-1099) *)
Definition start_queue (lv : nat) (st : rtp) : rtp :=
  mkrtp (p_auto st) (p_kw st) (p_disc st) (worker_configurer (p_nq st) lv (p_log st)) (S (p_nq st)).

(** the [finally] of both functions, rtprocess.py 946-969, 1124-1143.
    [bound]: the variable [queue] has been assigned.  An exception of a
    [finally] replaces the one that is on its way.  (simplification: a method
    "finalizer" of the processing-class, 852-854 and 947-949, does not raise and
    changes nothing that is modelled) *)
Definition finally_ {A} (level : option nat) (bound : bool) (st : rtp) (r : res A) : rtp * res A :=
  let st := set_log (capture_off (p_log st)) st in                               (* 952, 1126 *)
  match level with
  | None => (st, r)
  | Some _ => if bound then (set_log (remove_handlers (p_log st)) st, r)         (* 954-969, 1128-1143 *)
              else (st, Err UnboundLocalError)                                   (* queue.put_nowait(None) *)
  end.

(** rtprocess.py 772-969 [run_processing].  [body]: what is raised (if
    anything) by writing the model definition and by _processfunc (890-938).
    The result is the configuration with which the features are processed. *)
Definition run_processing (level : option nat) (a1 a2 : string) (late body : option pyerr) (st : rtp) : rtp * res config :=
  match setup_call a1 a2 late st with                                            (* 858 *)
  | (st1, Err e) => finally_ level false st1 (Err e)                             (* 940-942 *)
  | (st1, Ok c) =>
    match level with
    | None => finally_ level false st1 (Err TypeError)                           (* 880: queue, proc_counter = None *)
    | Some lv => finally_ level true (start_queue lv st1)                        (* 860-878, 882-886 *)
                   (match body with Some e => Err e | None => Ok c end)          (* 888-942 *)
    end
  end.

(** rtprocess.py 971-1143 [run_finaloutput] with a string or None as
    finalout_name, save_path=None and a callable postprocess.  [body]: what is
    raised (if anything) by _get_files and _run_finalout. *)
Definition run_finaloutput (fname : option string) (level : option nat) (late body : option pyerr) (st : rtp) : rtp * res config :=
  match match fname with
        | None => Ok (p_kw st)
        | Some n => override_config ini (p_kw st) false [("PROCESS_SPECS"%string, [("finalout_name"%string, n)])]
        end with                                                                 (* 1061-1067 *)
  | Err e => finally_ level false st (Err e)
  | Ok kw =>
    let st1 := set_auto true (set_kw kw st) in                                   (* 1070-1071 *)
    match setup_call "" "" late st1 with                                         (* 1072 *)
    | (st2, Err e) => finally_ level false st2 (Err e)
    | (st2, Ok c) =>
      let st3 := set_auto (p_auto st) st2 in                                     (* 1073 *)
      finally_ level true (match level with Some lv => start_queue lv st3 | None => st3 end)   (* 1081-1107 *)
        (match body with Some e => Err e | None => Ok c end)                     (* 1109-1123 *)
    end
  end.

(** the calls of a session *)
Inductive call : Type :=
| Processing (level : option nat) (a1 a2 : string) (late body : option pyerr)
| Finaloutput (fname : option string) (level : option nat) (late body : option pyerr)
| Override (override : bool) (kw : config).

(** one call: the new state and what is returned or raised (rtprocess.py 204-243, 772-1143) *)
Definition step (st : rtp) (c : call) : rtp * res (option config) :=
  let some (x : rtp * res config) := (fst x, do c <- snd x; Ok (Some c)) in
  match c with
  | Processing level a1 a2 late body => some (run_processing level a1 a2 late body st)
  | Finaloutput fname level late body => some (run_finaloutput fname level late body st)
  | Override override kw => match override_config ini (p_kw st) override kw with Ok kw' => (set_kw kw' st, Ok None) | Err e => (st, Err e) end
  end.

(** a sequence of calls; the user catches all exceptions *)
Definition session (st : rtp) (l : list call) : rtp := fold_left (fun st c => fst (step st c)) l st.
End Runs.
Arguments rtp P : clear implicits.

(** ** the pool of workers *)
(** a function that is called in a new worker: one of the user, or the method
    [_initializer] of the RTprocess object *)
Inductive initf : Type := UserInit (f : string) | OwnInit.
(** an argument of such a function *)
Inductive iarg : Type := AFun (f : option initf) | AQueue (q : nat) | ACounter (c : nat) | AUser (x : string).
(** the entries "initializer" and "initargs" of pool_kwargs (None: no such key) *)
Record poolkw := mkpool { k_init : option initf; k_args : option (list iarg) }.

(** rtprocess.py 719-725: the dict that was passed is changed in place; [q]
    and [c]: the queue and the counter of the run *)
Definition wrap_pool (q c : nat) (k : poolkw) : poolkw :=
  mkpool (Some OwnInit) (Some (AFun (k_init k) :: AQueue q :: ACounter c :: match k_args k with Some a => a | None => [] end)).

(** what happens in a new worker *)
Inductive wevent : Type := EConfigure (q : nat) | ECount (c : nat) | ESetup | EUser (f : string) (args : list iarg).

(** multiprocessing.Pool calls initializer( *initargs ) in each worker;
    rtprocess.py 555-581 [_initializer] for OwnInit.  (simplification: the
    arguments of [_initializer] are a function, a queue and a counter; None is
    returned otherwise) *)
Fixpoint start_worker (f : option initf) (args : list iarg) : option (list wevent) :=
  match f with
  | None => Some []
  | Some (UserInit g) => Some [EUser g args]
  | Some OwnInit =>
    match args with
    | AFun f' :: AQueue q :: ACounter c :: rest =>
        option_map (app [EConfigure q; ECount c; ESetup]) (start_worker f' rest)   (* 563-581 *)
    | _ => None
    end
  end.

(** the worker of a pool that is started with the dict [k] *)
Definition worker_of (k : poolkw) : option (list wevent) :=
  start_worker (k_init k) (match k_args k with Some a => a | None => [] end).

(** ** the features that are processed *)
(** what preprocess() returns, rtprocess.py 679-687: nothing is called, None,
    a dict with or without "reader_args", or something else *)
Inductive preprocessed (A : Type) : Type := NotCallable | RNone | RDict (reader_args : option (list A)) | ROther.
Arguments NotCallable {A}. Arguments RNone {A}. Arguments RDict {A} _. Arguments ROther {A}.

(** rtprocess.py 679-703: the features (reader_args) of a run *)
Definition reader_args {A} (arg : option (list A)) (pre : preprocessed A) : res (list A) :=
  do setupdict <- match pre with NotCallable | RNone => Ok None | RDict r => Ok r | ROther => Err AssertionError end;   (* 679-687 *)
  match arg, setupdict with
  | None, None => Err AssertionError                                             (* 691-694 *)
  | None, Some r => Ok r                                                         (* 696 *)
  | Some _, Some _ => Err AssertionError                                         (* 698-701 *)
  | Some r, None => Ok r
  end.

(** ** the argument init_kwargs of the constructor *)
(** a value of the dict: a string, or a dict of the settings of a section *)
Inductive kwval : Type := KStr (s : string) | KDict (d : dict string string).

(** rtprocess.py 150-157 *)
Definition init_init_kwargs (arg : option (dict string kwval)) : res (dict string kwval) :=
  match arg with
  | None => Ok []
  | Some kw => if forallb (fun kv => match snd kv with KStr _ => true | KDict _ => false end) kw then Ok kw else Err AssertionError
  end.

(** rtprocess.py 279-295: [setup] applies them to the parsed config-file *)
Definition setup_init_kwargs (ini : config) (kw : dict string kwval) : res config :=
  fold_left (fun acc sv => do c <- acc;
    if in_config (fst sv) c then
      match snd sv with
      | KStr _ => Err AttributeError                                             (* 284: init_defs.items() *)
      | KDict d => Ok (fold_left (fun c kv => set_value c (fst sv) (fst kv) (snd kv)) d c)
      end
    else Err AssertionError) kw (Ok ini).
