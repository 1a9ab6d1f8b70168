(** Model of the logging of rt1: /repo/rt1/__init__.py [set_log_handler_level] (35-61),
    [start_log_to_file] (64-103), [stop_log_to_file] (106-127), the formatters (129-203),
    [setup_logger] (206-230), and of Python's logging module as far as they use it.
    Not modelled: other loggers, logging.disable, filters, the queue-handlers of a run (Run_Model). *)
From Coq Require Import String Ascii Arith Bool List.
From Verif Require Import Base.
Import ListNotations.
Local Open Scope list_scope.

(** where a handler writes to: sys.stdout, a file, something of the user, and stderr as the last
    resort of the logging module if there are no handlers *)
Inductive sink := Console | File (path : string) | Custom (n : nat) | LastResort.
(** a handler: identity, name, level *)
Record handler := mkh { h_id : nat; h_name : string; h_level : nat; h_sink : sink }.
(** messages: of the user, and those logged by the functions below (__init__.py 98-100, 123-126, 228) *)
Inductive msg := Text (s : string) | Added (name path : string) | Removed (i : nat) (name path : string) | SetUp.

(** the state of the logging module: level and handlers of the root logger and of the logger "rt1"
    (level 0: not set), a counter for identities, and everything that was written so far *)
Record lst := mklst { root_level : nat; root_handlers : list handler; level : nat; handlers : list handler;
  next : nat; out : list (sink * msg) }.

(** the name of the console handler (__init__.py 225) *)
Definition console_name : string := "rt1_consolehandler".

(** Python's logging: the level that is in effect *)
Definition effective (st : lst) : nat := if level st =? 0 then root_level st else level st.
(** Python's logging: what a message of the logger "rt1" is written to (callHandlers, propagate is True) *)
Definition targets (st : lst) (l : nat) : list sink :=
  match handlers st ++ root_handlers st with
  | [] => if 30 <=? l then [LastResort] else []
  | hs => map h_sink (filter (fun h => h_level h <=? l) hs)
  end.
(** log.log(l, m) *)
Definition emit (l : nat) (m : msg) (st : lst) : lst :=
  if l <? effective st then st
  else mklst (root_level st) (root_handlers st) (level st) (handlers st) (next st) (out st ++ map (fun s => (s, m)) (targets st l)).
(** logger.addHandler of a new handler *)
Definition add_handler (n : string) (l : nat) (s : sink) (st : lst) : lst :=
  mklst (root_level st) (root_handlers st) (level st) (handlers st ++ [mkh (next st) n l s]) (S (next st)) (out st).
(** logger.removeHandler(h) *)
Definition remove_handler (i : nat) (st : lst) : lst :=
  mklst (root_level st) (root_handlers st) (level st) (filter (fun h => negb (h_id h =? i)) (handlers st)) (next st) (out st).
(** logger.setLevel(l) *)
Definition set_level (l : nat) (st : lst) : lst :=
  mklst (root_level st) (root_handlers st) l (handlers st) (next st) (out st).

(** __init__.py 206-230 [setup_logger] with its default arguments; hasHandlers() also looks at the root logger *)
Definition setup_logger (st : lst) : lst :=
  match handlers st ++ root_handlers st with
  | _ :: _ => st
  | [] => emit 10 SetUp (add_handler console_name 21 Console (set_level 10 st))
  end.

(** h.setLevel(l) for the first handler with the name *)
Fixpoint set_first (n : string) (l : nat) (hs : list handler) : option (list handler) :=
  match hs with
  | [] => None
  | h :: r => if String.eqb (h_name h) n then Some (mkh (h_id h) (h_name h) l (h_sink h) :: r)
              else match set_first n l r with Some r' => Some (h :: r') | None => None end
  end.
(** __init__.py 35-61 [set_log_handler_level] *)
Definition set_log_handler_level (l : nat) (n : string) (st : lst) : lst * res unit :=
  let st := setup_logger st in
  match set_first n l (handlers st) with
  | None => (st, Err IndexError)                                                     (* 60 *)
  | Some hs => (mklst (root_level st) (root_handlers st) (level st) hs (next st) (out st), Ok tt)
  end.

(** the loop of __init__.py 120-126 over the handlers with the name; only file-handlers have a baseFilename *)
Fixpoint close_all (n : string) (i : nat) (hs : list handler) (st : lst) : lst * res unit :=
  match hs with
  | [] => (st, Ok tt)
  | h :: r =>
      let st := remove_handler (h_id h) st in
      match h_sink h with
      | File p => close_all n (S i) r (emit 10 (Removed (S i) n p) st)
      | _ => (st, Err AttributeError)                                               (* 125 *)
      end
  end.
(** __init__.py 106-127 [stop_log_to_file] *)
Definition stop_log_to_file (n : string) (st : lst) : lst * res unit :=
  let st := setup_logger st in
  close_all n 0 (filter (fun h => String.eqb (h_name h) n) (handlers st)) st.

Section Files.
(** can the file be opened for writing (logging.FileHandler, 89) *)
Variable openable : string -> bool.

(** __init__.py 64-103 [start_log_to_file]; an OSError of FileHandler is written RuntimeError *)
Definition start_log_to_file (p n : string) (l : nat) (st : lst) : lst * res unit :=
  match stop_log_to_file n st with
  | (st, Err e) => (st, Err e)
  | (st, Ok _) =>
      let st := setup_logger st in
      if openable p then (emit 10 (Added n p) (add_handler n l (File p) st), Ok tt)
      else (st, Err RuntimeError)
  end.

(** what a user does: the functions of rt1, messages with the logger of rt1 (log.progress is level 21,
    __init__.py 23-32), and a handler for the root logger (logging.basicConfig) *)
Inductive op :=
| Start (p n : string) (l : nat) | Stop (n : string) | SetLevel (l : nat) (n : string)
| Log (l : nat) (s : string) | BasicConfig (l : nat) (s : nat).

(** one call: the new state and whether it raises *)
Definition step (st : lst) (o : op) : lst * res unit :=
  match o with
  | Start p n l => start_log_to_file p n l st
  | Stop n => stop_log_to_file n st
  | SetLevel l n => set_log_handler_level l n st
  | Log l s => (emit l (Text s) st, Ok tt)
  | BasicConfig l s =>
      match root_handlers st with
      | [] => (mklst l [mkh (next st) "" 0 (Custom s)] (level st) (handlers st) (S (next st)) (out st), Ok tt)
      | _ => (st, Ok tt)
      end
  end.

(** the state before the import of rt1, with the root logger of the user *)
Definition start (rl : nat) (rh : list handler) : lst := mklst rl rh 0 [] (S (list_max (map h_id rh))) [].
(** after the import (__init__.py 233) and the calls *)
Definition session (rl : nat) (rh : list handler) (ops : list op) : lst :=
  fold_left (fun st o => fst (step st o)) ops (setup_logger (start rl rh)).
End Files.

(** ** the formatters.  Texts are lists of characters and colour-codes *)
Inductive glyph := Ch (a : ascii) | Code (n : nat).
(** Simplified: line ends are "\n" only *)
Definition nl : ascii := "010"%char.
(** str.isspace for ASCII *)
Definition is_space (a : ascii) : bool := let n := nat_of_ascii a in ((9 <=? n) && (n <=? 13)) || ((28 <=? n) && (n <=? 32)).
(** a text without codes (no /repo code) *)
Definition txt (s : string) : list glyph := map Ch (list_ascii_of_string s).
(** str.splitlines(True): the lines, each with its line end *)
Fixpoint splitlines (l : list glyph) : list (list glyph) :=
  match l with
  | [] => []
  | Ch a :: r => if Ascii.eqb a nl then [Ch a] :: splitlines r
                 else match splitlines r with [] => [[Ch a]] | x :: xs => (Ch a :: x) :: xs end
  | c :: r => match splitlines r with [] => [[c]] | x :: xs => (c :: x) :: xs end
  end.
(** is a glyph white space (codes are not: escape is no white space) *)
Definition g_space (g : glyph) : bool := match g with Ch a => is_space a | Code _ => false end.
(** textwrap.indent: lines that are not only white space get the prefix *)
Definition indent (n : nat) (l : list glyph) : list glyph :=
  flat_map (fun x => if forallb g_space x then x else repeat (Ch " "%char) n ++ x) (splitlines l).
(** str.lstrip *)
Fixpoint lstrip (l : list glyph) : list glyph :=
  match l with g :: r => if g_space g then lstrip r else l | [] => [] end.
(** str.strip *)
Definition strip (l : list glyph) : list glyph := rev (lstrip (rev (lstrip l))).
(** "%-21s" and "%-8s" *)
Definition ljust (n : nat) (s : string) : string :=
  string_of_list_ascii (list_ascii_of_string s ++ repeat " "%char (n - String.length s)).

(** a record: time, name of the process, level, name of the level, message (with the text of an exception) *)
Record record := mkrec { r_time : string; r_process : string; r_level : nat; r_levelname : string; r_message : string }.
(** __init__.py 183-190: the simple format (the default, 206-218) *)
Definition logfmt (r : record) : string := (ljust 21 (r_process r) ++ ljust 8 (r_levelname r) ++ r_message r)%string.
(** __init__.py 129-138, 198-202, 90: files *)
Definition format_plain (r : record) : list glyph :=
  strip (indent 51 (txt (r_time r ++ " - " ++ logfmt r)%string)).
(** __init__.py 147-154: the levels that have a colour *)
Definition colour (l : nat) : option nat :=
  match l with 10 => Some 1 | 20 => Some 2 | 30 => Some 3 | 40 => Some 4 | 50 => Some 4 | 21 => Some 5 | _ => None end.
(** __init__.py 141-166, 192-196: the console (with colorama).  Code 0 is RESET_ALL, 6 is LIGHTWHITE_EX *)
Definition format_coloured (r : record) : res (list glyph) :=
  match colour (r_level r) with
  | None => Err TypeError                                                            (* 161-162: str + None *)
  | Some c =>
      Ok (strip (indent 51 (Code 6 :: txt (r_time r) ++ Code 0 :: txt " - " ++ Code c :: txt (logfmt r) ++ [Code 0])))
  end.
