(** Specification of logging: which log-files are open after a history of calls, which messages
    they get, and how messages are laid out. *)
From Coq Require Import String Ascii Arith Bool List.
From Verif Require Import Base Log_Model.
Import ListNotations.
Local Open Scope list_scope.

(** file and level of the log-file with the given name after the calls: the last call that is about
    this name counts *)
Fixpoint status (openable : string -> bool) (n : string) (ops : list op) (cur : option (string * nat)) : option (string * nat) :=
  match ops with
  | [] => cur
  | o :: r => status openable n r
      (match o with
       | Start p m l => if String.eqb m n then (if openable p then Some (p, l) else None) else cur
       | Stop m => if String.eqb m n then None else cur
       | SetLevel l m => if String.eqb m n then match cur with Some (p, _) => Some (p, l) | None => None end else cur
       | _ => cur
       end)
  end.
(** the level of the console: 21 (PROG.) until it is changed *)
Fixpoint console_level (ops : list op) (cur : nat) : nat :=
  match ops with
  | [] => cur
  | SetLevel l m :: r => console_level r (if String.eqb m console_name then l else cur)
  | _ :: r => console_level r cur
  end.
(** the names of log-files that were used *)
Definition file_names (ops : list op) : list string :=
  flat_map (fun o => match o with Start _ n _ => [n] | _ => [] end) ops.
(** no log-file is given the name of the console handler *)
Definition files_only (o : op) : Prop :=
  match o with Start _ n _ => n <> console_name | Stop n => n <> console_name | _ => True end.
Definition is_log (o : op) : bool := match o with Log _ _ => true | _ => false end.

(** how often a message of level l is written to p: once for each log-file of this path whose level allows it *)
Definition copies (openable : string -> bool) (ops : list op) (l : nat) (p : string) : nat :=
  length (filter (fun n => match status openable n ops None with Some (q, lv) => String.eqb q p && (lv <=? l) | None => false end)
                 (nodup string_dec (file_names ops))).
(** what was written to a place, as far as the user logged it *)
Definition texts (s : sink) (o : list (sink * msg)) : list string :=
  flat_map (fun e => match fst e, s, snd e with
    | Console, Console, Text t => [t]
    | File p, File q, Text t => if String.eqb p q then [t] else []
    | _, _, _ => [] end) o.

(** ** layout *)
(** the visible characters *)
Definition visible (l : list glyph) : list ascii := flat_map (fun g => match g with Ch a => [a] | Code _ => [] end) l.
Fixpoint join (ls : list (list ascii)) : list ascii :=
  match ls with [] => [] | [x] => x | x :: r => x ++ nl :: join r end.
Definition blank (l : list ascii) : bool := forallb is_space l.
(** a continuation line of a message starts at the column where the message starts *)
Definition shifted (n : nat) (l : list ascii) : list ascii := if blank l then l else repeat " "%char n ++ l.
Definition pad (n : nat) (l : list ascii) : list ascii := l ++ repeat " "%char (n - length l).
(** time, process and level in front of a message *)
Definition header (r : record) : list ascii :=
  list_ascii_of_string (r_time r) ++ list_ascii_of_string " - " ++
  pad 21 (list_ascii_of_string (r_process r)) ++ pad 8 (list_ascii_of_string (r_levelname r)).
Definition one_line (l : list ascii) : Prop := ~ In nl l.
(** records whose message has the lines first, rest: no line ends in the names, the last line has text *)
Definition well_formed (r : record) (first : list ascii) (rest : list (list ascii)) : Prop :=
  list_ascii_of_string (r_message r) = join (first :: rest) /\ Forall one_line (first :: rest) /\
  (exists a t, list_ascii_of_string (r_time r) = a :: t /\ is_space a = false) /\
  one_line (list_ascii_of_string (r_time r)) /\ one_line (list_ascii_of_string (r_process r)) /\
  one_line (list_ascii_of_string (r_levelname r)) /\ exists b t, last rest first = t ++ [b] /\ is_space b = false.
