(** Specification vocabulary for C177, C178 *)
From Coq Require Import String List ZArith Bool Permutation.
From Verif Require Import Base Ids_Model Pip_Model Pip_Spec Pag_Model E2e_Model.
Import ListNotations.

Section Tables.
Context {Job Row : Type}.
(** the tables a task returns: the name of the layer and its rows *)
Definition job_tables (p : @params Job Row) (j : Job) : list (string * list Row) :=
  match what p j with Returns (MDict r) => map (fun kv => (fst kv, val_rows (snd kv))) (layers r) | _ => [] end.
(** tables written one after the other, each in one piece *)
Definition written (ts : list (string * list Row)) : list (string * Row) := flat_map (fun t => map (pair (fst t)) (snd t)) ts.
(** the rows of the table [k] *)
Definition select (k : string) (ts : list (string * list Row)) : list Row :=
  flat_map (fun t => if String.eqb (fst t) k then snd t else []) ts.
End Tables.

Section Runs.
Context {V Arg : Type}.
Variable name_of : V -> string.
Variable raw_id feature_id : Arg -> string.
Variable ok : list Arg -> Prop.

(** What the task of the feature [fst j] with the number [snd j] returns (if it returns anything): tables whose rows
    carry this number, among them the table "reader_arg" with one row that holds the ID of the feature *)
Definition sound_task (p : @params (Arg * Z) (prow V)) (j : Arg * Z) : Prop :=
  (forall k r, In (k, r) (job_rows p j) -> p_id r = snd j /\ p_named r = false) /\
  (forall d, what p j = Returns (MDict d) ->
     NoDup (map fst (layers d)) /\
     exists v, name_of v = raw_id (fst j) /\ select "reader_arg" (job_tables p j) = [mkrow (snd j) false v]).

(** Any number of complete runs, one after the other, on the same container, each with its own arguments, numbers of
    processes, settings and interleaving; the second argument lists the features processed with success so far, their
    numbers and the tables their tasks returned *)
Inductive runs : @container V -> list (Arg * Z * list (string * list (prow V))) -> Prop :=
| runs_new : runs None []
| runs_run c log args todo p kind es s created :
    runs c log -> ok args -> check_IDs feature_id (file_of name_of c) args = Ok todo ->
    1 <= n_combiner p -> 1 <= n_writer p ->
    (forall j, In j todo -> good_task kind (what p j)) -> (forall j, In j todo -> sound_task p j) ->
    undisturbed es -> executes p todo es s -> main s = PEnd ->
    runs (append_run created c (store s))
         (log ++ flat_map (fun j => match what p j with Returns (MDict _) => [(j, job_tables p j)] | _ => [] end) todo)%list.
End Runs.
