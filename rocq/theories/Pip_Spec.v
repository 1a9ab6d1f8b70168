(** Specification vocabulary for the processing pipeline (C48-C52, C90). *)
From Coq Require Import List Arith Bool String Ascii.
From Verif Require Import Base Str_Model Pip_Model.
Import ListNotations.
Open Scope string_scope.

Section Spec.
Context {Job Row : Type}.
Notation value := (@value Row).
Notation result := (@result Row).
Notation state := (@state Job Row).
Notation params := (@params Job Row).

(** the rows a value contributes *)
Definition val_rows (v : value) : list Row :=
  match v with Frame rs => rs | Scalar r => [r] | Obj => [] end.

(** the key of a layer: NAME for "const__NAME", otherwise the key itself *)
Definition layer (cfg : string) : string := if startswith "const__" cfg then drop 7 cfg else cfg.

(** the layers of a result and their values, as documented in
    [_combiner_process]: constant layers under their name, the layers of a
    configuration under config/layer *)
Definition layers (r : result) : list (string * value) :=
  flat_map (fun e => match snd e with
                     | Leaf v => [(layer (fst e), v)]
                     | Sub d => map (fun kv => (fst e ++ "/" ++ fst kv, snd kv)) d
                     end) r.

(** all rows of a result with the key of their layer *)
Definition result_rows (r : result) : list (string * Row) :=
  flat_map (fun kv => map (pair (fst kv)) (val_rows (snd kv))) (layers r).

(** the rows a task contributes *)
Definition job_rows (p : params) (j : Job) : list (string * Row) :=
  match what p j with Returns (MDict r) => result_rows r | _ => [] end.

(** no constant layer has a name that starts with one of c, o, n, s, t, _ *)
Definition safe_name (n : string) : Prop :=
  match n with EmptyString => True | String c _ => ~ In c (list_ascii_of_string "const_") end.
Definition names_ok (r : result) : Prop :=
  forall n c, In ("const__" ++ n, c) r -> safe_name n.

(** every layer holds tables only ([kind k = true]) or numbers only, and
    constant layers are not dicts *)
Definition uniform (kind : string -> bool) (r : result) : Prop :=
  (forall n d, ~ In ("const__" ++ n, Sub d) r) /\
  forall k v, In (k, v) (layers r) ->
    match v with Frame _ => kind k = true | Scalar _ => kind k = false | Obj => False end.

(** all tasks return dicts of this kind, or None, or raise, or have no data *)
Definition good_task (kind : string -> bool) (o : @outcome Row) : Prop :=
  match o with
  | Returns (MDict r) => names_ok r /\ uniform kind r
  | Returns MBad => False
  | _ => True
  end.

(** an execution from the start *)
Definition executes (p : params) (jobs : list Job) (es : list event) (s : state) : Prop :=
  run p es (init p jobs) = Some s.

(** no append fails, no signal arrives *)
Definition undisturbed (es : list event) : Prop := ~ In Signal es /\ forall w, ~ In (SFail w) es.

(** items that end up in the queue, and dicts among them *)
Definition queued (p : params) (j : Job) : nat := match what p j with NoData => 0 | _ => 1 end.
Definition dicts (p : params) (j : Job) : nat := match what p j with Returns (MDict _) => 1 | _ => 0 end.
(** sum over a list *)
Definition total (f : Job -> nat) (l : list Job) : nat := fold_right (fun j n => f j + n) 0 l.
(** what a task puts in the queue, what a combiner has just taken, and everything not yet counted *)
Definition result_of (p : params) (j : Job) : list (@msg Row) := match what p j with NoData => [] | Raises => [MNone] | Returns m => [m] end.
Definition held (x : @comb Row) : list (@msg Row) := match c_pc x with CHave m => [m] | _ => [] end.
Definition uncounted (p : params) (s : state) : list (@msg Row) :=
  (queue s ++ flat_map held (combs s) ++ flat_map (result_of p) (todo s ++ running s))%list.
(** results (a dict, or None for a failed task), and dicts among them *)
Definition results_in (l : list (@msg Row)) : nat := List.length (filter (fun m => match m with MBad => false | _ => true end) l).
Definition dicts_in (l : list (@msg Row)) : nat := List.length (filter (fun m => match m with MDict _ => true | _ => false end) l).
End Spec.
