(** Model of the attribute set_ID of HDFaccessor and of the context that forces numbers:
    /repo/rt1/rtresults.py [__init__] (498), [_numeric_ID] (570-578), [_load_fit] (587-681), the uses of set_ID in
    [_get_nids_iter] (872) and [select] (922).

    Simplification: of the tables only the way the IDs are shown is kept (true: names); what [_load_fit] does with the
    rows is Mf_Model, Hds_Model.  One thread. *)
From Coq Require Import Bool List.
From Verif Require Import Base.
Import ListNotations.

(** the outcome of the body of [_load_fit] after some of its reads: it returns (also None, 598) or raises; [reads]: the
    number of calls of get_id before *)
Record body : Type := mkbody { b_reads : nat; b_end : res unit }.

(** what a user does with an accessor: assign set_ID; get the next page of a generator, get_id or select; load a fit *)
Inductive op : Type := Assign (v : bool) | Read | Load (b : body).

(** rtresults.py:570-578 [_numeric_ID]: the flag is saved, set to False for the body, and restored in [finally] *)
Definition numeric_ID {A} (flag : bool) (f : bool -> A) : A * bool :=
  let setID := flag in let r := f false in (r, setID).
(** rtresults.py:587-681: how the tables that the body reads are shown, and its outcome *)
Definition load_fit (b : body) (flag : bool) : (list bool * res unit) * bool :=
  numeric_ID flag (fun fl => (repeat fl (b_reads b), b_end b)).

(** one step: the new flag, how the tables for the user are shown, how those inside [_load_fit] are shown *)
Definition step (flag : bool) (o : op) : bool * list bool * list bool :=
  match o with
  | Assign v => (v, [], [])
  | Read => (flag, [flag], [])
  | Load b => let '((inside, _), fl) := load_fit b flag in (fl, [], inside)
  end.
(** a session: the final flag, what the user has seen, what the loads have seen *)
Fixpoint session (flag : bool) (ops : list op) : bool * list bool * list bool :=
  match ops with
  | [] => (flag, [], [])
  | o :: r => let '(fl, u, i) := step flag o in
              let '(fl', u', i') := session fl r in (fl', u ++ u', i ++ i')
  end.
