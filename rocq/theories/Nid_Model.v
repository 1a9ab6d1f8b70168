(** Model of the arguments of HDFaccessor._get_nids_iter that are not natural numbers:
    /repo/rt1/rtresults.py [_get_nids_iter] (795-861) and [_get_vals_with_IDs] (711-727); the loop is that of Pag_Model. *)
From Coq Require Import String Arith ZArith Bool List.
From Verif Require Import Base Pag_Model.
Import ListNotations.

(** what can be given as [nids]: an integer, a string, a list (tuple, set, ...) of IDs, or a numpy array (pandas Index,
    Series) of IDs with at least one element *)
Inductive nid : Type := NInt (n : Z) | NStr (s : string) | NList (l : list Z) | NArr (x : Z) (l : list Z).

Section Nid.
Context {V : Type}.
(** [slice(start, None)] (rtresults.py:703) with a negative [start]: counted from the end *)
Definition slice_start (len : nat) (start : option Z) : option nat :=
  match start with
  | None => None
  | Some s => Some (if (s <? 0)%Z then Z.to_nat (Z.of_nat len + s) else Z.to_nat s)
  end.
(** rtresults.py:711-727 [_get_vals_with_IDs]: all frames *)
Definition get_vals_with_IDs (tbl : list (prow V)) (use_ids : list Z) (chunksize : nat) : res (list (list (prow V))) :=
  do cs <- chunks use_ids chunksize; Ok (map (read_ids tbl) cs).
(** rtresults.py:795-892 [_get_nids_iter] (without [read_chunksize]).
    827 [min(len(self.IDs), nids)]: integers and lists or strings cannot be compared; comparing an array gives an array,
    which has a truth value only if it has one element.
    846: a negative number of IDs makes the range of [_chunks] empty (after the assertion 698-702). *)
Definition get_nids_iter_any (multi set_ID : bool) (tbl : list (prow V)) (ids : list Z) (nids : nid) (start : option Z)
  : list (list (prow V)) * option pyerr :=
  let len := List.length ids in
  let s := slice_start len start in
  match nids with
  | NStr _ | NList _ => ([], Some TypeError)                                                       (* 827 *)
  | NArr _ (_ :: _) => ([], Some ValueError)                                                       (* 827 *)
  | NArr x [] =>
      if (x <? Z.of_nat len)%Z then
        match get_vals_with_IDs tbl [x] 1 with                                                     (* 842, 856-861 *)
        | Err e => ([], Some (in_generator e))
        | Ok data => page_loop multi set_ID ids 1 1 0 [] data
        end
      else get_nids_iter multi set_ID tbl ids len s None
  | NInt n =>
      if (n <? 0)%Z then
        match s with
        | Some k => if negb (Nat.eqb k 0) && negb (Nat.ltb k len) then ([], Some AssertionError) else ([], None)
        | None => ([], None)
        end
      else get_nids_iter multi set_ID tbl ids (Z.to_nat n) s None
  end.
End Nid.
