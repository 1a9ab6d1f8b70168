(** Model of the paged access to stored tables: /repo/rt1/rtresults.py
    [HDFaccessor._chunks], [_get_vals], [_get_nids], [_get_id],
    [_get_nids_iter], [iloc_level]. *)
From Coq Require Import String Arith ZArith Bool List.
From Verif Require Import Base.
Import ListNotations.

Section Pag.
Context {V : Type}.

(** One row of a stored table (rtresults.py 683-892): the number of the ID in
    the (first level of the) index, whether this number has been replaced by
    the name of the ID, and the remaining content of the row (further index
    levels and values, arbitrary). *)
Record prow := mkrow { p_id : Z; p_named : bool; p_val : V }.

(** rtresults.py 683-687 [_chunks]: the slices lst[i : i + n] for i in
    range(0, len(lst), n); range() raises ValueError for step 0.  (negative n
    not modelled) *)
Definition chunks {A} (l : list A) (n : nat) : res (list (list A)) :=
  if Nat.eqb n 0 then Err ValueError
  else Ok (map (fun i => firstn n (skipn (i * n) l)) (seq 0 ((List.length l + n - 1) / n))).

(** rtresults.py 704-708: the rows of the table whose ID is among
    [ids], in the order of the table *)
Definition read_ids (tbl : list prow) (ids : list Z) : list prow :=
  filter (fun r => existsb (Z.eqb (p_id r)) ids) tbl.

(** rtresults.py 689-709 [_get_vals]: the list of all frames the generator
    yields (it is consumed lazily, reading has no effects); [ids] =
    self.IDs.index.  Simplification: start >= 0. *)
Definition get_vals (tbl : list prow) (ids : list Z) (chunksize : nat) (start : option nat) : res (list (list prow)) :=
  let s := match start with Some k => k | None => 0 end in
  if negb (Nat.eqb s 0) && negb (Nat.ltb s (List.length ids)) then Err AssertionError       (* 698-702 *)
  else do cs <- chunks (skipn s ids) chunksize; Ok (map (read_ids tbl) cs).                 (* 703-708 *)

(** insertion into a sorted list without duplicates (order of pandas' index levels) *)
Fixpoint insert_id (x : Z) (l : list Z) : list Z :=
  match l with
  | [] => [x]
  | y :: r => if Z.eqb x y then l else if Z.ltb x y then x :: l else y :: insert_id x r
  end.
(** [df.index.levels[0]]: the IDs of the rows, sorted, once each
    (rtresults.py 972-978; names keep the order of their numbers, set_levels) *)
Definition levels (d : list prow) : list Z := fold_right insert_id [] (map p_id d).

(** rtresults.py 964-1001 [iloc_level(df, slice(lo, hi))]: the rows whose ID is
    among the selected ones; frames without MultiIndex have no .levels *)
Definition iloc_level (multi : bool) (d : list prow) (lo : nat) (hi : option nat) : res (list prow) :=
  if multi then
    let sel := skipn lo (match hi with Some h => firstn h (levels d) | None => levels d end) in
    Ok (filter (fun r => existsb (Z.eqb (p_id r)) sel) d)
  else Err AttributeError.

(** rtresults.py 872-880: the numbers are replaced by the names; names that are
    already there are not in the (numeric) index of self.IDs: KeyError *)
Definition set_names (set_ID : bool) (ids : list Z) (d : list prow) : res (list prow) :=
  if set_ID then
    mapM (fun r => if p_named r then Err KeyError
                   else if existsb (Z.eqb (p_id r)) ids then Ok (mkrow (p_id r) true (p_val r)) else Err KeyError) d
  else Ok d.

(** what an exception inside the generator becomes for the caller (PEP 479) *)
Definition in_generator (e : pyerr) : pyerr := match e with StopIteration => RuntimeError | _ => e end.

(** rtresults.py 863-892: the loop of [_get_nids_iter].  [i], [ret]: the
    variables of the loop (ret: a list of frames); [data]: what data_gen will
    still yield.  The result lists the yielded frames and the exception that
    ends the iteration. *)
Fixpoint page_loop (multi set_ID : bool) (ids : list Z) (nids rc : nat) (i : nat) (ret : list (list prow)) (data : list (list prow))
  : list (list prow) * option pyerr :=
  match data with
  | [] => (match ret with [] => [] | _ => [concat ret] end, None)                            (* 890-892 *)
  | d :: rest =>
    let ret := ret ++ [d] in                                                                 (* 864 *)
    if Nat.eqb (nids / rc) 0 then ([], Some ZeroDivisionError)                               (* 866 *)
    else if Nat.eqb ((i + 1) mod (nids / rc)) 0 then
      if negb (Nat.eqb (nids mod rc) 0) then                                                 (* 867 *)
        match rest with
        | [] => ([], Some (in_generator StopIteration))                                      (* 868 *)
        | d2 :: rest2 =>
          match (do x <- iloc_level multi d2 0 (Some (nids mod 10));                         (* 869 *)
                 set_names set_ID ids (concat (ret ++ [x]))) with                            (* 871-879 *)
          | Err e => ([], Some (in_generator e))
          | Ok page =>                                                                       (* 880 *)
            match iloc_level multi page (nids mod 10) None with                              (* 883 *)
            | Err e => ([page], Some (in_generator e))
            | Ok r => let '(ps, e) := page_loop multi set_ID ids nids rc (S i) [r] rest2 in (page :: ps, e)
            end
          end
        end
      else
        match set_names set_ID ids (concat ret) with                                         (* 871-879 *)
        | Err e => ([], Some (in_generator e))
        | Ok page => let '(ps, e) := page_loop multi set_ID ids nids rc (S i) [] rest in (page :: ps, e)   (* 880, 885 *)
        end
    else page_loop multi set_ID ids nids rc (S i) ret rest
  end.

(** rtresults.py 795-892 [_get_nids_iter] for integer [nids] (nids >= 0; lists
    and strings end with a TypeError at [min], line 827).  [multi]: the table
    has a MultiIndex; [ids] = self.IDs.index. *)
Definition get_nids_iter (multi set_ID : bool) (tbl : list prow) (ids : list Z) (nids : nat) (start : option nat) (read_chunksize : option nat)
  : list (list prow) * option pyerr :=
  let nids := Nat.min (List.length ids) nids in                                              (* 827 *)
  let rc := match read_chunksize with
            | Some k => k
            | None => if multi then Nat.min 10 nids else nids                                (* 833-840 *)
            end in
  match get_vals tbl ids rc start with                                                       (* 846-849 *)
  | Err e => ([], Some (in_generator e))
  | Ok data => page_loop multi set_ID ids nids rc 0 [] data
  end.

(** rtresults.py 729-764 [_get_nids]: next() of the generator; without any
    frame StopIteration *)
Definition get_nids (multi set_ID : bool) (tbl : list prow) (ids : list Z) (nids : nat) (start : option nat) (read_chunksize : option nat)
  : res (list prow) :=
  match get_nids_iter multi set_ID tbl ids nids start read_chunksize with
  | (p :: _, _) => Ok p
  | ([], Some e) => Err e
  | ([], None) => Err StopIteration
  end.

(** [self.IDs.index.get_loc(n)], rtresults.py 790 (unique index) *)
Fixpoint get_loc (n : Z) (ids : list Z) : res nat :=
  match ids with
  | [] => Err KeyError
  | x :: r => if Z.eqb n x then Ok 0 else do k <- get_loc n r; Ok (S k)
  end.

(** rtresults.py 769-793 [_get_id] for an integer *)
Definition get_id (multi set_ID : bool) (tbl : list prow) (ids : list Z) (n : Z) : res (list prow) :=
  do k <- get_loc n ids; get_nids multi set_ID tbl ids 1 (Some k) None.

(** rtresults.py 766-767 [_ID_to_IDnum]: the number of the first ID with this
    name; [names]: the rows of self.IDs *)
Definition ID_to_IDnum (names : list (Z * string)) (ID : string) : res Z :=
  match filter (fun p => String.eqb (snd p) ID) names with
  | [] => Err IndexError
  | p :: _ => Ok (fst p)
  end.

(** rtresults.py 787-793 [_get_id] for a name *)
Definition get_id_named (multi set_ID : bool) (tbl : list prow) (names : list (Z * string)) (ID : string) : res (list prow) :=
  do n <- ID_to_IDnum names ID; get_id multi set_ID tbl (map fst names) n.
End Pag.
Arguments prow V : clear implicits.
Arguments mkrow {V} p_id p_named p_val.
