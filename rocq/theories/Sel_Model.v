(** Model of the selectors of the tables of a HDF container: /repo/rt1/rtresults.py [_subselector] (912-961, [select] 919-931),
    [_cfgselector] (900-909), and the life of the HDFaccessor behind them ([__init__] 497-537, [__del__] 546-548, [close]
    566-568, [__exit__] 542-544).

    Simplifications: a row is its number, the remaining levels and values (opaque), and a condition [where] selects rows;
    the condition is evaluated by pandas. *)
From Coq Require Import String List ZArith Bool.
From Verif Require Import Base Pag_Model.
Import ListNotations.

Section Select.
Context {V : Type}.
(** a stored row: number of the ID and contents; a selected row has a name instead if set_ID is True *)
Definition srow : Type := (Z * V)%type.
(** the index of the result: numbers (set_ID=False) or names *)
Inductive label : Type := Num (n : Z) | Name (s : string).

(** self._parent().IDs.loc[numbers].ID: the names of the numbers; a KeyError if one is missing ([names]: the rows of IDs; numbers are unique) *)
Definition names_of (names : list (Z * string)) (ns : list Z) : res (list string) :=
  mapM (fun n => match dget Z.eq_dec n names with Some s => Ok s | None => Err KeyError end) ns.
(** ret.index.levels[0]: the numbers in the index, sorted, once each *)
Definition levels0 (rows : list srow) : list Z := fold_right insert_id [] (map fst rows).
(** ret.index.codes[0]: the position of a number in the level *)
Fixpoint code (n : Z) (ls : list Z) : nat := match ls with [] => 0 | x :: r => if Z.eqb n x then 0 else S (code n r) end.
(** are all of them different? *)
Fixpoint distinct (l : list string) : bool := match l with [] => true | x :: r => negb (inb string_dec x r) && distinct r end.
(** MultiIndex.set_levels(new, level=0): the codes stay; a ValueError if new values are not unique *)
Definition set_levels (rows : list srow) (new : list string) : res (list (label * V)) :=
  if negb (distinct new) then Err ValueError else
  mapM (fun r => match nth_error new (code (fst r) (levels0 rows)) with Some s => Ok (Name s, snd r) | None => Err IndexError end) rows.

(** rtresults.py 919-931 [select]; [multi]: the table has a MultiIndex *)
Definition select (multi set_ID : bool) (IDs : option (list (Z * string))) (tbl : list srow) (where_ : srow -> bool) : res (list (label * V)) :=
  let ret := filter where_ tbl in                                                  (* 920 *)
  if set_ID then
    match IDs with None => Err AttributeError | Some names =>                      (* 516-517: IDs is None without "reader_arg" *)
    if multi then do new <- names_of names (levels0 ret); set_levels ret new       (* 923-926 *)
    else do new <- names_of names (map fst ret);                                   (* 927-929 *)
         Ok (combine (map Name new) (map snd ret)) end
  else Ok (map (fun r => (Num (fst r), snd r)) ret).
End Select.

(** ** the accessor behind a selector *)
(** an accessor: does it have a table "init_dict" (535-537: self.load_fit = self._load_fit, a reference of the object to
    itself); is there a variable for it; has the object been deleted; has the store been closed *)
Record accessor : Type := mkacc { a_init : bool; a_held : bool; a_gone : bool; a_closed : bool }.
(** a new accessor that is held by the caller *)
Definition open_acc (init : bool) : accessor := mkacc init true false false.
(** what happens: the last variable is deleted (or the accessor was a temporary value of an expression), the garbage
    collector runs (546-548, 566-568 or Python itself), the store is closed, or a selector (that is still held) is used *)
Inductive aop : Type := Drop | Gc | Close | Use.
(** deleting an object runs __del__ (546-548): the store is closed *)
Definition delete (a : accessor) : accessor := mkacc (a_init a) false true true.
(** one of these; without references an object is deleted at once, with a reference to itself when the collector runs *)
Definition astep (a : accessor) (o : aop) : accessor :=
  match o with
  | Drop => if a_init a then mkacc (a_init a) false (a_gone a) (a_closed a) else delete a
  | Gc => if a_held a then a else delete a
  | Close => mkacc (a_init a) (a_held a) (a_gone a) true
  | Use => a
  end.
(** rtresults.py 915-920, 934-961: [self._parent()] is None if the object was deleted; reading from a closed store fails
    (pandas ClosedFileError, written RuntimeError) *)
Definition use (a : accessor) : res unit := if a_gone a then Err AttributeError else if a_closed a then Err RuntimeError else Ok tt.
(** the results of the uses of a selector in a session *)
Fixpoint uses (a : accessor) (l : list aop) : list (res unit) :=
  match l with
  | [] => []
  | Use :: r => use a :: uses a r
  | o :: r => uses (astep a o) r
  end.
