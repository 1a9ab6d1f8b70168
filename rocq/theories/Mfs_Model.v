(** Model of the attributes that the configurations of a MultiFits object share:
    /repo/rt1/rtfits.py MultiFits.[__init__] (3194-3211), [ID], [set_dataset], [set_aux_data], [set_reader_arg],
    [set_ID] (3236-3300) and [add_config] (3345-3373).

    Simplifications: fit objects and MultiFits objects are numbers; names of configurations are accepted ones (C62
    treats rejected names and the name "_parent"); caches are not modelled (C61). *)
From Coq Require Import Arith Bool String List.
From Verif Require Import Base.
Import ListNotations.
Local Open Scope string_scope.
Local Open Scope list_scope.

Section Mfs.
(** values of attributes *)
Variable A : Type.
(** rtfits.py:438-447 [_check_monotonic_dataset_index]: the dataset with a sorted index *)
Variable check : A -> A.
(** rtfits.py:421-428: the setter of Fits.ID *)
Variable idf : A -> A.

(** rtfits.py:3194-3211: names, the attributes of its _FitContainer, _dataset, _aux_data, _reader_arg *)
Record multi : Type := mkmulti { m_names : list string; m_fit : dict string nat; m_dataset : A; m_aux : A; m_reader : A }.
(** all MultiFits objects, and the attributes of all fit objects *)
Record state : Type := mkstate { s_multi : nat -> multi; s_fit : nat -> dict string A }.

(** plain update of one entry *)
Definition upd {B} (f : nat -> B) (i : nat) (x : B) : nat -> B := fun j => if Nat.eqb j i then x else f j.
(** object.__setattr__ of a fit *)
Definition setattr (fs : nat -> dict string A) (o : nat) (k : string) (v : A) : nat -> dict string A := upd fs o (dset string_dec k v (fs o)).
(** rtfits.py:3283-3300: [for name in self.config_names: getattr(self.configs, name).k = v] (every name of config_names
    is an attribute of the container) *)
Definition set_all (m : multi) (k : string) (v : A) (fs : nat -> dict string A) : nat -> dict string A :=
  fold_left (fun fs n => match dget string_dec n (m_fit m) with Some o => setattr fs o k v | None => fs end) (m_names m) fs.

(** what a user can do with the objects *)
Inductive op : Type :=
| Add (c : nat) (name : string) (o : nat)
| SetDataset (c : nat) (v : A)
| SetAux (c : nat) (v : A)
| SetReader (c : nat) (v : A)
| SetID (c : nat) (v : A)
| FitSet (o : nat) (k : string) (v : A).

(** one operation *)
Definition step (s : state) (x : op) : state :=
  match x with
  | Add c n o =>                                                                   (* 3368-3373 *)
      let m := s_multi s c in
      let fs := setattr (setattr (s_fit s) o "dataset" (check (m_dataset m))) o "aux_data" (m_aux m) in
      mkstate (upd (s_multi s) c (mkmulti (m_names m ++ [n]) (dset string_dec n o (m_fit m)) (m_dataset m) (m_aux m) (m_reader m))) fs
  | SetDataset c v =>                                                              (* 3281-3286 *)
      let m := s_multi s c in
      mkstate (upd (s_multi s) c (mkmulti (m_names m) (m_fit m) (check v) (m_aux m) (m_reader m))) (set_all m "dataset" (check v) (s_fit s))
  | SetAux c v =>                                                                  (* 3288-3291 *)
      let m := s_multi s c in
      mkstate (upd (s_multi s) c (mkmulti (m_names m) (m_fit m) (m_dataset m) v (m_reader m))) (set_all m "aux_data" v (s_fit s))
  | SetReader c v =>                                                               (* 3293-3296 *)
      let m := s_multi s c in
      mkstate (upd (s_multi s) c (mkmulti (m_names m) (m_fit m) (m_dataset m) (m_aux m) v)) (set_all m "reader_arg" v (s_fit s))
  | SetID c v => mkstate (s_multi s) (set_all (s_multi s c) "ID" (idf v) (s_fit s))  (* 3298-3300 *)
  | FitSet o k v => mkstate (s_multi s) (setattr (s_fit s) o k v)
  end.
(** 3194-3211: MultiFits(dataset, aux_data, reader_arg) objects without configurations, and some fit objects *)
Definition init (args : nat -> A * A * A) (fs : nat -> dict string A) : state :=
  mkstate (fun c => let '(d, a, r) := args c in mkmulti [] [] (check d) a r) fs.
(** any sequence of operations *)
Definition run (args : nat -> A * A * A) (fs : nat -> dict string A) (ops : list op) : state := fold_left step ops (init args fs).

(** rtfits.py:3142-3149: getattr(multi.configs[name], attribute) *)
Definition config_attr (s : state) (c : nat) (name k : string) : res A :=
  if inb string_dec name (m_names (s_multi s c)) then
    match dget string_dec name (m_fit (s_multi s c)) with
    | Some o => match dget string_dec k (s_fit s o) with Some v => Ok v | None => Err AttributeError end
    | None => Err AttributeError
    end
  else Err AssertionError.
(** rtfits.py:3236-3243: multi.ID *)
Definition multi_ID (s : state) (c : nat) : res A :=
  match m_names (s_multi s c) with [] => Err AssertionError | n :: _ => config_attr s c n "ID" end.
End Mfs.
Arguments Add {A}. Arguments SetDataset {A}. Arguments SetAux {A}. Arguments SetReader {A}. Arguments SetID {A}. Arguments FitSet {A}.
Arguments m_names {A}. Arguments m_fit {A}. Arguments m_dataset {A}. Arguments m_aux {A}. Arguments m_reader {A}. Arguments s_multi {A}. Arguments s_fit {A}.
Arguments run {A}. Arguments config_attr {A}. Arguments multi_ID {A}. Arguments step {A}. Arguments init {A}. Arguments set_all {A}. Arguments setattr {A}.
