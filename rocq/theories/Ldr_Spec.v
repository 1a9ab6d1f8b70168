(** Specification for C157, C158 *)
From Coq Require Import Arith Bool String Ascii List.
From Verif Require Import Base Str_Model Rdr_Model Ldr_Model.
Import ListNotations.
Local Open Scope string_scope.
Local Open Scope list_scope.

(** the folder contains a file of this name *)
Definition file_in (l : list (string * node)) (f : string) : Prop := In (f, File) l.
(** an ending as ".h5", ".nc" *)
Definition proper_ending (e : string) : Prop := exists x, x <> "" /\ has_char "." x = false /\ e = ("." ++ x)%string.
(** a listing of a folder: names occur once, no file is called like the ending itself *)
Definition listing (e : string) (l : list (string * node)) : Prop := NoDup (map fst l) /\ ~ file_in l e.

(** the contents of the file fit_db.h5 of result [r] after a history *)
Definition now {C} (file : nat -> option C) (ops : list (dop C)) (r : nat) : option C :=
  fold_left (fun c a => match a with DWrite q x => if Nat.eqb q r then x else c | _ => c end) ops (file r).
