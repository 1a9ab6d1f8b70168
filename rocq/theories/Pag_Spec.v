(** Specification vocabulary for C64, C99 *)
From Coq Require Import String Arith ZArith Bool List.
From Verif Require Import Base Pag_Model.
Import ListNotations.

(** [ps] divides [l] into consecutive pages of [n] elements, only the last one
    may be shorter (but not empty) *)
Definition Paged {A} (n : nat) (l : list A) (ps : list (list A)) : Prop :=
  concat ps = l /\
  forall a p b, ps = a ++ p :: b -> 1 <= length p <= n /\ (b <> [] -> length p = n).

Section V.
Context {V : Type}.
(** ID and content of a row, whatever way the ID is shown *)
Definition content (r : prow V) : Z * V := (p_id r, p_val r).
(** the rows of a table that belong to the given IDs *)
Definition rows_of (tbl : list (prow V)) (ids : list Z) : list (Z * V) :=
  filter (fun x => existsb (Z.eqb (fst x)) ids) (map content tbl).
(** a table as it is stored: IDs are numbers *)
Definition numeric (tbl : list (prow V)) : Prop := forall r, In r tbl -> p_named r = false.
(** the IDs on a page *)
Definition on_page (id : Z) (p : list (prow V)) : Prop := exists r, In r p /\ p_id r = id.
End V.

(** the table lists the rows of the IDs one after the other, in the order of [ids] *)
Definition ordered {V} (tbl : list (prow V)) (ids : list Z) : Prop :=
  map content tbl = flat_map (fun i => filter (fun x => Z.eqb (fst x) i) (map content tbl)) ids.
