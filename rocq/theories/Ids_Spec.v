(** Specification vocabulary for C53, C54, C91-C93. *)
From Coq Require Import List ZArith Bool String Permutation.
From Verif Require Import Base Ids_Model.
Import ListNotations.
Open Scope string_scope.

Section Spec.
Context {Arg : Type}.
Variable raw_id feature_id : Arg -> string.
Variable ok : list Arg -> Prop.

(** any number of runs, each with arbitrary arguments satisfying [ok]; in each run some of
    the arguments to be processed end up in the table (in any order), the rest
    fails or is interrupted; a run may create the file without the table *)
Inductive history : @file -> Prop :=
| h_new : history NoFile
| h_run f args todo done lost :
    history f -> ok args -> check_IDs feature_id f args = Ok todo -> Permutation (done ++ lost)%list todo ->
    history (append_rows f (map (stored_row raw_id) done))
| h_fail : history NoFile -> history NoTable.

(** the rows of the table *)
Definition rows_of (f : @file) : list (string * Z) := match f with Table rows => rows | _ => [] end.
Definition stored_ids (f : @file) : list string := map fst (rows_of f).
Definition stored_nums (f : @file) : list Z := map snd (rows_of f).
End Spec.

(** no two of these IDs get the same identifier *)
Definition collision_free (ids : list string) : Prop :=
  forall a b, In a ids -> In b ids -> get_ID a = get_ID b -> a = b.

(** the reserved tags *)
Definition tags : list string := ["rt1_skip"; "rt1_file_already_exists"; "rt1_data_error"].
