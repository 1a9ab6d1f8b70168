(** Specification for C218: dumps of MultiFits objects. *)
From Coq Require Import Arith Bool String List.
From Verif Require Import Base Ids_Model Mf_Model Mfo_Model.
Import ListNotations.
Local Open Scope string_scope.

Section Spec.
Context {D : Type}.
(** the names that [add_config] of an empty object accepts *)
Definition good_name (n : string) : Prop :=
  str_isidentifier n = true /\ ~ In n ["config_names"; "configs"; "_accessor"; "_dataset"; "_aux_data"; "_reader_arg"].
(** a dump of an object whose configurations were added with [add_config], each with its own fit: at least one, all
    names used once *)
Definition proper (h : heap D) (s : state D) : Prop :=
  s_names s <> [] /\ NoDup (s_names s) /\ map fst (s_cfg s) = s_names s /\ NoDup (map snd (s_cfg s)) /\
  (forall n o, In (n, o) (s_cfg s) -> good_name n /\ (s_old s = false -> f_name (h o) = Some n)).
(** the ID of the first configuration in the dump *)
Definition first_id (h : heap D) (s : state D) : option string :=
  match s_cfg s with [] => None | (_, o) :: _ => f_id (h o) end.
(** the attributes that a configuration has after loading: dataset (sorted), auxiliary data and reader-arg of the
    MultiFits object, its name, and its ID (all get the name of the file if the first one has no ID) *)
Definition restored (sort : D -> D) (stem : string) (h : heap D) (s : state D) (n : string) (f0 : fitobj D) : fitobj D :=
  mkfit (option_map sort (s_data s)) (s_aux s) (s_reader s)
        (match first_id h s with None => Some (get_ID stem) | Some _ => f_id f0 end) (Some n).
End Spec.
