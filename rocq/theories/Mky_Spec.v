(** Specification vocabulary for C179. *)
From Coq Require Import List Bool String.
From Verif Require Import Base Met_Model Met_Spec Mky_Model.
Import ListNotations.

Section Spec.
Context {Ds Rs Df D : Type}.
(** the operations that clear the cache when they change something *)
Definition tracked (a : mop Ds Rs Df) : bool :=
  match a with MFitKeep _ | MRes _ | MInt _ | MMulti _ => false | _ => true end.
(** the attributes after an operation, by what the user wrote *)
Definition after (f : att Ds Rs Df) (a : mop Ds Rs Df) : att Ds Rs Df :=
  match a with
  | MDataset d | MMulti d => mkatt d (a_res f) (a_def f) (a_int f)
  | MDef d => mkatt (a_ds f) (a_res f) d (a_int f)
  | MFit (Some r) | MFitKeep r | MRes r => mkatt (a_ds f) (Some r) (a_def f) (a_int f)
  | MInt b => mkatt (a_ds f) (a_res f) (a_def f) b
  | _ => f
  end.
(** ... after a session *)
Definition attributes (f : att Ds Rs Df) (ops : list (mop Ds Rs Df)) : att Ds Rs Df := fold_left after ops f.
(** the variable [n] of a source, as it is now *)
Definition current (ds_col calc_col res_col : att Ds Rs Df -> string -> res D) (f : att Ds Rs Df) (src n : string) (v : res D) : Prop :=
  (src = "dataset" /\ v = ds_col f n)%string \/ (src = "calc_model" /\ v = calc_col f n)%string \/ (src = "res_df" /\ v = res_col f n)%string.
(** no entry of the object's caches is evicted *)
Definition kept (j : nat) (k1 k2 : string) (a : mop Ds Rs Df) : Prop := forall e1 e2 eu, a <> MEvict j k1 k2 e1 e2 eu.
End Spec.
