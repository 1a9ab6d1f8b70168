(** Specification vocabulary for C67, C101-C103 *)
From Coq Require Import String List Bool.
From Verif Require Import Base Evf_Model.
Import ListNotations.
Local Open Scope list_scope.

(** the definition of a fit *)
Definition defining : list string :=
  ["sig0"; "dB"; "dataset"; "defdict"; "set_V_SRF"; "lsq_kwargs"; "int_Q"; "lambda_backend"]%string.

Section Spec.
Context {Ds Obj : Type}.

(** The auxiliary data the reader returned with the dataset: anything behind
    the dataset; None counts as no auxiliary data. *)
Definition returned_aux (r : read Ds Obj) : option (val Ds Obj) :=
  match r with
  | Ok (VSeq [VFrame _; VNone]) => None
  | Ok (VSeq [VFrame _; a]) => Some a
  | Ok (VSeq (VFrame _ :: a :: b :: l)) => Some (VSeq (a :: b :: l))
  | _ => None
  end.

(** the dataset the reader returned *)
Definition returned_data (r : read Ds Obj) : option Ds :=
  match r with
  | Ok (VFrame d) => Some d
  | Ok (VSeq (VFrame d :: _ :: _)) => Some d
  | _ => None
  end.

(** a table in the exported record: frames can be stored *)
Definition as_table (a : option (val Ds Obj)) : option (val Ds Obj) :=
  match a with Some (VFrame d) => Some (VFrame d) | _ => None end.

(** the latest of a sequence of optional values *)
Fixpoint latest {A} (d : A) (l : list (option A)) : A :=
  match l with [] => d | Some x :: r => latest x r | None :: r => latest d r end.

(** an attribute has the value [v] *)
Definition has (o : obj Ds Obj) (k : string) (v : val Ds Obj) : Prop := dget string_dec k o = Some v.

(** Records that agree in everything but the auxiliary data. *)
Definition same_but_aux (h h' : hdf Ds Obj) : Prop :=
  h_ID h = h_ID h' /\ h_reader_arg h = h_reader_arg h' /\ h_dataset h = h_dataset h' /\ h_res_dict h = h_res_dict h' /\ h_res_df h = h_res_df h'.
End Spec.
