(** Specification vocabulary for C65, C66, C100 *)
From Coq Require Import String Ascii Arith Bool List.
From Verif Require Import Base Prc_Model.
Import ListNotations.

(** [a] is the word [w], capital letters of [w] may also be typed as small letters *)
Inductive typed : string -> string -> Prop :=
| typed_nil : typed "" ""
| typed_same : forall c a w, typed a w -> typed (String c a) (String c w)
| typed_small : forall k a w, k < 26 -> typed a w -> typed (String (ascii_of_nat (97 + k)) a) (String (ascii_of_nat (65 + k)) w).

(** answers that mean yes *)
Definition yes (a : string) : Prop := typed a "Y" \/ typed a "YES".

(** the value of a key of a section *)
Definition value (c : config) (s k : string) : option string :=
  match dget string_dec s c with Some d => dget string_dec k d | None => None end.

(** a well-formed dict of dicts *)
Definition wf (c : config) : Prop := NoDup (keys c) /\ forall s d, In (s, d) c -> NoDup (keys d).

(** [c] is [base] with the values of [kw] *)
Definition updated (base kw c : config) : Prop :=
  forall s k, value c s k = match value kw s k with Some v => Some v | None => value base s k end.
