(** Specification vocabulary for the metrics (C44-C47, C86-C89). *)
From Coq Require Import Reals List ZArith Bool String.
From Verif Require Import Base Met_Model.
Import ListNotations.
Open Scope R_scope.

(** a complete series: labels [idx], values [xs], nothing missing *)
Definition series_of (idx : list Z) (xs : list R) : series := combine idx (map Some xs).

(** add a constant to every value *)
Definition shift (c : R) (s : series) : series := map (fun r => (fst r, option_map (fun x => x + c) (snd r))) s.
(** multiply every value *)
Definition scale (c : R) (s : series) : series := map (fun r => (fst r, option_map (fun x => c * x) (snd r))) s.
(** apply a function to every value *)
Definition apply (f : R -> R) (s : series) : series := map (fun r => (fst r, option_map f (snd r))) s.

(** the differences of the values that both series have at a label (used for series with distinct labels) *)
Definition value_at (s : series) (l : Z) (x : R) : Prop := In (l, Some x) s.

(** not all values are equal *)
Definition varies (xs : list R) : Prop := exists x y, In x xs /\ In y xs /\ x <> y.

(** squared misfit of a line *)
Definition misfit (slope intercept : R) (xs ys : list R) : R :=
  Rsum (map (fun p => (snd p - slope * fst p - intercept) ^ 2) (combine xs ys)).

(** the variables a user can compare *)
Inductive available (s : sources) : string -> string -> Prop :=
| Av_dataset n : In n (s_dataset s) -> available s "dataset" n
| Av_model n : In n ["tot"; "surf"; "vol"]%string -> available s "calc_model" n
| Av_inter : s_int_Q s = true -> available s "calc_model" "inter"
| Av_res n : In n (s_res_df s) -> available s "res_df" n
| Av_aux n : In n (s_auxdat s) -> available s "auxdat" n.

(** no source lists a name twice *)
Definition distinct_names (s : sources) : Prop :=
  NoDup (s_dataset s) /\ NoDup (s_res_df s) /\ NoDup (s_auxdat s).

(** no name ends with the suffix of a source *)
Definition suffix_free (s : sources) : Prop :=
  forall src n, available s src n ->
  forall m t, In t ["dataset"; "calc_model"; "res_df"; "auxdat"]%string -> n <> (m ++ "__" ++ t)%string.
