(** Property C47: the names of the metric variables, exact condition
    (rt1/rtmetrics.py:90-151).
    Only property theorems, examples and assumption listings. *)
From Coq Require Import List String.
From Verif Require Import Base Met_Model Met_Spec Exa13_Spec Exa13_Proofs.
Import ListNotations.
Local Open Scope string_scope.

(** every variable has exactly one key and every key leads to a variable,
    exactly if no name of a single source ends with the suffix of this source
    and none is the suffixed form of a shared name *)
Theorem C47_exactly : forall s, distinct_names s -> (one_key_each s <-> unambiguous s).
Proof. intros s HD. apply one_key_iff. exact HD. Qed.
Print Assumptions C47_exactly.

(** "x__dataset" in the auxiliary data is harmless as long as "x" is not shared *)
Example C47_exactly_example :
  let s := mksources ["x"] false [] ["x__dataset"] in
  let t := mksources ["x"] false ["x"] ["x__dataset"] in
  distinct_names s /\ one_key_each s /\ ~ suffix_free s /\
  resolve_key (all_keys s) "x__dataset" = Ok ("auxdat", "x__dataset") /\
  distinct_names t /\ ~ one_key_each t.
Proof.
  intros s t.
  assert (Ds : distinct_names s) by (repeat split; repeat constructor; simpl; intuition discriminate).
  assert (Dt : distinct_names t) by (repeat split; repeat constructor; simpl; intuition discriminate).
  assert (As : forall src n, available s src n -> In (src, n)
    [("dataset", "x"); ("calc_model", "tot"); ("calc_model", "surf"); ("calc_model", "vol"); ("auxdat", "x__dataset")]).
  { intros src n H. inversion H as [k K|k K|K|k K|k K]; subst; cbn [In s s_dataset s_res_df s_auxdat s_int_Q] in *;
      intuition (subst; auto 10; discriminate). }
  split; [exact Ds|]. split; [|split; [|split; [reflexivity|split; [exact Dt|]]]].
  - apply C47_exactly; [exact Ds|]. split.
    + intros src n m A _ E. apply As in A. assert (T : Str_Model.endswith ("__" ++ src) n = true) by (apply Str_Proofs.endswith_iff; eauto).
      clear E. cbn [In] in A. repeat (destruct A as [A|A]; [inversion A; subst; vm_compute in T; discriminate|]). destruct A.
    + intros src n u m _ _ _ (a & b & D & A & B). apply As in A. apply As in B. cbn [In] in A, B.
      exfalso. repeat (destruct A as [A|A]; [inversion A; subst; clear A; repeat (destruct B as [B|B]; [inversion B; subst; congruence|]); destruct B|]).
      destruct A.
  - intros F. assert (A : available s "auxdat" "x__dataset") by (apply Av_aux; left; reflexivity).
    apply (F "auxdat" "x__dataset" A "x" "dataset"); [left; reflexivity|reflexivity].
  - rewrite C47_exactly by exact Dt. intros [_ F].
    apply (F "auxdat" "x__dataset" "dataset" "x"); [apply Av_aux; left; reflexivity| |apply Av_dataset; left; reflexivity| |reflexivity].
    + intros (a & b & D & A & B).
      inversion A as [k K|k K|K|k K|k K]; subst; cbn [In t s_dataset s_res_df s_auxdat s_int_Q] in *; try (intuition discriminate).
      inversion B as [k' K'|k' K'|K'|k' K'|k' K']; subst; cbn [In t s_dataset s_res_df s_auxdat s_int_Q] in *; try (intuition discriminate).
    + exists "dataset", "res_df". split; [discriminate|]. split; [apply Av_dataset|apply Av_res]; left; reflexivity.
Qed.
