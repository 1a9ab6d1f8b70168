(** Property C173: the interaction term of the interactive analysis, exact
    condition (rt1/rtplots.py analyzemodel, rt1/rtfits.py:1337-1366,
    as modelled in Anm_Model, Pos_Model and Par_Model).
    Only property theorems, examples and assumption listings. *)
From Coq Require Import String List.
From Verif Require Import Base Ini_Model Par_Model Par_Spec Pos_Model Anm_Model Anm_Spec Anm_Props.
Import ListNotations.
Local Open Scope string_scope.
Local Open Scope list_scope.

(** with different values on all sliders, every parameter of V and SRF enters
    with the value of its own slider exactly if no auxiliary one is defined
    before a fitted one *)
Theorem C173_exactly : forall Val (m : model Val) cols d old vals b names v, NoDup (keys d) -> param_R_names Val m true cols d = Ok names ->
  set_calc_values Val m old (analysis_dict d vals b) [] = Ok v -> (forall s q, vals s = vals q -> s = q) ->
  ((exists env, interaction_values Val m true cols d old (analysis_dict d vals b) [] = Ok env /\
    forall s, provided true d s -> routed m s -> dget string_dec s env = Some (vals s)) <->
   forall d1 d2 d3 a f, d = d1 ++ (a, Auxiliary) :: d2 ++ (f, Fitted) :: d3 -> routed m a -> ~ routed m f).
Proof.
  intros Val m cols d old vals b names v N HN HV Inj. split.
  - intros (env & E & H) d1 d2 d3 a f D Ra Rf.
    destruct (C173_exchanged_refuted Val m cols d old vals b names v d1 d2 d3 a f N HN HV Inj D Ra Rf) as (env' & s & x & E' & P & R & G & X).
    assert (env' = env) by congruence. subst env'. rewrite (H s P R) in G. congruence.
  - intros F. apply (C173_order Val m cols d old vals b names v N HN HV).
    intros d1 d2 d3 a f D Ra Rf. exact (F d1 d2 d3 a f D Ra Rf).
Qed.
Print Assumptions C173_exactly.

Example C173_exactly_example :
  let m := mkmodel ["t"] ["N2"] ["t"] ["N2"] QNum QNum QNum in
  let d := [("t", Auxiliary); ("N2", Fitted); ("omega", Fitted)] in
  let old := mkvalues "" "" "" "" [] in
  NoDup (keys d) /\ (exists names, param_R_names string m true ["t"] d = Ok names) /\
  (exists v, set_calc_values string m old (analysis_dict d (fun s => s) "b") [] = Ok v) /\
  interaction_values string m true ["t"] d old (analysis_dict d (fun s => s) "b") [] = Ok [("N2", "t"); ("t", "N2")].
Proof.
  intros m d old. split; [repeat constructor; simpl; intuition discriminate|].
  split; [eexists; reflexivity|]. split; [eexists; reflexivity|reflexivity].
Qed.
