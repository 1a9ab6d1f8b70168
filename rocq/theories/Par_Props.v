(** C144-C147: how the values of the parameters reach the model *)
From Coq Require Import QArith Bool Arith String List Lia.
From Verif Require Import Base Base_Proofs Ini_Model Ini_Spec Ini_Proofs Par_Model Par_Spec Par_Proofs Par2_Proofs.
Import ListNotations.
Local Open Scope string_scope.
Local Open Scope list_scope.

(** ** a concrete case *)
Definition eg_parse (s : string) : option sx :=
  if string_dec s "2*a" then Some (SOp "*" (SNum 2) (SSym "a"))
  else if string_dec s "" then None else Some (SSym s).
(** values are numbers, symbols without a value count as 0 *)
Fixpoint eg_lam (e : sx) (env : string -> option Q) : Q :=
  match e with
  | SNum q => q
  | SSym s => match env s with Some q => q | None => 0 end
  | SOp _ a b => eg_lam a env * eg_lam b env
  | SFun _ a => eg_lam a env
  end.
(** tau = 2*a and the shape parameter b are fitted, omega is auxiliary, the shape parameter c is 3 *)
Definition eg_d : defdict := [("a", Fitted); ("b", Fitted); ("omega", Auxiliary); ("c", Number 3)].
Definition eg_V : props := Props "HenyeyGreenstein" [("t", VStr "b"); ("ncoefs", VNum 8); ("tau", VStr "2*a"); ("omega", VStr "omega")] [].
Definition eg_S : props := Props "HG_nadirnorm" [("t", VStr "c"); ("ncoefs", VNum 8)] [].
Definition eg_m : model Q := mkmodel ["b"] [] ["b"] [] (QExpr ["omega"] (eg_lam (SSym "omega")))
  (QExpr ["a"] (eg_lam (SOp "*" (SNum 2) (SSym "a")))) QNum.
Definition eg_old : values Q := mkvalues 0 0 1 0 [].
Definition eg_r : list (string * Q) := [("a", 5); ("b", 7)].
Definition eg_f : list (string * Q) := [("omega", 9)].
Example eg_model : model_of Q eg_parse eg_lam eg_d eg_V eg_S = Ok eg_m.
Proof. reflexivity. Qed.
Lemma eg_nodup : NoDup (keys eg_d).
Proof. repeat constructor; simpl; intuition discriminate. Qed.
Lemma eg_dicts : fit_dicts true eg_d eg_r eg_f.
Proof.
  split; [repeat constructor; simpl; intuition discriminate|]. split; [repeat constructor; simpl; intuition discriminate|].
  split; intros s; simpl; split; intuition (try congruence).
  all: repeat match goal with H : _ = _ |- _ => injection H as <- || discriminate end; auto.
Qed.

(** ** C144 *)
(** omega, tau and NormBRDF get the values of their definitions (or the given numbers), bsf the
    given number, and the scattering functions exactly the parameters that are not only used in
    those definitions, with the given values; a missing symbol is a KeyError *)
Theorem C144_routing : forall (Val : Type) (m : model Val) old r fixed, NoDup (keys fixed) ->
  ((forall s, defining m s -> given r fixed s <> None) ->
   exists v, set_calc_values Val m old r fixed = Ok v /\ right_values m old (given r fixed) v) /\
  (~ (forall s, defining m s -> given r fixed s <> None) -> set_calc_values Val m old r fixed = Err KeyError).
Proof. intros Val m old r fixed N. split; [apply set_calc_ok, N|apply set_calc_err, N]. Qed.
Print Assumptions C144_routing.

(** a model evaluation with explicit parameters: which inputs give which result *)
Theorem C144_calc : forall (Val : Type) (m : model Val) frame cols d old param fixed, NoDup (keys d) -> NoDup (keys fixed) ->
  let there := columns_there frame cols d /\ (forall s, scattering m s -> provided frame d s) in
  let defined := forall s, defining m s -> given param fixed s <> None in
  let known := forall s, used m s -> routed m s /\ given param fixed s <> None in
  let result := calc Val m frame cols d old param (Some fixed) in
  (there -> defined -> known -> exists v, result = Ok v /\ right_values m old (given param fixed) v) /\
  (~ there -> result = Err AssertionError) /\
  (there -> ~ defined -> result = Err KeyError) /\
  (there -> defined -> ~ known -> result = Err NameError).
Proof.
  intros Val m frame cols d old param fixed ND NF there defined known result.
  destruct (param_R_spec m frame cols d ND) as [P1 P2]. destruct (calc_model_spec m old param fixed NF) as (C1 & C2 & C3).
  assert (Q : there -> result = calc_model Val m old param fixed).
  { intros [A B]. destruct (P1 A B) as [l E]. unfold result, calc. rewrite E. reflexivity. }
  split; [intros T D K; rewrite (Q T); apply C1; assumption|].
  split; [intros T; unfold result, calc; rewrite (P2 T); reflexivity|].
  split; [intros T D; rewrite (Q T); apply C2, D|]. intros T D K. rewrite (Q T). apply C3; assumption.
Qed.
Print Assumptions C144_calc.

(** a parameter that is used both by a scattering function and in a definition gets to both *)
Theorem C144_shared : forall (Val : Type) (m : model Val) old r fixed v k, NoDup (keys fixed) ->
  set_calc_values Val m old r fixed = Ok v -> scattering m k -> ~ reserved_name k ->
  dget string_dec k (v_param v) = given r fixed k.
Proof.
  intros Val m old r fixed v k N E S R.
  assert (D : forall s, defining m s -> given r fixed s <> None).
  { intros s Hs X. assert (~ forall s, defining m s -> given r fixed s <> None) as B by (intros H; apply (H s Hs X)).
    rewrite (set_calc_err m old r fixed N B) in E. discriminate. }
  destruct (set_calc_ok m old r fixed N D) as [v' [E' (_ & _ & _ & _ & X & _)]].
  assert (v' = v) as -> by congruence. apply X. split; [exact R|left; exact S].
Qed.
Print Assumptions C144_shared.

Example C144_example :
  (forall s, defining eg_m s -> given eg_r eg_f s <> None) /\
  calc Q eg_m true ["omega"] eg_d eg_old eg_r (Some eg_f) = Ok (mkvalues 9 (2 * 5) 1 0 [("b", 7%Q)]) /\
  calc Q eg_m true [] eg_d eg_old eg_r (Some eg_f) = Err AssertionError /\
  calc Q eg_m true ["omega"] eg_d eg_old [("b", 7%Q)] (Some eg_f) = Err KeyError /\
  calc Q eg_m true ["omega"] eg_d eg_old [("a", 7%Q)] (Some eg_f) = Err NameError.
Proof.
  split; [|repeat split]. intros s [[<-|[]]|[[<-|[]]|[]]]; discriminate.
Qed.

(** ** C145 *)
(** in the evaluations of a fit every parameter of the scattering functions has a value: if all
    symbols are provided and the fit object knows all symbols of the functions, and none of them
    has a reserved name, then R can be built and evaluated with the fitted and auxiliary values *)
Theorem C145_all_values_partial : forall (Val : Type) (m : model Val) frame cols d old r fixed,
  NoDup (keys d) -> fit_dicts frame d r fixed -> columns_there frame cols d ->
  (forall s, used m s -> scattering m s) -> (forall s, used m s -> ~ reserved_name s) ->
  (forall s, scattering m s -> provided frame d s) -> (forall s, defining m s -> provided frame d s) ->
  exists names v, param_R_names Val m frame cols d = Ok names /\ calc_model Val m old r fixed = Ok v /\
    right_values m old (given r fixed) v /\
    (forall s, used m s -> dget string_dec s (v_param v) = given r fixed s /\ given r fixed s <> None).
Proof.
  intros Val m frame cols d old r fixed ND FD C K R S D.
  destruct (proj1 (param_R_spec m frame cols d ND) C S) as [l E].
  assert (G : forall s, provided frame d s -> given r fixed s <> None) by (intros s Hs; apply (fit_given frame d r fixed s FD), Hs).
  assert (U : forall s, used m s -> routed m s /\ given r fixed s <> None).
  { intros s Hs. split; [split; [apply R, Hs|left; apply K, Hs]|apply G, S, K, Hs]. }
  destruct (proj1 (calc_model_spec m old r fixed ltac:(apply FD)) ltac:(intros s Hs; apply G, D, Hs) U) as [v [Ev Rv]].
  exists l, v. split; [exact E|]. split; [exact Ev|]. split; [exact Rv|]. intros s Hs. destruct (U s Hs) as [A B].
  split; [|exact B]. destruct Rv as (_ & _ & _ & _ & X & _). apply X, A.
Qed.
Print Assumptions C145_all_values_partial.

(** the same for the dicts of set_V_SRF with single functions: it is enough that every name in the
    definitions is an entry of defdict that is a number, fitted, or auxiliary *)
Theorem C145_dict_partial : forall (Val : Type) parse lam d nV kV cV nS kS cS (m : model Val) frame cols old r fixed,
  NoDup (keys d) -> (forall s, In s (keys d) -> parse s = Some (SSym s)) -> NoDup (keys kV) -> NoDup (keys kS) ->
  lincomb nV = false -> lincomb nS = false ->
  model_of Val parse lam d (Props nV kV cV) (Props nS kS cS) = Ok m ->
  fit_dicts frame d r fixed -> columns_there frame cols d ->
  (forall s, names_of parse kV (fun k => ~ not_counted k) s \/ names_of parse kS (fun k => ~ not_counted k) s ->
     angle s \/ (complete frame d s /\ ~ reserved_name s)) ->
  (forall s, names_of parse kV (fun k => k = "omega") s \/ names_of parse kV (fun k => k = "tau") s \/
     names_of parse kS (fun k => k = "NormBRDF") s -> complete frame d s) ->
  exists names v, param_R_names Val m frame cols d = Ok names /\ calc_model Val m old r fixed = Ok v /\
    right_values m old (given r fixed) v /\
    (forall s, used m s -> dget string_dec s (v_param v) = given r fixed s /\ given r fixed s <> None).
Proof.
  intros Val parse lam d nV kV cV nS kS cS m frame cols old r fixed ND NS NV NSf LV LS H FD C A B.
  pose proof (model_of_single parse lam d ND NS nV kV cV nS kS cS m LV LS NV NSf H) as M.
  assert (P : forall s, used m s -> provided frame d s /\ ~ reserved_name s).
  { intros s Hs. destruct (M s) as (M1 & _ & _). apply M1 in Hs. destruct Hs as (N & X & Y).
    destruct (A s N) as [Z|[[Z|Z] R]]; [contradiction|contradiction|auto]. }
  apply (C145_all_values_partial Val m frame cols d old r fixed ND FD C).
  - intros s Hs. apply (M s), Hs.
  - intros s Hs. apply P, Hs.
  - intros s Hs. apply P, (M s), Hs.
  - intros s Hs. apply (M s) in Hs. destruct Hs as [N X]. destruct (B s N) as [Z|Z]; [contradiction|exact Z].
Qed.
Print Assumptions C145_dict_partial.

(** the parameters the scattering functions get are the provided ones that are not reserved and not only used to define
    omega, tau and NormBRDF: the parameters of a model object (param_dict of R) and those of an evaluation *)
Theorem C145_names : forall (Val : Type) (m : model Val) frame cols d names old r fixed v,
  param_R_names Val m frame cols d = Ok names -> fit_dicts frame d r fixed -> calc_model Val m old r fixed = Ok v ->
  forall s, (In s names <-> provided frame d s /\ routed m s) /\ (In s names <-> dget string_dec s (v_param v) <> None).
Proof.
  intros Val m frame cols d names old r fixed v E FD H s. pose proof (param_R_names_spec m frame cols d names E s) as X. split; [exact X|]. rewrite X.
  assert (R : right_values m old (given r fixed) v).
  { pose proof (calc_model_spec m old r fixed ltac:(apply FD)) as (A & B & C).
    destruct (defined_dec m r fixed) as [D|D]; [|rewrite (B D) in H; discriminate].
    unfold calc_model in H. destruct (set_calc_ok m old r fixed ltac:(apply FD) D) as (v' & E' & R). rewrite E' in H. cbn [bind] in H.
    destruct (evaluable Val m v'); [injection H as <-; exact R|discriminate]. }
  destruct R as (_ & _ & _ & _ & R1 & R2). rewrite <- (fit_given frame d r fixed s FD). destruct (routed_dec m s) as [Y|Y]; [rewrite (R1 s Y)|rewrite (R2 s Y)]; tauto.
Qed.
Print Assumptions C145_names.

(** the symbols an evaluation needs are those of the attributes, weights and components of V and SRF *)
Theorem C145_symbols : forall (Val : Type) parse lam d V S (m : model Val) v s, model_of Val parse lam d V S = Ok m ->
  init_V_SRF parse (setdict d) V = Ok v -> init_V_SRF parse (setdict d) S = Ok s ->
  forall x, used m x <-> (symbol_of v x \/ symbol_of s x) /\ ~ angle x.
Proof.
  intros Val parse lam d V S m v s E EV ES x. unfold model_of in E. rewrite EV, ES in E. cbn [bind] in E.
  destruct V as [nV kV cV], S as [nS kS cS]. destruct v as [n1 a1 c1 f1] eqn:Ev, s as [n2 a2 c2 f2] eqn:Es.
  destruct (quantity_of _ _ _ _ kV "omega"); cbn [bind] in E; [|discriminate]. destruct (quantity_of _ _ _ _ kV "tau"); cbn [bind] in E; [|discriminate].
  destruct (quantity_of _ _ _ _ kS "NormBRDF"); cbn [bind] in E; [|discriminate]. injection E as <-.
  unfold used. cbn [m_Vfunc m_Sfunc]. rewrite <- !func_symbols_spec. reflexivity.
Qed.
Print Assumptions C145_symbols.

Lemma eg_names_V (P : string -> Prop) s : names_of eg_parse [("t", VStr "b"); ("ncoefs", VNum 8); ("tau", VStr "2*a"); ("omega", VStr "omega")] P s ->
  (P "t" /\ s = "b") \/ (P "tau" /\ s = "a") \/ (P "omega" /\ s = "omega").
Proof.
  intros (k & v & e & I & Pk & D & O). simpl in I.
  destruct I as [I|[I|[I|[I|[]]]]]; injection I as <- <-; simpl in D; injection D as <-; inversion O; subst; auto.
  - inversion H0.
  - inversion H0; subst. auto.
Qed.
Lemma eg_names_S (P : string -> Prop) s : names_of eg_parse [("t", VStr "c"); ("ncoefs", VNum 8)] P s -> s = "c".
Proof.
  intros (k & v & e & I & Pk & D & O). simpl in I.
  destruct I as [I|[I|[]]]; injection I as <- <-; simpl in D; injection D as <-; inversion O; auto.
Qed.
Example C145_example : exists names v, param_R_names Q eg_m true ["omega"] eg_d = Ok names /\ calc_model Q eg_m eg_old eg_r eg_f = Ok v /\
  right_values eg_m eg_old (given eg_r eg_f) v /\
  (forall s, used eg_m s -> dget string_dec s (v_param v) = given eg_r eg_f s /\ given eg_r eg_f s <> None).
Proof.
  eapply (C145_dict_partial Q eg_parse eg_lam eg_d _ _ [] _ _ [] eg_m true ["omega"] eg_old eg_r eg_f).
  - exact eg_nodup.
  - intros s Hs. simpl in Hs. destruct Hs as [<-|[<-|[<-|[<-|[]]]]]; reflexivity.
  - instantiate (1 := [("t", VStr "b"); ("ncoefs", VNum 8); ("tau", VStr "2*a"); ("omega", VStr "omega")]). repeat constructor; simpl; intuition discriminate.
  - instantiate (1 := [("t", VStr "c"); ("ncoefs", VNum 8)]). repeat constructor; simpl; intuition discriminate.
  - instantiate (1 := "HenyeyGreenstein"). reflexivity.
  - instantiate (1 := "HG_nadirnorm"). reflexivity.
  - exact eg_model.
  - exact eg_dicts.
  - intros _ s Hs. simpl in Hs. destruct Hs as [E|[E|[E|[E|[]]]]]; try discriminate. injection E as <-. left. reflexivity.
  - intros s [H|H]; right.
    + apply eg_names_V in H. destruct H as [[_ ->]|[[H _]|[H _]]]; [|exfalso; apply H; unfold not_counted; simpl; auto|exfalso; apply H; unfold not_counted; simpl; auto].
      split; [right; left; simpl; auto|unfold reserved_name; intuition discriminate].
    + apply eg_names_S in H. subst. split; [left; exists 3%Q; simpl; auto|unfold reserved_name; intuition discriminate].
  - intros s [H|[H|H]].
    + apply eg_names_V in H. destruct H as [[H _]|[[H _]|[_ ->]]]; try discriminate. right. right. split; simpl; auto.
    + apply eg_names_V in H. destruct H as [[H _]|[[_ ->]|[H _]]]; try discriminate. right. left. simpl; auto.
    + apply eg_names_S in H. subst. left. exists 3%Q. simpl; auto.
Qed.

(** without the side conditions it is not so: all names are provided and R is built, but the
    evaluation has no value for a symbol.  First a scattering function with a parameter of the
    name omega *)
Theorem C145_reserved_refuted : exists parse lam d kV kS (m : model Q) r fixed,
  NoDup (keys d) /\ (forall s, parse s = Some (SSym s)) /\ fit_dicts true d r fixed /\
  (forall s, In s (keys d) -> provided true d s) /\
  model_of Q parse lam d (Props "HenyeyGreenstein" kV []) (Props "Isotropic" kS []) = Ok m /\
  (forall s, used m s \/ defining m s -> In s (keys d)) /\
  (exists names, param_R_names Q m true [] d = Ok names) /\
  calc_model Q m (mkvalues 0 0 1 0 []) r fixed = Err NameError.
Proof.
  exists (fun s => Some (SSym s)), (fun _ _ => 0%Q), [("omega", Fitted)], [("t", VStr "omega"); ("omega", VStr "omega"); ("tau", VNum 1)], [],
    (mkmodel ["omega"] [] ["omega"] [] (QExpr ["omega"] (fun _ => 0%Q)) QNum QNum), [("omega", 0%Q)], [].
  split; [repeat constructor; simpl; tauto|]. split; [reflexivity|].
  split.
  { split; [repeat constructor; simpl; tauto|]. split; [constructor|]. split; intros s; simpl; split; intuition (try congruence). }
  split; [intros s Hs; simpl in Hs; destruct Hs as [<-|[]]; left; simpl; auto|].
  split; [reflexivity|]. split.
  { intros s [[[H|H] _]|[H|[H|H]]]; simpl in *; tauto. }
  split; [eexists; reflexivity|]. reflexivity.
Qed.
Print Assumptions C145_reserved_refuted.

(** second a linear combination: a symbol of a component that is also used in the definition of tau *)
Theorem C145_component_refuted : exists parse lam d kV ch kS (m : model Q) r fixed,
  NoDup (keys d) /\ (forall s, parse s = Some (SSym s)) /\ fit_dicts true d r fixed /\
  (forall s, In s (keys d) -> provided true d s /\ ~ reserved_name s) /\
  model_of Q parse lam d (Props "LinCombV" kV ch) (Props "Isotropic" kS []) = Ok m /\
  (forall s, used m s \/ defining m s -> In s (keys d)) /\
  (exists names, param_R_names Q m true [] d = Ok names) /\
  calc_model Q m (mkvalues 0 0 1 0 []) r fixed = Err NameError.
Proof.
  exists (fun s => Some (SSym s)), (fun _ _ => 0%Q), [("a", Fitted)], [("tau", VStr "a"); ("omega", VNum 1)],
    [(VNum 1, Props "HenyeyGreenstein" [("t", VStr "a"); ("ncoefs", VNum 8)] [])], [],
    (mkmodel [] [] ["a"] [] QNum (QExpr ["a"] (fun _ => 0%Q)) QNum), [("a", 0%Q)], [].
  split; [repeat constructor; simpl; tauto|]. split; [reflexivity|].
  split.
  { split; [repeat constructor; simpl; tauto|]. split; [constructor|]. split; intros s; simpl; split; intuition (try congruence). }
  split; [intros s Hs; simpl in Hs; destruct Hs as [<-|[]]; split; [left; simpl; auto|unfold reserved_name; intuition discriminate]|].
  split; [reflexivity|]. split.
  { intros s [[[H|H] _]|[H|[H|H]]]; simpl in *; tauto. }
  split; [eexists; reflexivity|]. reflexivity.
Qed.
Print Assumptions C145_component_refuted.

(** ** C146 *)
(** a constant that is an array or a frame is not used: R cannot be built if it is a parameter of a
    scattering function ... *)
Theorem C146_function_refuted : forall (Val : Type) (m : model Val) frame cols d s, NoDup (keys d) ->
  In (s, Array) d -> scattering m s -> param_R_names Val m frame cols d = Err AssertionError.
Proof.
  intros Val m frame cols d s ND I S. apply (proj2 (param_R_spec m frame cols d ND)). intros [_ H].
  destruct (H s S) as [X|[_ X]]; pose proof (unique_entry d s _ _ ND I X); discriminate.
Qed.
Print Assumptions C146_function_refuted.

(** ... and a fit has no value for it if it is used in the definition of omega, tau or NormBRDF *)
Theorem C146_definition_refuted : forall (Val : Type) (m : model Val) frame d old r fixed s, NoDup (keys d) ->
  fit_dicts frame d r fixed -> In (s, Array) d -> defining m s -> calc_model Val m old r fixed = Err KeyError.
Proof.
  intros Val m frame d old r fixed s ND FD I D.
  apply (proj1 (proj2 (calc_model_spec m old r fixed ltac:(apply FD)))). intros H.
  apply (fit_given frame d r fixed s FD) in H; [|exact D].
  destruct H as [X|[_ X]]; pose proof (unique_entry d s _ _ ND I X); discriminate.
Qed.
Print Assumptions C146_definition_refuted.

(** a constant number is used: the model that is built does not depend on its name any more *)
Theorem C146_number : forall (Val : Type) parse lam d nV kV cV nS kS cS (m : model Val) s q,
  NoDup (keys d) -> (forall s, In s (keys d) -> parse s = Some (SSym s)) -> NoDup (keys kV) -> NoDup (keys kS) ->
  lincomb nV = false -> lincomb nS = false ->
  model_of Val parse lam d (Props nV kV cV) (Props nS kS cS) = Ok m ->
  In (s, Number q) d -> ~ used m s /\ ~ scattering m s /\ ~ defining m s.
Proof.
  intros Val parse lam d nV kV cV nS kS cS m s q ND NS NV NSf LV LS H I.
  destruct (model_of_single parse lam d ND NS nV kV cV nS kS cS m LV LS NV NSf H s) as (A & B & C).
  assert (X : exists q, In (s, Number q) d) by eauto. tauto.
Qed.
Print Assumptions C146_number.

Example C146_example :
  let d := [("a", Array); ("b", Fitted)] in
  let m v := mkmodel [v] [] [v] [] QNum (QExpr ["a"] (eg_lam (SSym "a"))) QNum in
  param_R_names Q (m "a") true ["a"] d = Err AssertionError /\
  (exists l, param_R_names Q (m "b") true ["a"] d = Ok l) /\ calc_model Q (m "b") eg_old [("b", 1%Q)] [] = Err KeyError.
Proof. repeat split. eexists. reflexivity. Qed.

(** ** C147 *)
Lemma put_length (Val : Type) h i d : length (put Val h i d) = length h.
Proof. revert i; induction h as [|x h IH]; intros [|i]; simpl; congruence. Qed.
Lemma at_put (Val : Type) h i j d : (i < length h)%nat -> at_ Val (put Val h i d) j = if Nat.eqb j i then d else at_ Val h j.
Proof.
  revert i j; induction h as [|x h IH]; intros i j H; [simpl in H; lia|]. destruct i, j; simpl in *; try reflexivity.
  apply IH. lia.
Qed.
Lemma at_app (Val : Type) (h h' : heap Val) j : (j < length h)%nat -> at_ Val (h ++ h') j = at_ Val h j.
Proof. intros H. unfold at_. apply app_nth1, H. Qed.
Lemma at_new (Val : Type) (h : heap Val) d : at_ Val (h ++ [d]) (length h) = d.
Proof. unfold at_. rewrite app_nth2, Nat.sub_diag by lia. reflexivity. Qed.

(** an evaluation with assigned values (the default, and all evaluations of a fit) changes no dict
    that was there before; the values are those of the dict, assigned to the dataset, and the fixed ones *)
Theorem C147_assign : forall (Val : Type) expand (h : heap Val) ref fixed h' r, (ref < length h)%nat -> NoDup (keys fixed) ->
  set_calc_dicts Val true expand h ref fixed = (h', r) ->
  (forall i, (i < length h)%nat -> at_ Val h' i = at_ Val h i) /\
  (forall k, dget string_dec k (at_ Val h' r) =
     given (map (fun kv => (fst kv, expand (fst kv) (snd kv))) (at_ Val h ref)) fixed k).
Proof.
  intros Val expand h ref fixed h' r L NF E. unfold set_calc_dicts in E. cbn [fst snd] in E. rewrite at_new in E. injection E as <- <-.
  assert (Q : (length h < length (h ++ [map (fun kv => (fst kv, expand (fst kv) (snd kv))) (at_ Val h ref)]))%nat) by (rewrite app_length; simpl; lia).
  split.
  - intros i Hi. rewrite at_put by exact Q. destruct (Nat.eqb i (length h)) eqn:X; [apply Nat.eqb_eq in X; lia|]. apply at_app, Hi.
  - intros k. rewrite at_put, Nat.eqb_refl by exact Q. apply given_update, NF.
Qed.
Print Assumptions C147_assign.

(** evaluations with explicit parameters do not change the dicts of the caller *)
Theorem C147_calc : forall (Val : Type) column (h : heap Val) param fixed h' r, (param < length h)%nat -> NoDup (keys (at_ Val h fixed)) ->
  calc_dicts Val column h param fixed = (h', r) ->
  (forall i, (i < length h)%nat -> at_ Val h' i = at_ Val h i) /\
  (forall k, dget string_dec k (at_ Val h' r) = option_map column (given (at_ Val h param) (at_ Val h fixed) k)).
Proof.
  intros Val column h param fixed h' r L NF E. unfold calc_dicts, set_calc_dicts in E. cbn [fst snd] in E. rewrite at_new in E. injection E as <- <-.
  match goal with |- context [put Val ?x _ _] => assert (Q : (length h < length x)%nat) by (rewrite app_length; simpl; lia) end.
  split.
  - intros i Hi. rewrite at_put by exact Q. destruct (Nat.eqb i (length h)) eqn:X; [apply Nat.eqb_eq in X; lia|]. apply at_app, Hi.
  - intros k. rewrite at_put, Nat.eqb_refl by exact Q.
    assert (M : forall d : list (string * Val), dget string_dec k (map (fun kv => (fst kv, column (snd kv))) d) = option_map column (dget string_dec k d)).
    { intros d; induction d as [|[a b] d IH]; simpl; [reflexivity|]. destruct (string_dec k a); [reflexivity|exact IH]. }
    rewrite given_update.
    + unfold given. rewrite !M. destruct (dget string_dec k (at_ Val h fixed)); reflexivity.
    + unfold keys in *. rewrite map_map. exact NF.
Qed.
Print Assumptions C147_calc.

(** but [calc_model(assign=False)] without explicit values adds the auxiliary values to the results
    of the fit, and the frame of the fitted values cannot be made afterwards *)
Theorem C147_no_assign_refuted : forall (Val : Type) d expand (h : heap Val) ref fixed k v h' r, NoDup (keys d) -> (ref < length h)%nat ->
  fit_dicts true d (at_ Val h ref) fixed -> In (k, v) fixed ->
  set_calc_dicts Val false expand h ref fixed = (h', r) ->
  ~ In k (keys (at_ Val h ref)) /\ In k (keys (at_ Val h' ref)) /\
  res_df_names Val d (at_ Val h ref) = Ok (keys (at_ Val h ref)) /\ res_df_names Val d (at_ Val h' ref) = Err KeyError.
Proof.
  intros Val d expand h ref fixed k v h' r' ND L FD I E. unfold set_calc_dicts in E. cbn [fst snd] in E. injection E as <- <-.
  rewrite at_put, Nat.eqb_refl by exact L. set (r := at_ Val h ref) in *. clearbody r.
  pose proof FD as (_ & NF & R & F).
  assert (Kf : In k (keys fixed)) by (apply in_map_iff; exists (k, v); auto).
  assert (Ku : In k (keys (dupdate string_dec r fixed))).
  { apply (dget_in_keys string_dec). rewrite dget_dupdate by exact NF. apply (dget_in_keys string_dec) in Kf.
    destruct (dget string_dec k fixed); [discriminate|congruence]. }
  assert (Ns : ~ In k (start_names d)).
  { rewrite in_start. intros X. apply F in Kf. destruct Kf as [_ Y]. pose proof (unique_entry d k _ _ ND X Y). discriminate. }
  assert (M : forall l : list (string * Val), (exists e, res_df_names Val d l = Ok e) \/ res_df_names Val d l = Err KeyError).
  { intros l; induction l as [|[a b] l IH]; [left; eexists; reflexivity|]. unfold res_df_names in *. cbn [mapM fst].
    destruct (inb string_dec a (start_names d)); cbn [bind]; [|right; reflexivity].
    destruct IH as [[e ->]| ->]; cbn [bind]; [left; eexists; reflexivity|right; reflexivity]. }
  split; [rewrite R; intros X; apply Ns, in_start, X|]. split; [exact Ku|].
  split.
  - assert (A : forall a b, In (a, b) r -> In a (start_names d)).
    { intros a b X. apply in_start, R, in_map_iff. exists (a, b). auto. }
    clear - A. induction r as [|[a b] r IH]; [reflexivity|]. unfold res_df_names, keys in *. cbn [mapM map fst].
    rewrite (proj2 (inb_iff string_dec a (start_names d)) (A a b (or_introl eq_refl))). cbn [bind].
    rewrite IH; [reflexivity|]. intros x y Z. apply (A x y). right. exact Z.
  - destruct (M (dupdate string_dec r fixed)) as [[e E]|E]; [|exact E]. exfalso.
    set (l := dupdate string_dec r fixed) in *. clearbody l. clear - E Ku Ns. revert e E Ku. induction l as [|[a b] l IH]; intros e E Ku; [destruct Ku|].
    unfold res_df_names in *. cbn [mapM fst] in E. destruct (inb string_dec a (start_names d)) eqn:A; cbn [bind] in E; [|discriminate].
    destruct (mapM _ l) as [e'|] eqn:E'; cbn [bind] in E; [|discriminate].
    destruct Ku as [<-|Ku]; [apply inb_iff in A; contradiction|]. apply (IH e' eq_refl Ku).
Qed.
Print Assumptions C147_no_assign_refuted.

Example C147_example :
  let h := [eg_r; eg_f] in
  fit_dicts true eg_d (at_ Q h 0) eg_f /\ In ("omega", 9%Q) eg_f /\ NoDup (keys (at_ Q h 1)) /\
  fst (set_calc_dicts Q true (fun _ v => v) h 0 eg_f) = [eg_r; eg_f; [("a", 5%Q); ("b", 7%Q); ("omega", 9%Q)]] /\
  fst (calc_dicts Q (fun v => v) h 0 1) = [eg_r; eg_f; [("a", 5%Q); ("b", 7%Q); ("omega", 9%Q)]] /\
  res_df_names Q eg_d (at_ Q (fst (set_calc_dicts Q true (fun _ v => v) h 0 eg_f)) 0) = Ok ["a"; "b"] /\
  res_df_names Q eg_d (at_ Q (fst (set_calc_dicts Q false (fun _ v => v) h 0 eg_f)) 0) = Err KeyError.
Proof. split; [exact eg_dicts|]. split; [left; reflexivity|]. split; [apply eg_dicts|]. repeat split. Qed.
