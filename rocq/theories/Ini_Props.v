(** C113-C115: scattering functions from dictionaries and stored definitions *)
From Coq Require Import ZArith QArith Reals Qreals Bool Arith String Lia Lra List.
From Verif Require Import Base Ini_Model Ini_Spec Ini_Proofs.
Import ListNotations.
Local Open Scope string_scope.
Local Open Scope list_scope.

(** ** a concrete case *)
(** reading of a few strings *)
Definition eg_parse (s : string) : option sx :=
  if string_dec s "2*a" then Some (SOp "*" (SNum 2) (SSym "a"))
  else if string_dec s "sqrt(a)" then Some (SFun "sqrt" (SSym "a"))
  else if string_dec s "" then None else Some (SSym s).
(** writing of a few expressions *)
Definition eg_show (e : sx) : string :=
  match e with SFun _ _ => "sqrt(a)" | _ => "2*a" end.
(** a is 3, b is fitted *)
Definition eg_set : list (string * sx) := [("a", SNum 3); ("b", SSym "b")].
Definition eg_op (o : string) (x y : R) : R := if string_dec o "+" then (x + y)%R else (x * y)%R.
Definition eg_num_op (o : string) (x y : Q) : Q := if string_dec o "+" then Qplus x y else Qmult x y.
Definition eg_fn (f : string) (x : R) : R := (x + 1)%R.

Lemma eg_names : names_are_symbols eg_parse eg_set.
Proof. intros s v [E|[E|[]]]; inversion E; subst; reflexivity. Qed.
Lemma eg_parameters : parameters eg_set.
Proof. intros s v [E|[E|[]]]; inversion E; subst; [right; exists 3%Q|left]; reflexivity. Qed.
Lemma eg_exact : forall o a b, Q2R (eg_num_op o a b) = eg_op o (Q2R a) (Q2R b).
Proof. intros o a b. unfold eg_num_op, eg_op. destruct (string_dec o "+"); [apply Q2R_plus|apply Q2R_mult]. Qed.

(** ** C113 *)
(** the attributes have the values of the definitions, with the fixed numbers in
    place of the names *)
Theorem C113_attributes : forall op fn parse setdict name kv choices o,
  names_are_symbols parse setdict -> parameters setdict ->
  init_V_SRF parse setdict (Props name kv choices) = Ok o ->
  Forall2 (fun x y => fst y = fst x /\ exists e, denotes parse (snd x) = Some e /\
     forall env, val op fn env (snd y) = val op fn (argument_values setdict env) e) kv (attributes o).
Proof. intros op fn parse d n kv ch o N P H. exact (proj2 (attr_values op fn parse d n kv ch o N P H)). Qed.
Print Assumptions C113_attributes.

(** so have the weights of a linear combination *)
Theorem C113_weights : forall op fn parse setdict name kv choices o,
  names_are_symbols parse setdict -> parameters setdict -> combination name ->
  init_V_SRF parse setdict (Props name kv choices) = Ok o ->
  Forall2 (fun x y => exists e, denotes parse (fst x) = Some e /\
     forall env, val op fn env (fst y) = val op fn (argument_values setdict env) e) choices (components o).
Proof.
  intros op fn parse d n kv ch o N P L H.
  pose proof (component_values op fn parse d n kv ch o N P (combination_lincomb n L) H) as F.
  clear - F. induction F as [|x y l l' [A _] F IH]; constructor; auto.
Qed.
Print Assumptions C113_weights.

(** the components: their attributes have the values of the definitions with all
    names free, whatever [setdict] is *)
Theorem C113_component_attributes : forall op fn parse setdict name kv choices o,
  names_are_symbols parse setdict -> parameters setdict -> combination name ->
  init_V_SRF parse setdict (Props name kv choices) = Ok o ->
  Forall2 (fun x y => forall n kv' ch', snd x = Props n kv' ch' ->
     Forall2 (fun p q => fst q = fst p /\ exists e, denotes parse (snd p) = Some e /\
        forall env, val op fn env (snd q) = val op fn env e) kv' (attributes (snd y))) choices (components o).
Proof.
  intros op fn parse d n kv ch o N P L H.
  pose proof (component_values op fn parse d n kv ch o N P (combination_lincomb n L) H) as F.
  clear - F. induction F as [|[w q] [u s] l l' [_ A] F IH]; constructor; auto.
  intros n' kv' ch' E. cbn [snd] in *. subst q.
  pose proof (proj2 (attr_values op fn parse [] n' kv' ch' s ltac:(intros ? ? []) ltac:(intros ? ? []) A)) as G.
  clear - G. induction G as [|p q l l' [B [e [D V]]] G IH]; constructor; auto.
  split; [exact B|]. exists e. split; [exact D|]. intro env. rewrite V.
  replace (val op fn (argument_values [] env) e) with (val op fn env e); [reflexivity|].
  clear. induction e; simpl; try reflexivity; congruence.
Qed.
Print Assumptions C113_component_attributes.

(** hence a fixed number is not used in a component *)
Theorem C113_components_refuted : exists parse setdict p,
  names_are_symbols parse setdict /\ parameters setdict /\ fixed_number setdict "a" /\
  exists o c, init_V_SRF parse setdict p = Ok o /\ map snd (components o) = [c] /\
    attributes c = [("t", SSym "a")] /\
    (forall op fn, exists env, val op fn env (SSym "a") <> argument_values setdict env "a").
Proof.
  exists eg_parse, eg_set, (Props "LinCombV" [] [(VNum 1, Props "HenyeyGreenstein" [("t", VStr "a")] [])]).
  split; [exact eg_names|split; [exact eg_parameters|split; [exists 3%Q; reflexivity|]]].
  eexists _, _. split; [reflexivity|split; [reflexivity|split; [reflexivity|]]].
  intros op fn. exists (fun _ => 0%R). cbn. unfold Q2R. cbn. lra.
Qed.
Print Assumptions C113_components_refuted.

(** [free_symbols]: the symbols of the attributes other than tau, omega, NormBRDF, bsf and of the weights *)
Theorem C113_free_symbols : forall parse setdict name kv choices o,
  names_are_symbols parse setdict -> parameters setdict ->
  init_V_SRF parse setdict (Props name kv choices) = Ok o ->
  forall t, In t (symbols o) <->
    (exists k u, In (k, u) (attributes o) /\ ~ not_counted k /\ occurs t u) \/
    (exists w q u s, In ((w, q), (u, s)) (combine choices (components o)) /\
       ~ (exists k, w = VStr k /\ not_counted k) /\ occurs t u).
Proof. intros parse d n kv ch o N P H. exact (symbols_spec (fun _ x _ => x) (fun _ x => x) parse d n kv ch o N P H). Qed.
Print Assumptions C113_free_symbols.

(** the symbols of the components are not among them *)
Theorem C113_free_symbols_refuted : exists parse setdict p o c,
  names_are_symbols parse setdict /\ parameters setdict /\
  init_V_SRF parse setdict p = Ok o /\ map snd (components o) = [c] /\ In "b" (symbols c) /\ ~ In "b" (symbols o).
Proof.
  exists eg_parse, eg_set, (Props "LinCombV" [] [(VNum 1, Props "HenyeyGreenstein" [("t", VStr "b")] [])]).
  eexists _, _. split; [exact eg_names|split; [exact eg_parameters|split; [reflexivity|split; [reflexivity|]]]].
  split; [left; reflexivity|intros []].
Qed.
Print Assumptions C113_free_symbols_refuted.

Example C113_example :
  init_V_SRF eg_parse eg_set (Props "HenyeyGreenstein" [("t", VStr "2*a"); ("omega", VStr "b"); ("ncoefs", VNum 8)] []) =
    Ok (Obj "HenyeyGreenstein" [("t", SOp "*" (SNum 2) (SNum 3)); ("omega", SSym "b"); ("ncoefs", SNum 8)] [] []).
Proof. reflexivity. Qed.

(** ** C114 *)
(** [loaded] is the value that is meant, provided that no operator is applied to a
    bare argument of set_V_SRF *)
Theorem C114_loaded : forall op fn parse show num_op,
  (forall o a b, Q2R (num_op o a b) = op o (Q2R a) (Q2R b)) ->
  (forall x y, op "+" x y = (x + y)%R) -> (forall x y, op "*" x y = (x * y)%R) ->
  forall setdict key e, names_are_symbols parse setdict -> parameters setdict ->
  (forall s, In s (variables e) -> parse s = Some (SSym s)) ->
  shape_of e <> None ->
  (forall x, body parse num_op WStr e = Ok (WSym x) -> parse (show x) = Some x) ->
  forall env, exists u, loaded_attribute parse show num_op setdict key e = Ok u /\
    val op fn env u = meant op fn (argument_values setdict env) e.
Proof. intros op fn parse show num_op X A M d k e N P V S R env. apply loaded_val; assumption. Qed.
Print Assumptions C114_loaded.

(** the original attribute has the value that is meant, for every expression *)
Theorem C114_original : forall op fn parse num_op,
  (forall o a b, Q2R (num_op o a b) = op o (Q2R a) (Q2R b)) ->
  (forall x y, op "+" x y = (x + y)%R) -> (forall x y, op "*" x y = (x * y)%R) ->
  forall setdict e, parameters setdict ->
  forall env, exists v x, direct_attribute parse num_op setdict e = Ok v /\ to_sx v = Some x /\
    val op fn env x = meant op fn (argument_values setdict env) e.
Proof.
  intros op fn parse num_op X A M d e P env.
  destruct (direct_val op fn parse num_op X A M d env e P) as [v [E V]].
  unfold sval in V. exists v. destruct (to_sx v) as [x|]; [|discriminate]. exists x. inversion V. auto.
Qed.
Print Assumptions C114_original.

(** a sum of two arguments is stored as their names, one after the other: a different symbol *)
Theorem C114_sum_refuted : forall parse show num_op setdict key s t,
  parse (s ++ t)%string = Some (SSym (s ++ t)%string) -> dget string_dec (s ++ t)%string setdict = None ->
  loaded_attribute parse show num_op setdict key (XAdd (XVar s) (XVar t)) = Ok (SSym (s ++ t)%string).
Proof.
  intros parse show num_op d k s t Ps D. unfold loaded_attribute, stored_attribute. cbn. rewrite D, Ps. cbn. rewrite D. reflexivity.
Qed.
Print Assumptions C114_sum_refuted.

(** an integer multiple of an argument is stored as the repeated name *)
Theorem C114_multiple_refuted : forall parse show num_op setdict key s,
  parse (s ++ s)%string = Some (SSym (s ++ s)%string) -> dget string_dec (s ++ s)%string setdict = None ->
  loaded_attribute parse show num_op setdict key (XMul (XInt 2) (XVar s)) = Ok (SSym (s ++ s)%string).
Proof.
  intros parse show num_op d k s Ps D. unfold loaded_attribute, stored_attribute.
  replace (body parse num_op WStr (XMul (XInt 2) (XVar s))) with (Ok (WStr (s ++ s)%string)) by reflexivity.
  cbn. rewrite D, Ps. cbn. rewrite D. reflexivity.
Qed.
Print Assumptions C114_multiple_refuted.

(** a float times an argument is not stored: the file cannot be loaded *)
Theorem C114_float_refuted : forall parse show num_op setdict key q s,
  loaded_attribute parse show num_op setdict key (XMul (XFlt q) (XVar s)) = Err TypeError.
Proof. reflexivity. Qed.
Print Assumptions C114_float_refuted.

Example C114_example :
  (forall o a b, Q2R (eg_num_op o a b) = eg_op o (Q2R a) (Q2R b)) /\
  (forall x y, eg_op "+" x y = (x + y)%R) /\ (forall x y, eg_op "*" x y = (x * y)%R) /\
  shape_of (XFun "sqrt" (XVar "a")) = Some Symbolic /\
  loaded_attribute eg_parse eg_show eg_num_op eg_set "t" (XFun "sqrt" (XVar "a")) = Ok (SFun "sqrt" (SNum 3)) /\
  direct_attribute eg_parse eg_num_op eg_set (XFun "sqrt" (XVar "a")) = Ok (WSym (SFun "sqrt" (SNum 3))) /\
  loaded_attribute eg_parse eg_show eg_num_op eg_set "t" (XMul (XInt 2) (XVar "a")) = Ok (SSym "aa").
Proof. split; [exact eg_exact|]. repeat split; reflexivity. Qed.

(** ** C115 *)
(** a stored definition is read back exactly when it is made of literals; otherwise a ValueError *)
Theorem C115_literal : forall v, literal_eval (written v) = Ok v <-> literal v.
Proof.
  intro v. destruct (reads_all v) as [[L E]|[L E]]; rewrite E; [tauto|]. split; [discriminate|contradiction].
Qed.
Print Assumptions C115_literal.

Theorem C115_error : forall v, ~ literal v -> literal_eval (written v) = Err ValueError.
Proof. intros v N. destruct (reads_all v) as [[L _]|[_ E]]; [contradiction|exact E]. Qed.
Print Assumptions C115_error.

(** bounds that are infinite: the definition cannot be read *)
Theorem C115_bounds_refuted : forall lo,
  literal_eval (written (PDict [(PStr "omega", PList [PBool true; PFloat (1 # 2); PNone; PTuple [PList [lo]; PList [PInf false]]])])) = Err ValueError.
Proof.
  intro lo. apply C115_error. intro L. inversion L as [| | | | | | |l H]; subst.
  destruct (H _ _ (or_introl eq_refl)) as [_ A]. inversion A as [| | | | |l H1| |]; subst.
  specialize (H1 _ (or_intror (or_intror (or_intror (or_introl eq_refl))))). inversion H1 as [| | | | | |l H2|]; subst.
  specialize (H2 _ (or_intror (or_introl eq_refl))). inversion H2 as [| | | | |l H3| |]; subst.
  specialize (H3 _ (or_introl eq_refl)). inversion H3.
Qed.
Print Assumptions C115_bounds_refuted.

Example C115_example :
  literal_eval (written (PDict [(PStr "omega", PList [PBool true; PFloat (1 # 2); PNone; PTuple [PList [PFloat (-1 # 2)]; PList [PInt 1]]])])) =
  Ok (PDict [(PStr "omega", PList [PBool true; PFloat (1 # 2); PNone; PTuple [PList [PFloat (-1 # 2)]; PList [PInt 1]]])]).
Proof. reflexivity. Qed.
