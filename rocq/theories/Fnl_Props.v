(** C164: the coefficients of the interaction term belong to the definition of the model. *)
From Coq Require Import Bool String List.
From Verif Require Import Base Fnl_Model Fnl_Spec.
Import ListNotations.
Local Open Scope list_scope.

Section L.
Context {M F E : Type} (expand : M -> F) (compile : list string -> F -> E).
Notation run := (run expand compile).
Notation step := (step expand compile).

(** an object whose coefficients and functions are either missing or the expected ones *)
Definition consistent (m : M) (names : list string) (fi : option F) (ei : option E) (o : obj M F E) : Prop :=
  o_model o = m /\ o_names o = names /\ o_intQ o = true /\ o_backend o = Available /\ o_fn_input o = fi /\ o_ev_input o = ei
  /\ (o_fn o = None \/ o_fn o = Some (Some (match fi with Some f => f | None => expand m end)))
  /\ (o_ev o = None \/ o_ev o = Some (Some (expected expand compile m names fi ei))).
Lemma consistent_fn m names fi ei o : consistent m names fi ei o ->
  consistent m names fi ei (fst (get_fn expand o)) /\ snd (get_fn expand o) = Some (match fi with Some f => f | None => expand m end).
Proof.
  intros (A & B & C & D & G & H & I & J). unfold get_fn. destruct I as [I|I]; rewrite I; cbn [fst snd].
  - unfold set_fn. rewrite G, C, A. destruct fi as [f|]; cbn; (split; [|reflexivity]); unfold consistent; cbn; rewrite ?A, ?B, ?C, ?D, ?G, ?H; repeat split; auto.
  - split; [|reflexivity]. unfold consistent. rewrite A, B, C, D, G, H. repeat split; auto.
Qed.
Lemma consistent_eval m names fi ei o : consistent m names fi ei o ->
  consistent m names fi ei (fst (eval expand compile o)) /\ snd (eval expand compile o) = Ok (Some (expected expand compile m names fi ei)).
Proof.
  intros K. pose proof K as (A & B & C & D & G & H & I & J). unfold eval. rewrite C. unfold get_ev. destruct J as [J|J]; rewrite J; cbn [fst snd].
  - unfold set_ev. rewrite H, C. destruct ei as [e|].
    + cbn. split; [|reflexivity]. unfold consistent. cbn. rewrite A, B, C, D, G, H. repeat split; auto.
    + rewrite D. pose proof (consistent_fn m names fi None o K) as [X Y]. destruct (get_fn expand o) as [o' fn]. cbn [fst snd] in X, Y. subst fn.
      cbn. destruct X as (A' & B' & C' & D' & G' & H' & I' & J'). split.
      * unfold consistent. cbn. rewrite A', B', C', D', G', H'. repeat split; auto.
      * rewrite B'. reflexivity.
  - split; [|reflexivity]. unfold consistent. rewrite A, B, C, D, G, H. repeat split; auto.
Qed.
Lemma run_looks m names fi ei l : forall o, consistent m names fi ei o -> Forall looks l ->
  Forall (fun x => x = Ok (Some (expected expand compile m names fi ei))) (snd (run o l)).
Proof.
  induction l as [|a l IH]; intros o K L; [constructor|]. inversion L as [|? ? L1 L2]; subst. cbn [Fnl_Model.run].
  assert (X : consistent m names fi ei (fst (step o a)) /\ (snd (step o a) = None \/ snd (step o a) = Some (Ok (Some (expected expand compile m names fi ei))))).
  { destruct a; cbn in L1; try contradiction; cbn [Fnl_Model.step].
    - pose proof (consistent_eval m names fi ei o K) as [X Y]. destruct (eval expand compile o) as [o' r]. cbn in *. rewrite Y. auto.
    - cbn. split; [apply consistent_fn, K|auto].
    - cbn. split; [|auto]. destruct K as (A & B & C & D & G & H & I & J). unfold consistent. cbn. rewrite A, B, C, D, G, H. repeat split; auto. }
  destruct (step o a) as [o' x]. cbn [fst snd] in X. destruct X as [X Y]. specialize (IH o' X L2). destruct (run o' l) as [o2 xs]. cbn [snd] in *.
  destruct Y as [->| ->]; [exact IH|constructor; [reflexivity|exact IH]].
Qed.

(** once the functions are there *)
Lemma step_keeps_ev o a x : o_ev o = Some x -> no_ev a -> o_ev (fst (step o a)) = Some x.
Proof.
  intros H N. destruct a; cbn [Fnl_Model.step]; cbn in N; try contradiction; try exact H.
  - unfold eval, get_ev. destruct (o_intQ o); rewrite ?H; [destruct x|]; exact H.
  - unfold get_fn. destruct (o_fn o); [exact H|]. cbn. unfold set_fn. destruct (o_fn_input o), (o_intQ o); exact H.
  - unfold set_fn. destruct f, (o_intQ o); exact H.
Qed.
Lemma run_keeps_ev l : forall o e, o_ev o = Some (Some e) -> Forall no_ev l ->
  Forall (fun x => x = Ok (Some e) \/ x = Ok None) (snd (run o l)).
Proof.
  induction l as [|a l IH]; intros o e H N; [constructor|]. inversion N as [|? ? N1 N2]; subst. cbn [Fnl_Model.run].
  pose proof (step_keeps_ev o a (Some e) H N1) as X.
  assert (Y : snd (step o a) = None \/ snd (step o a) = Some (Ok (Some e)) \/ snd (step o a) = Some (Ok None)).
  { destruct a; cbn [Fnl_Model.step]; cbn; auto. unfold eval, get_ev. destruct (o_intQ o); [|cbn; auto]. rewrite H. cbn. auto. }
  destruct (step o a) as [o' x]. cbn [fst snd] in *. specialize (IH o' e X N2). destruct (run o' l) as [o2 xs]. cbn [snd] in *.
  destruct Y as [->|[-> | ->]]; [exact IH| |]; constructor; auto.
Qed.
Lemma eval_ev o e : snd (eval expand compile o) = Ok (Some e) -> o_ev (fst (eval expand compile o)) = Some (Some e).
Proof.
  unfold eval. destruct (o_intQ o); [|discriminate]. unfold get_ev. destruct (o_ev o) as [[x|]|] eqn:X; cbn.
  - intros H. injection H as ->. exact X.
  - discriminate.
  - destruct (set_ev expand compile o (o_ev_input o)) as [o' [[]|er]]; [|discriminate]. destruct (o_ev o') as [[y|]|] eqn:Y; cbn; try discriminate.
    intros H. injection H as ->. exact Y.
Qed.

End L.

(** As long as its attributes are not changed, an RT1 object always uses the coefficients of its definition (or what was
    passed in), however often it is evaluated or pickled. *)
Theorem C164_fresh : forall M F E (expand : M -> F) (compile : list string -> F -> E) m names fi ei l,
  Forall looks l ->
  Forall (fun x => x = Ok (Some (expected expand compile m names fi ei))) (snd (run expand compile (new m names true Available fi ei) l)).
Proof. intros. apply run_looks; [|assumption]. unfold consistent, new. cbn. repeat split; auto. Qed.
Print Assumptions C164_fresh.

(** Attributes that are assigned before the first evaluation count: the first evaluation uses the definition and names
    assigned last. *)
Theorem C164_before : forall M F E (expand : M -> F) (compile : list string -> F -> E) m names q fi ei l,
  Forall prepares l ->
  snd (run expand compile (new m names q Available fi ei) (l ++ [Eval])) =
  [Ok (if last_intQ q l then Some (expected expand compile (last_model m l) (last_names names l) fi ei) else None)].
Proof.
  intros M F E expand compile m names q fi ei l. revert m names q. induction l as [|a l IH]; intros m names q P.
  - cbn. unfold eval, new. cbn. destruct q; [|reflexivity]. unfold get_ev, set_ev. cbn. destruct ei as [e|]; [reflexivity|].
    unfold get_fn, set_fn. cbn. destruct fi; reflexivity.
  - inversion P as [|? ? P1 P2]; subst. destruct a; cbn in P1; try contradiction; cbn [app run step last_model last_names last_intQ].
    + specialize (IH m names q P2). cbn. change (mkobj m names q Available fi ei None None) with (new m names q Available fi ei).
      destruct (run expand compile (new m names q Available fi ei) (l ++ [Eval])). exact IH.
    + specialize (IH m0 names q P2). cbn. change (mkobj m0 names q Available fi ei None None) with (new m0 names q Available fi ei).
      destruct (run expand compile (new m0 names q Available fi ei) (l ++ [Eval])). exact IH.
    + specialize (IH m l0 q P2). cbn. change (mkobj m l0 q Available fi ei None None) with (new m l0 q Available fi ei).
      destruct (run expand compile (new m l0 q Available fi ei) (l ++ [Eval])). exact IH.
    + specialize (IH m names b P2). cbn. change (mkobj m names b Available fi ei None None) with (new m names b Available fi ei).
      destruct (run expand compile (new m names b Available fi ei) (l ++ [Eval])). exact IH.
Qed.
Print Assumptions C164_before.

(** After the first evaluation no assignment (other than to _fnevals itself) has an effect on the functions: all later
    evaluations use those of the definition at the time of the first one. *)
Theorem C164_stale_refuted : forall M F E (expand : M -> F) (compile : list string -> F -> E) o e l,
  snd (eval expand compile o) = Ok (Some e) -> Forall no_ev l ->
  Forall (fun x => x = Ok (Some e) \/ x = Ok None) (snd (run expand compile (fst (eval expand compile o)) l)).
Proof. intros M F E expand compile o e l H N. apply run_keeps_ev; [apply eval_ev, H|exact N]. Qed.
Print Assumptions C164_stale_refuted.

(** Pickling does not change the results if the definition, int_Q and fn are not assigned. *)
Theorem C164_pickle : forall M F E (expand : M -> F) (compile : list string -> F -> E) m names q b fi ei l,
  Forall keeps_fn l ->
  snd (run expand compile (new m names q b fi ei) l) = snd (run expand compile (new m names q b fi ei) (unpickled l)).
Proof.
  intros M F E expand compile m names q b fi ei l K.
  set (val := match fi, q with None, true => Some (expand m) | _, _ => fi end).
  assert (GEN : forall o p, o_model o = m -> o_intQ o = q -> o_backend o = b -> o_fn_input o = fi -> o_ev_input o = ei ->
    o_model p = m -> o_intQ p = q -> o_backend p = b -> o_fn_input p = fi -> o_ev_input p = ei -> o_names o = o_names p -> o_ev o = o_ev p ->
    (o_fn o = None \/ o_fn o = Some val) -> (o_fn p = None \/ o_fn p = Some val) ->
    snd (run expand compile o l) = snd (run expand compile p (unpickled l))).
  2: { apply GEN; auto; left; reflexivity. }
  clear names. induction K as [|a l K1 K IH]; intros o p A1 A2 A3 A4 A5 B1 B2 B3 B4 B5 N V FO FP; [reflexivity|].
  assert (GO : forall o' : obj M F E, o_model o' = m -> o_intQ o' = q -> o_backend o' = b -> o_fn_input o' = fi -> (o_fn o' = None \/ o_fn o' = Some val) ->
      get_fn expand o' = (mkobj m (o_names o') q b fi (o_ev_input o') (Some val) (o_ev o'), val)).
  { intros [m' n' q' b' fi' ei' f' e']. cbn. intros -> -> -> -> [->| ->]; unfold get_fn; cbn.
    - unfold set_fn, put_fn, val. cbn. destruct fi, q; reflexivity.
    - reflexivity. }
  destruct a; cbn in K1; try contradiction.
  - (* Eval *)
    change (unpickled (Eval :: l)) with (@Eval M F E :: unpickled l). cbn [run step].
    destruct o as [om on oq ob ofi oei ofn oev], p as [pm pn pq pb pfi pei pfn pev]. cbn in A1, A2, A3, A4, A5, B1, B2, B3, B4, B5, N, V, FO, FP.
    subst om oq ob ofi oei pm pq pb pfi pei pn pev. unfold eval. cbn [o_intQ]. destruct q eqn:Q.
    + unfold get_ev. cbn [o_ev]. destruct oev as [x|].
      * destruct x as [x|]; cbn; match goal with |- snd (let (_, _) := run _ _ ?x l in _) = snd (let (_, _) := run _ _ ?y _ in _) =>
          specialize (IH x y eq_refl eq_refl eq_refl eq_refl eq_refl eq_refl eq_refl eq_refl eq_refl eq_refl eq_refl eq_refl FO FP);
          destruct (run expand compile x l), (run expand compile y (unpickled l)); cbn in *; f_equal; exact IH end.
      * cbn [o_ev_input]. unfold set_ev. cbn [o_intQ]. destruct ei as [e|].
        -- cbn. match goal with |- snd (let (_, _) := run _ _ ?x l in _) = snd (let (_, _) := run _ _ ?y _ in _) =>
             specialize (IH x y eq_refl eq_refl eq_refl eq_refl eq_refl eq_refl eq_refl eq_refl eq_refl eq_refl eq_refl eq_refl FO FP);
             destruct (run expand compile x l), (run expand compile y (unpickled l)); cbn in *; f_equal; exact IH end.
        -- cbn [o_backend]. destruct b eqn:BB.
           ++ rewrite (GO (mkobj m on true Available fi None ofn None)) by (auto).
              rewrite (GO (mkobj m on true Available fi None pfn None)) by (auto).
              cbn [o_names o_ev_input o_ev]. destruct val as [f|] eqn:VV.
              ** cbn. match goal with |- snd (let (_, _) := run _ _ ?x l in _) = _ =>
                   specialize (IH x x eq_refl eq_refl eq_refl eq_refl eq_refl eq_refl eq_refl eq_refl eq_refl eq_refl eq_refl eq_refl (or_intror eq_refl) (or_intror eq_refl));
                   destruct (run expand compile x l), (run expand compile x (unpickled l)); cbn in *; f_equal; exact IH end.
              ** cbn. match goal with |- snd (let (_, _) := run _ _ ?x l in _) = _ =>
                   specialize (IH x x eq_refl eq_refl eq_refl eq_refl eq_refl eq_refl eq_refl eq_refl eq_refl eq_refl eq_refl eq_refl (or_intror eq_refl) (or_intror eq_refl));
                   destruct (run expand compile x l), (run expand compile x (unpickled l)); cbn in *; f_equal; exact IH end.
           ++ cbn. match goal with |- snd (let (_, _) := run _ _ ?x l in _) = snd (let (_, _) := run _ _ ?y _ in _) =>
                specialize (IH x y eq_refl eq_refl eq_refl eq_refl eq_refl eq_refl eq_refl eq_refl eq_refl eq_refl eq_refl eq_refl FO FP);
                destruct (run expand compile x l), (run expand compile y (unpickled l)); cbn in *; f_equal; exact IH end.
    + match goal with |- snd (let (_, _) := run _ _ ?x l in _) = snd (let (_, _) := run _ _ ?y _ in _) =>
        specialize (IH x y eq_refl eq_refl eq_refl eq_refl eq_refl eq_refl eq_refl eq_refl eq_refl eq_refl eq_refl eq_refl FO FP);
        destruct (run expand compile x l), (run expand compile y (unpickled l)); cbn in *; f_equal; exact IH end.
  - (* ReadFn *)
    change (unpickled (ReadFn :: l)) with (@ReadFn M F E :: unpickled l). cbn [run step].
    rewrite (GO o A1 A2 A3 A4 FO), (GO p B1 B2 B3 B4 FP). cbn [fst].
    match goal with |- snd (let (_, _) := run _ _ ?x l in _) = snd (let (_, _) := run _ _ ?y _ in _) =>
      specialize (IH x y eq_refl eq_refl eq_refl eq_refl A5 eq_refl eq_refl eq_refl eq_refl B5 N V (or_intror eq_refl) (or_intror eq_refl));
      destruct (run expand compile x l), (run expand compile y (unpickled l)); cbn in *; exact IH end.
  - (* Pickle *)
    change (unpickled (Pickle :: l)) with (unpickled l). cbn [run step getstate fst].
    match goal with |- snd (let (_, _) := run _ _ ?x l in _) = _ =>
      specialize (IH x p A1 A2 A3 A4 A5 B1 B2 B3 B4 B5 N V (or_introl eq_refl) FP); destruct (run expand compile x l); cbn in *; exact IH end.
  - (* SetNames *)
    change (unpickled (SetNames l0 :: l)) with (@SetNames M F E l0 :: unpickled l). cbn [run step].
    match goal with |- snd (let (_, _) := run _ _ ?x l in _) = snd (let (_, _) := run _ _ ?y _ in _) =>
      specialize (IH x y A1 A2 A3 A4 A5 B1 B2 B3 B4 B5 eq_refl V FO FP);
      destruct (run expand compile x l), (run expand compile y (unpickled l)); cbn in *; exact IH end.
  - (* SetEv *)
    change (unpickled (SetEv e :: l)) with (@SetEv M F E e :: unpickled l). cbn [run step].
    destruct o as [om on oq ob ofi oei ofn oev], p as [pm pn pq pb pfi pei pfn pev]. cbn in A1, A2, A3, A4, A5, B1, B2, B3, B4, B5, N, V, FO, FP.
    subst om oq ob ofi oei pm pq pb pfi pei pn pev. unfold set_ev. cbn [o_intQ o_backend].
    destruct e as [e|]; [|destruct q eqn:Q; [destruct b eqn:BB|]].
    2: { rewrite (GO (mkobj m on true Available fi ei ofn oev)) by (auto). rewrite (GO (mkobj m on true Available fi ei pfn oev)) by (auto).
         cbn [o_names o_ev_input o_ev]. destruct val as [f|] eqn:VV; cbn;
         match goal with |- snd (let (_, _) := run _ _ ?x l in _) = _ =>
           specialize (IH x x eq_refl eq_refl eq_refl eq_refl eq_refl eq_refl eq_refl eq_refl eq_refl eq_refl eq_refl eq_refl (or_intror eq_refl) (or_intror eq_refl));
           destruct (run expand compile x l), (run expand compile x (unpickled l)); cbn in *; exact IH end. }
    { cbn; match goal with |- snd (let (_, _) := run _ _ ?x l in _) = snd (let (_, _) := run _ _ ?y _ in _) =>
      specialize (IH x y eq_refl eq_refl eq_refl eq_refl eq_refl eq_refl eq_refl eq_refl eq_refl eq_refl eq_refl eq_refl FO FP);
      destruct (run expand compile x l), (run expand compile y (unpickled l)); cbn in *; exact IH end. }
    { cbn; match goal with |- snd (let (_, _) := run _ _ ?x l in _) = snd (let (_, _) := run _ _ ?y _ in _) =>
      specialize (IH x y eq_refl eq_refl eq_refl eq_refl eq_refl eq_refl eq_refl eq_refl eq_refl eq_refl eq_refl eq_refl FO FP);
      destruct (run expand compile x l), (run expand compile y (unpickled l)); cbn in *; exact IH end. }
    { cbn; match goal with |- snd (let (_, _) := run _ _ ?x l in _) = snd (let (_, _) := run _ _ ?y _ in _) =>
      specialize (IH x y eq_refl eq_refl eq_refl eq_refl eq_refl eq_refl eq_refl eq_refl eq_refl eq_refl eq_refl eq_refl FO FP);
      destruct (run expand compile x l), (run expand compile y (unpickled l)); cbn in *; exact IH end. }
Qed.
Print Assumptions C164_pickle.

(** Coefficients that were assigned to R.fn are lost by pickling, for the copy and for the object itself. *)
Theorem C164_assigned_refuted : forall M F E (expand : M -> F) (compile : list string -> F -> E) m names f,
  snd (run expand compile (new m names true Available None None) [SetFn (Some f); Eval]) = [Ok (Some (compile names f))]
  /\ snd (run expand compile (new m names true Available None None) [SetFn (Some f); Pickle; Eval]) = [Ok (Some (compile names (expand m)))].
Proof. intros. split; reflexivity. Qed.
Print Assumptions C164_assigned_refuted.

(** If the definition is changed after the coefficients were looked at, pickling the object changes its later results. *)
Theorem C164_pickle_refuted : forall M F E (expand : M -> F) (compile : list string -> F -> E) m m' names,
  snd (run expand compile (new m names true Available None None) [ReadFn; SetModel m'; Eval]) = [Ok (Some (compile names (expand m)))]
  /\ snd (run expand compile (new m names true Available None None) [ReadFn; SetModel m'; Pickle; Eval]) = [Ok (Some (compile names (expand m')))].
Proof. intros. split; reflexivity. Qed.
Print Assumptions C164_pickle_refuted.

(** If R.fn was read while int_Q was off, the interaction term can not be evaluated after switching it on. *)
Theorem C164_switch_refuted : forall M F E (expand : M -> F) (compile : list string -> F -> E) m names,
  snd (run expand compile (new m names false Available None None) [ReadFn; SetIntQ true; Eval]) = [Err TypeError].
Proof. intros. reflexivity. Qed.
Print Assumptions C164_switch_refuted.

(** An unknown lambda_backend is only noticed by an evaluation, which raises an AttributeError. *)
Theorem C164_backend : forall M F E (expand : M -> F) (compile : list string -> F -> E) m names fi l,
  Forall looks l -> Forall (fun x => x = Err AttributeError) (snd (run expand compile (new m names true Unknown fi None) l)).
Proof.
  intros M F E expand compile m names fi l L.
  assert (G : forall o, o_intQ o = true -> o_backend o = Unknown -> o_ev_input o = None -> o_ev o = None ->
    Forall (fun x => x = Err AttributeError) (snd (run expand compile o l))).
  2: { apply G; reflexivity. }
  induction L as [|a l A L IH]; intros [om on oq ob ofi oei ofn oev] X Y Z W; cbn in X, Y, Z, W; subst; [constructor|].
  destruct a; cbn in A; try contradiction; cbn [run step].
  - unfold eval, get_ev, set_ev. cbn. match goal with |- context [run expand compile ?x l] => specialize (IH x eq_refl eq_refl eq_refl eq_refl); destruct (run expand compile x l) end.
    cbn in *. constructor; [reflexivity|exact IH].
  - match goal with |- context [run expand compile ?x l] => assert (Q : o_intQ x = true /\ o_backend x = Unknown /\ o_ev_input x = None /\ o_ev x = None) end.
    { unfold get_fn. cbn. destruct ofn; [cbn; auto|]. unfold set_fn. cbn. destruct ofi; cbn; auto. }
    destruct Q as (Q1 & Q2 & Q3 & Q4). match goal with |- context [run expand compile ?x l] => specialize (IH x Q1 Q2 Q3 Q4); destruct (run expand compile x l) end. exact IH.
  - cbn. match goal with |- context [run expand compile ?x l] => specialize (IH x eq_refl eq_refl eq_refl eq_refl); destruct (run expand compile x l) end. exact IH.
Qed.
Print Assumptions C164_backend.

(** The interaction term is never left out silently: whatever the state of the object, an evaluation without it happens
    exactly if int_Q is off. *)
Theorem C164_silent : forall M F E (expand : M -> F) (compile : list string -> F -> E) o,
  snd (eval expand compile o) = Ok None <-> o_intQ o = false.
Proof.
  intros M F E expand compile o. unfold eval. destruct (o_intQ o); [|split; reflexivity].
  split; [|discriminate]. destruct (get_ev expand compile o) as [o' [[e|]|e]]; discriminate.
Qed.
Print Assumptions C164_silent.

(** the definition is a number, its coefficients twice the number *)
Example C164_example :
  snd (run (fun m => m + m) (fun _ f => f) (new 3 ["a"%string] true Available None None) [Eval; Pickle; ReadFn; Eval]) = [Ok (Some 6); Ok (Some 6)]
  /\ snd (run (fun m => m + m) (fun _ f => f) (new 3 ["a"%string] true Available None None) [Pickle; SetModel 4; Eval; SetModel 5; SetIntQ false; Eval; SetIntQ true; Eval])
     = [Ok (Some 8); Ok None; Ok (Some 8)].
Proof. split; reflexivity. Qed.
