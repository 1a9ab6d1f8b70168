(** C217: the interaction term of RT1 objects with arrays. *)
From Coq Require Import Reals List Bool Arith String Lia Lra.
From Verif Require Import Base RT_Model Int_Model Arr_Model Arr_Spec Arr_Proofs Arr_Props Sca_Model Int_Spec Int_Proofs Int2_Proofs Ari_Model Ari_Spec.
Import ListNotations.
Local Open Scope R_scope.

Lemma nscale_nscale : forall a b x, nscale a (nscale b x) = nscale (a * b) x.
Proof.
  intros a b [x| | |]; cbn; try reflexivity; [f_equal; ring| |];
    destruct (Rlt_dec 0 b) as [B|B]; [|destruct (Rlt_dec b 0) as [B'|B']| |destruct (Rlt_dec b 0) as [B'|B']]; cbn;
    destruct (Rlt_dec 0 a) as [A|A]; try (destruct (Rlt_dec a 0) as [A'|A']); destruct (Rlt_dec 0 (a * b)) as [P|P]; try destruct (Rlt_dec (a * b) 0) as [Q|Q]; try reflexivity; exfalso; nra.
Qed.
Lemma compatible_incl : forall l m, incl l m -> compatible m -> compatible l.
Proof. intros l m I C s t i Hs Ht. apply C; auto. Qed.

(** an array together with the shapes it depends on, all of which can be broadcast *)
Definition tracked {A} (all l : list (list nat)) (c : arr A) (v : list nat -> A) : Prop :=
  incl l all /\ bshapes l = Some (shape c) /\ forall ix, (List.length (shape c) <= List.length ix)%nat -> at_ c ix = v ix.
Lemma track_op2 : forall A B C (f : A -> B -> C) all la lb a b va vb, compatible all -> tracked all la a va -> tracked all lb b vb ->
  exists c, op2 f a b = Ok c /\ tracked all (la ++ lb) c (fun ix => f (va ix) (vb ix)).
Proof.
  intros A B C f all la lb a b va vb K (Ia & Ba & Va) (Ib & Bb & Vb).
  assert (I : incl (la ++ lb) all) by now apply incl_app. destruct (proj2 (bshapes_compatible _) (compatible_incl _ _ I K)) as [u U].
  assert (U' := U). rewrite bshapes_app, Ba, Bb in U'. destruct (op2_ok _ _ _ f a b u U') as (c & E & S). exists c. split; [exact E|]. split; [exact I|]. split; [now rewrite S|].
  intros ix L. rewrite (at_op2 _ _ _ _ _ _ _ _ E L). pose proof (bshape_len _ _ _ U') as Lu. rewrite S in L. rewrite Va, Vb by lia. reflexivity.
Qed.
Lemma track_eval : forall all e, compatible all -> incl (leaves e) all -> exists c, eval e = Ok c /\ tracked all (leaves e) c (den e).
Proof.
  intros all e K I. destruct (proj2 (bshapes_compatible _) (compatible_incl _ _ I K)) as [u U]. destruct (eval_ok e u U) as [c E]. exists c. split; [exact E|]. destruct (eval_some _ _ E) as [S V]. split; [exact I|]. split; [exact S|exact V].
Qed.
Lemma pull_index : forall s u ix, index_in ix u -> (List.length s <= List.length u)%nat -> (forall i, nth i s 1%nat = 1%nat \/ nth i s 1%nat = nth i u 1%nat) -> index_in (pull s ix) s.
Proof.
  induction s as [|n s IH]; intros u ix H L N; [destruct ix; constructor|]. inversion H as [|i m jx u' Hi Hj]; subst; [cbn in L; lia|]. cbn [pull]. constructor.
  - specialize (N 0%nat). cbn in N. destruct (Nat.eqb_spec n 1); lia.
  - apply (IH u'); [exact Hj|cbn in L; lia|]. intros k. apply (N (S k)).
Qed.

Section I.
Variables (expi : R -> R) (expn : nat -> R -> R).
Variables (o : aobj) (fn : list func).
Notation params := (map snd (a_params o)).
Notation all := (interaction_shapes o).
Notation el := (fun ix (a : arr R) => element a ix).

(** a factor, at the indices of a result into which everything can be broadcast *)
Lemma track_F : forall (V S : list nat -> sobj) g t1 p1 t2 p2, coefficients o fn V S g ->
  (exists f, In f fn /\ used (f_uses f) (t1 :: p1 :: t2 :: p2 :: params) <> []) ->
  (forall a, In a (a_tau o :: p1 :: t2 :: p2 :: params) -> (List.length (shape a) <= List.length (shape t1))%nat) ->
  compatible all -> incl (map shape (a_tau o :: t1 :: p1 :: t2 :: p2 :: params)) all ->
  exists F, aFint expi expn (List.length fn) fn (a_tau o) t1 p1 t2 p2 params = Ok F /\ bshapes (map shape (a_tau o :: t1 :: p1 :: t2 :: p2 :: params)) = Some (shape F) /\
  forall U ix, bshapes all = Some U -> index_in ix U -> calc_Fint expi expn (V ix) (S ix) g (element (a_tau o) ix) (element t1 ix) (element p1 ix) (element t2 ix) (element p2 ix) = Ok (at_ F ix).
Proof.
  intros V S g t1 p1 t2 p2 [RF CF] UF RK K I.
  destruct (C213_elements expi expn (List.length fn) fn (a_tau o) t1 p1 t2 p2 params eq_refl RF UF RK (compatible_incl _ _ I K)) as (F & EF & SF & VF).
  exists F. split; [exact EF|]. assert (B : bshapes (map shape (a_tau o :: t1 :: p1 :: t2 :: p2 :: params)) = Some (shape F)) by (apply bshapes_iff; split; [now apply (compatible_incl _ _ I)|exact SF]).
  split; [exact B|]. intros U ix EU HI. destruct (bshapes_some _ _ EU) as (U1 & _ & U3).
  assert (FL : (List.length (shape F) <= List.length U)%nat /\ forall i, nth i (shape F) 1%nat = 1%nat \/ nth i (shape F) 1%nat = nth i U 1%nat).
  { destruct SF as (_ & S2 & S3). split; [destruct S2 as [->|(s & Hs & <-)]; [cbn; lia|apply U1, I, Hs]|]. intros i. destruct (S3 i) as [_ [H|(s & Hs & H)]]; [now left|]. rewrite <- H. apply (proj1 (U3 i)), I, Hs. }
  destruct FL as [FL FN]. pose proof (pull_index _ _ _ HI FL FN) as PI. destruct (VF _ PI) as (terms & T1 & T2). unfold at_. rewrite T2.
  assert (P : forall a, In a (a_tau o :: t1 :: p1 :: t2 :: p2 :: params) -> element a (pull (shape F) ix) = element a ix).
  { intros a Ha. rewrite <- !at_element. unfold at_. rewrite pull_pull; [reflexivity|apply (in_fits _ _ _ B), in_map, Ha|]. rewrite (index_len _ _ HI). exact FL. }
  destruct (CF ix) as [N CFx]. unfold calc_Fint. rewrite CFx. cbn [bind]. rewrite N.
  rewrite (P t1), (P p1), (P t2), (P p2), (P (a_tau o)) in T1 by (cbn; auto 10). rewrite (map_ext_in (fun a => element a (pull (shape F) ix)) (fun a => element a ix)) in T1 by (intros a Ha; apply P; cbn; auto 10).
  rewrite map_map in T1. rewrite T1. reflexivity.
Qed.

(** each element of the interaction term is the interaction term of the corresponding elements; the axes: no array has
    more axes than the zenith angles *)
Theorem C217_elements : forall (V S : list nat -> sobj) g, coefficients o fn V S g -> compatible all ->
  (forall a, In a ([a_tau o; a_p0 o; a_pex o] ++ params) -> (List.length (shape a) <= List.length (shape (a_t0 o)))%nat) -> List.length (shape (a_tex o)) = List.length (shape (a_t0 o)) ->
  (exists f, In f fn /\ used (f_uses f) (a_t0 o :: a_p0 o :: a_tex o :: a_pex o :: params) <> []) ->
  exists c, ainteraction expi expn (List.length fn) fn o = Ok c /\ common_shape all (shape c) /\
  forall ix, index_in ix (shape c) ->
    interaction expi expn (V ix) (S ix) g (element (a_I0 o) ix) (element (a_omega o) ix) (element (a_tau o) ix) (element (a_N o) ix) (element (a_bsf o) ix)
      (element (a_t0 o) ix) (element (a_p0 o) ix) (element (a_tex o) ix) (element (a_pex o) ix) = Ok (data c ix).
Proof.
  intros V S g CF K RK RT UF.
  assert (IN : forall a, In a ([a_I0 o; a_N o; a_bsf o; a_omega o; a_tau o; a_t0 o; a_tex o; a_p0 o; a_pex o] ++ params) -> In (shape a) all) by (intros a; apply in_map).
  assert (UF2 : exists f, In f fn /\ used (f_uses f) (a_tex o :: a_pex o :: a_t0 o :: a_p0 o :: params) <> []).
  { destruct UF as (f & Hf & Uf). exists f. split; [exact Hf|]. revert Uf. unfold used. destruct (f_uses f) as [|[] [|[] [|[] [|[] u]]]]; cbn; auto; discriminate. }
  destruct (track_F V S g (a_t0 o) (a_p0 o) (a_tex o) (a_pex o) CF UF) as (F1 & E1 & B1 & V1); auto.
  { intros a Ha. cbn [In] in Ha. destruct Ha as [<-|[<-|[<-|[<-|Ha]]]]; try (apply RK; cbn; tauto); lia. }
  { intros s Hs. apply in_map_iff in Hs. destruct Hs as (a & <- & Ha). apply IN. cbn in *. tauto. }
  destruct (track_F V S g (a_tex o) (a_pex o) (a_t0 o) (a_p0 o) CF UF2) as (F2 & E2 & B2 & V2); auto.
  { intros a Ha. rewrite RT. cbn [In] in Ha. destruct Ha as [<-|[<-|[<-|[<-|Ha]]]]; try (apply RK; cbn; tauto); lia. }
  { intros s Hs. apply in_map_iff in Hs. destruct Hs as (a & <- & Ha). apply IN. cbn in *. tauto. }
  assert (TF1 : tracked all (map shape (a_tau o :: a_t0 o :: a_p0 o :: a_tex o :: a_pex o :: params)) F1 (at_ F1)).
  { split; [|split; [exact B1|reflexivity]]. intros s Hs. apply in_map_iff in Hs. destruct Hs as (a & <- & Ha). apply IN. cbn in *. tauto. }
  assert (TF2 : tracked all (map shape (a_tau o :: a_tex o :: a_pex o :: a_t0 o :: a_p0 o :: params)) F2 (at_ F2)).
  { split; [|split; [exact B2|reflexivity]]. intros s Hs. apply in_map_iff in Hs. destruct Hs as (a & <- & Ha). apply IN. cbn in *. tauto. }
  unfold ainteraction. cbv zeta. rewrite E1, E2. cbn [bind].
  destruct (track_eval all (Ap2 Rmult (Ap2 Rmult (Leaf (a_I0 o)) (e_mu0 o)) (Leaf (a_omega o))) K) as (f & -> & Tf). { intros s Hs. cbn in Hs. destruct Hs as [<-|[<-|[<-|[]]]]; apply IN; cbn; tauto. }
  destruct (track_eval all (Ap1 exp (Ap2 Rdiv (Ap1 Ropp (Leaf (a_tau o))) (e_muex o))) K) as (e1 & -> & Te1). { intros s Hs. cbn in Hs. destruct Hs as [<-|[<-|[]]]; apply IN; cbn; tauto. }
  cbn [bind]. destruct (track_op2 _ _ _ nscale _ _ _ _ _ _ _ K Te1 TF1) as (x1 & -> & Tx1). cbn [bind].
  destruct (track_eval all (Ap1 exp (Ap2 Rdiv (Ap1 Ropp (Leaf (a_tau o))) (e_mu0 o))) K) as (e2 & -> & Te2). { intros s Hs. cbn in Hs. destruct Hs as [<-|[<-|[]]]; apply IN; cbn; tauto. }
  cbn [bind]. destruct (track_op2 _ _ _ nscale _ _ _ _ _ _ _ K Te2 TF2) as (x2 & -> & Tx2). cbn [bind].
  destruct (track_op2 _ _ _ nadd _ _ _ _ _ _ _ K Tx1 Tx2) as (sm & -> & Ts). cbn [bind].
  destruct (track_op2 _ _ _ nscale _ _ _ _ _ _ _ K Tf Ts) as (ii & -> & Ti). cbn [bind].
  destruct (track_eval all (Ap2 Rmult (Leaf (a_N o)) (e_1bsf o)) K) as (n & -> & Tn). { intros s Hs. cbn in Hs. destruct Hs as [<-|[<-|[]]]; apply IN; cbn; tauto. }
  cbn [bind]. destruct (track_op2 _ _ _ nscale _ _ _ _ _ _ _ K Tn Ti) as (c & -> & (Ic & Bc & Vc)). exists c. split; [reflexivity|].
  assert (EQ : bshapes all = Some (shape c)).
  { rewrite <- Bc. apply bshapes_incl; [|exact Ic]. intros s Hs. unfold interaction_shapes in Hs. apply in_map_iff in Hs. destruct Hs as (a & <- & Ha). rewrite !in_app_iff. cbn [leaves e_mu0 e_muex e_1bsf app map In] in *. rewrite ?in_map_iff.
    destruct Ha as [<-|[<-|[<-|[<-|[<-|[<-|[<-|[<-|[<-|Ha]]]]]]]]]; try tauto. assert (In (shape a) (map shape params)) by now apply in_map. rewrite in_map_iff in H. tauto. }
  split; [now apply bshapes_some|]. intros ix HI. rewrite data_at by exact HI. rewrite Vc by (rewrite (index_len _ _ HI); lia).
  unfold interaction. rewrite (V1 _ _ EQ HI), (V2 _ _ EQ HI). cbn [bind]. rewrite nscale_nscale. cbn [den e_mu0 e_muex e_1bsf]. rewrite !at_element. reflexivity.
Qed.
End I.
Print Assumptions C217_elements.

(** incompatible angles or parameters are a ValueError *)
Theorem C217_incompatible : forall expi expn nmax fn o,
  ~ compatible (map shape (a_t0 o :: a_p0 o :: a_tex o :: a_pex o :: map snd (a_params o))) -> ainteraction expi expn nmax fn o = Err ValueError.
Proof. intros expi expn nmax fn o C. unfold ainteraction. cbv zeta. rewrite C213_incompatible by exact C. reflexivity. Qed.
Print Assumptions C217_incompatible.

(** the hypotheses on the coefficients can be met for all scattering functions with three or more coefficients *)
Lemma fnevals_spec : forall V S g t1 p1 t2 p2, bounded_obj V -> bounded_obj S -> exists fn, fnevals V S g t1 p1 t2 p2 = Ok fn /\ List.length fn = Nat.max 2 (N_fn V S).
Proof. intros V S g t1 p1 t2 p2 BV BS. pose proof (fn_sum V S g t1 p1 t2 p2 0 BV BS) as H. destruct (seen g t1 p1 t2 p2) as [[[a b] c] d]. destruct H as (fn & E & L & _). eauto. Qed.
Theorem C217_coefficients : forall o V S g, bounded_obj V -> bounded_obj S -> (3 <= ncoefs V + ncoefs S)%nat ->
  coefficients o (map (coef V S g) (seq 0 (ncoefs V + ncoefs S - 1))) (fun _ => V) (fun _ => S) g.
Proof.
  intros o V S g BV BS N. split.
  - apply Forall_forall. intros f Hf. apply in_map_iff in Hf. destruct Hf as (k & <- & _). intros l. destruct l as [|a [|b [|c [|d l]]]]; reflexivity.
  - intros ix. rewrite map_length, seq_length. split; [reflexivity|]. intros t1 p1 t2 p2. destruct (fnevals_spec V S g t1 p1 t2 p2 BV BS) as (c & E & L). rewrite E. f_equal. rewrite map_map. cbn [f_val coef nth]. rewrite E.
    apply (nth_ext _ _ 0 0). { rewrite map_length, seq_length, L. unfold N_fn. lia. }
    intros n Hn. symmetry. rewrite (nth_indep _ 0 ((fun k => nth k c 0) 0%nat)) by (rewrite map_length, seq_length; rewrite L in Hn; unfold N_fn in Hn; lia).
    rewrite (map_nth (fun k => nth k c 0)). rewrite seq_nth by (rewrite L in Hn; unfold N_fn in Hn; lia). reflexivity.
Qed.
Print Assumptions C217_coefficients.
Example C217_example : let V := plain_obj 10 (hgV_coefs (1 / 2)) default_a_V in let S := plain_obj iso_ncoefs iso_coefs default_a_S in
  coefficients ex_obj (map (coef V S all_variable) (seq 0 10)) (fun _ => V) (fun _ => S) all_variable /\ compatible (interaction_shapes ex_obj) /\
  common_shape (interaction_shapes ex_obj) [2; 3]%nat /\ (forall a, In a [a_tau ex_obj; a_p0 ex_obj; a_pex ex_obj] -> (List.length (shape a) <= List.length (shape (a_t0 ex_obj)))%nat).
Proof.
  cbv zeta. split; [|split; [|split]].
  - apply (C217_coefficients ex_obj (plain_obj 10 (hgV_coefs (1 / 2)) default_a_V) (plain_obj iso_ncoefs iso_coefs default_a_S) all_variable); [apply plain_bounded; lia|apply plain_bounded; unfold iso_ncoefs; lia|cbn; lia].
  - apply bshapes_compatible. exists [2; 3]%nat. reflexivity.
  - apply bshapes_some. reflexivity.
  - intros a [<-|[<-|[<-|[]]]]; cbn; lia.
Qed.
