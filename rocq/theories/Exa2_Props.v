(** Exact outcomes for properties that do not hold in general: C69, C72, C86. *)
From Coq Require Import Reals List String Bool Lra Lia Arith ZArith.
From Verif Require Import Base RT_Model Sca_Model Sca_Spec Sca_Proofs Sca_Props Met_Model Met_Spec Met_Proofs Exa2_Spec.
Import ListNotations.
Local Open Scope R_scope.

Lemma single_const : forall v, single_value v = true <-> v <> [] /\ constant v.
Proof.
  intros v. unfold single_value, constant. split.
  - intros H. split; [intros ->; discriminate|]. intros x y Hx Hy. apply (nodup_In Req_EM_T) in Hx. apply (nodup_In Req_EM_T) in Hy.
    destruct (nodup Req_EM_T v) as [|z [|w u]]; try discriminate. simpl in *. destruct Hx as [<-|[]], Hy as [<-|[]]. reflexivity.
  - intros [N C]. destruct (nodup Req_EM_T v) as [|z [|w u]] eqn:E; [| reflexivity |].
    + destruct v as [|x v]; [congruence|]. exfalso. assert (I : In x (nodup Req_EM_T (x :: v))) by (apply nodup_In; now left). rewrite E in I. exact I.
    + exfalso. pose proof (NoDup_nodup Req_EM_T v) as D. rewrite E in D. inversion D as [|? ? NI _]; subst. apply NI. left.
      apply C; apply (nodup_In Req_EM_T); rewrite E; simpl; auto.
Qed.

(** ** C69: what is accepted, and when the angles used are the given ones *)
Theorem C69_accepted : forall g0 g1 g2 g3 t_0 t_ex p_0 p_ex,
  (exists r, resolve_geometry g0 g1 g2 g3 t_0 t_ex p_0 p_ex = Ok r) <->
  acceptable g0 t_0 /\ acceptable g1 t_ex /\ acceptable g2 p_0 /\ acceptable g3 p_0.
Proof.
  assert (Q : forall g v ch, (exists f, resolve g v ch = Ok f) <-> acceptable g ch).
  { intros g v ch. destruct g; simpl.
    - split; eauto.
    - destruct (single_value ch) eqn:E; split; eauto.
      + intros _. now apply single_const.
      + intros [f F]; discriminate.
      + intros C. apply single_const in C. congruence.
    - split; [intros [f F]; discriminate|tauto]. }
  intros. rewrite <- (Q g0 t_0 t_0), <- (Q g1 t_ex t_ex), <- (Q g2 p_0 p_0), <- (Q g3 p_ex p_0). unfold resolve_geometry. split.
  - intros [r H]. destruct (resolve g0 t_0 t_0) as [a|]; [|discriminate]. destruct (resolve g1 t_ex t_ex) as [b|]; [|discriminate].
    destruct (resolve g2 p_0 p_0) as [c|]; [|discriminate]. destruct (resolve g3 p_ex p_0) as [d|]; [|discriminate]. eauto 8.
  - intros ([a ->] & [b ->] & [c ->] & [d ->]). cbn. eauto.
Qed.
Print Assumptions C69_accepted.

Theorem C69_exactly : forall g0 g1 g2 g3 t_0 t_ex p_0 p_ex r,
  List.length t_ex = List.length t_0 -> List.length p_0 = List.length t_0 -> List.length p_ex = List.length t_0 ->
  resolve_geometry g0 g1 g2 g3 t_0 t_ex p_0 p_ex = Ok r ->
  let '(th0, thex, ph0, phex) := r in
  ((forall i, (i < List.length t_0)%nat -> angle_at th0 t_0 i = nth_error t_0 i /\ angle_at thex t_ex i = nth_error t_ex i /\
     angle_at ph0 p_0 i = nth_error p_0 i /\ angle_at phex p_ex i = nth_error p_ex i) <-> (g3 = GF -> constant p_ex)).
Proof.
  intros g0 g1 g2 g3 t_0 t_ex p_0 p_ex [[[th0 thex] ph0] phex] L1 L2 L3 H. split.
  - intros A -> x y Hx Hy. unfold resolve_geometry in H.
    destruct (resolve g0 t_0 t_0) as [a|]; [|discriminate]. destruct (resolve g1 t_ex t_ex) as [b|]; [|discriminate].
    destruct (resolve g2 p_0 p_0) as [c|]; [|discriminate]. simpl in H. destruct (single_value p_0); [|discriminate]. injection H as <- <- <- <-.
    apply In_nth_error in Hx as [i Hi]. apply In_nth_error in Hy as [j Hj].
    assert (Li : (i < List.length t_0)%nat) by (rewrite <- L3; apply nth_error_Some; congruence).
    assert (Lj : (j < List.length t_0)%nat) by (rewrite <- L3; apply nth_error_Some; congruence).
    destruct (A i Li) as (_ & _ & _ & Ai). destruct (A j Lj) as (_ & _ & _ & Aj). simpl in Ai, Aj. congruence.
  - intros C i Hi.
    destruct (nth_error t_0 i) as [a|] eqn:Ea; [|apply nth_error_None in Ea; lia].
    destruct (nth_error t_ex i) as [b|] eqn:Eb; [|apply nth_error_None in Eb; lia].
    destruct (nth_error p_0 i) as [c|] eqn:Ec; [|apply nth_error_None in Ec; lia].
    destruct (nth_error p_ex i) as [d|] eqn:Ed; [|apply nth_error_None in Ed; lia].
    exact (C69_fixed_angle_partial g0 g1 g2 g3 t_0 t_ex p_0 p_ex _ H C i a b c d Ea Eb Ec Ed).
Qed.
Print Assumptions C69_exactly.

(** ** C72: no linear combination of phase functions can be expanded as it is constructed *)
Theorem C72_volume_never : forall cs o, lincombV_init cs = Ok o ->
  lc_ncoefs o = Err AttributeError /\ forall theta_0 phi_0 theta_s phi_s, lcV_legexpansion o theta_0 phi_0 theta_s phi_s = Err AttributeError.
Proof. intros cs o H. injection H as <-. split; reflexivity. Qed.
Print Assumptions C72_volume_never.

(** ** C86: when the two series that are compared have the same labels *)
Theorem C86_exactly : forall a b,
  (exists a' b', unify_idx_data a b = Ok (a', b') /\ same_labels (index a') (index b')) <->
  (List.length a = List.length b /\ same_labels (index a) (index b)) \/
  (List.length a <> List.length b /\ List.length (filter present a) = List.length (filter present b) /\ same_labels (index (filter present a)) (index (filter present b))).
Proof.
  intros a b. unfold unify_idx_data. split.
  - intros (a' & b' & H & S). destruct (Nat.eqb_spec (List.length a) (List.length b)) as [E|E].
    + injection H as <- <-. now left.
    + destruct (Nat.eqb_spec (List.length (filter present a)) (List.length (filter present b))) as [F|F]; [|discriminate].
      injection H as <- <-. now right.
  - intros [[E S]|(E & F & S)].
    + rewrite E, Nat.eqb_refl. eauto.
    + apply Nat.eqb_neq in E. rewrite E, F, Nat.eqb_refl. eauto.
Qed.
Print Assumptions C86_exactly.

Example C69_exactly_example : acceptable GF [0; 0] /\ acceptable GV [1; 2] /\ constant [0; 0] /\ ~ constant [1; 2].
Proof.
  repeat split; simpl; try discriminate.
  - intros x y Hx Hy. simpl in *. intuition congruence.
  - intros x y Hx Hy. simpl in *. intuition congruence.
  - intros C. specialize (C 1 2). simpl in C. assert (1 = 2) by intuition. lra.
Qed.
Example C72_volume_never_example : exists o, lincombV_init [Choice 1 default_a_S 1 iso_coefs (fun _ _ _ _ => 1)] = Ok o.
Proof. unfold lincombV_init. eauto. Qed.
Example C86_exactly_example : same_labels (index [(1%Z, Some 1); (2%Z, None)]) (index [(2%Z, Some 3); (1%Z, Some 5)]) /\
  ~ same_labels (index [(1%Z, Some 1)]) (index [(2%Z, Some 3)]).
Proof.
  split.
  - intros l. simpl. tauto.
  - intros S. destruct (proj1 (S 1%Z) (or_introl eq_refl)) as [E|[]]. discriminate.
Qed.
