(** C203-C205: arguments of the scattering functions, the lists they share, and what is shown of them. *)
From Coq Require Import String List Bool ZArith QArith Arith Lia.
From Verif Require Import Base Base_Proofs Kwd_Model Kwd_Spec Kwd_Proofs Kwd2_Proofs.
Import ListNotations.
Local Open Scope string_scope.
Local Open Scope nat_scope.

(** ** C203: arguments *)

(** a call succeeds exactly if Python can bind the arguments and they are valid *)
Theorem C203_accepts : forall c pos kw h, NoDup (keys kw) ->
  (exists o, snd (new c pos kw h) = Ok o) <-> well_called c pos kw /\ valid c h (given c pos kw).
Proof.
  intros c pos kw h ND. split; [intros [o E]; destruct (new_spec c pos kw h o ND E) as (_ & W & V & _); auto|].
  intros [W V]. now apply new_ok.
Qed.
Print Assumptions C203_accepts.

(** a call that Python cannot bind raises a TypeError *)
Theorem C203_bad_call : forall c pos kw h, NoDup (keys kw) -> ~ well_called c pos kw -> snd (new c pos kw h) = Err TypeError.
Proof.
  intros c pos kw h ND W. rewrite new_eq. pose proof (bound_spec c pos kw ND) as B. destruct (bound c pos kw) as [[A K]|e]; [destruct B; contradiction|]. destruct B as [-> _]. reflexivity.
Qed.
Print Assumptions C203_bad_call.

(** the object has the values that were given, or the defaults *)
Theorem C203_values : forall c pos kw h o, NoDup (keys kw) -> snd (new c pos kw h) = Ok o ->
  o_cls o = c /\ forall k, attr o k = expected c h (given c pos kw) k.
Proof. intros c pos kw h o ND E. destruct (new_spec c pos kw h o ND E) as (C & _ & _ & A). auto. Qed.
Print Assumptions C203_values.

(** names that are not used - misspelled ones - are ignored without any message *)
Theorem C203_unknown_refuted : forall c pos kw h k v, ~ In k (used c) -> k <> "self" ->
  snd (new c pos (kw ++ [(k, v)])%list h) = snd (new c pos kw h).
Proof.
  intros c pos kw h k v U S. rewrite !new_eq. unfold bound. destruct (bind_pos (sig c) pos) as [d|]; cbn [bind]; [|reflexivity].
  assert (NS : ~ In k (sig c)) by (rewrite (sig_arguments c); intros H; apply U; unfold used; apply in_or_app; now left).
  assert (B : forall b, match bind_kw (sig c) b kw with Ok (A, K) => bind_kw (sig c) b (kw ++ [(k, v)])%list = Ok (A, (K ++ [(k, v)])%list) | Err e => bind_kw (sig c) b (kw ++ [(k, v)])%list = Err e end).
  { induction kw as [|[k2 v2] r IH]; intros b.
    - cbn [bind_kw app]. destruct (String.eqb_spec k "self"); [contradiction|]. rewrite (proj2 (inb_false string_dec k _) NS). reflexivity.
    - cbn [bind_kw app]. destruct (String.eqb k2 "self"); [reflexivity|]. destruct (inb string_dec k2 (sig c)).
      + destruct (dmem string_dec k2 b); [reflexivity|]. apply IH.
      + specialize (IH b). destruct (bind_kw (sig c) b r) as [[A K]|e]; rewrite IH; reflexivity. }
  specialize (B d). destruct (bind_kw (sig c) d kw) as [[A K]|e]; rewrite B; cbn [bind fst snd]; [|reflexivity].
  assert (I : init c h A (K ++ [(k, v)])%list = init c h A K); [|now rewrite I].
  assert (Q : forall x, In x (used c) -> dget string_dec x (K ++ [(k, v)])%list = dget string_dec x K).
  { intros x Hx. rewrite dget_snoc. destruct (dget string_dec x K); [reflexivity|]. destruct (string_dec x k) as [->|]; [contradiction|reflexivity]. }
  unfold init. cbv zeta. destruct c; cbn [base_attrs]; rewrite !Q by (cbn; auto 10); reflexivity.
Qed.
Print Assumptions C203_unknown_refuted.

(** for Rayleigh this includes parameters of its documentation: the list a and ncoefs have no effect *)
Theorem C203_documented_refuted : forall pos kw h k v, k = "a" \/ k = "ncoefs" ->
  In k (documented VRay) /\ snd (new VRay pos (kw ++ [(k, v)])%list h) = snd (new VRay pos kw h).
Proof.
  intros pos kw h k v H. split; [cbn; intuition|]. apply C203_unknown_refuted; cbn; intuition (subst; discriminate || congruence).
Qed.
Print Assumptions C203_documented_refuted.

(** a cosine lobe with a fraction of a coefficient is accepted and has none *)
Theorem C203_lobe_refuted : forall q i h, (0 < q)%Q -> (q < 1)%Q -> (0 <= i)%Z -> float_triple h (VRef 0) ->
  exists o, snd (new SLobe [VFloat q; VInt i] [] h) = Ok o /\ attr o "ncoefs" = Some (VInt 0).
Proof.
  intros q i h H0 H1 Hi T. assert (ND : NoDup (keys ([] : dict string val))) by constructor.
  destruct (new_ok SLobe [VFloat q; VInt i] [] h ND) as [o Eo].
  - split; [cbn; lia|]. split; [intros []|]. intros n k _ _ [].
  - cbn. split; [right; right; eauto|]. split; [right; eauto|exact T].
  - exists o. split; [exact Eo|]. destruct (new_spec _ _ _ _ _ ND Eo) as (_ & _ & _ & A). rewrite A. cbn. do 2 f_equal.
    unfold Qlt in H0, H1. cbn in H0, H1. apply Z.div_small. lia.
Qed.
Print Assumptions C203_lobe_refuted.

Example C203_example :
  let (h, r) := new VHG [VFloat (1 # 2); VInt 8] [("tau", VSym "tau"); ("omga", VFloat (1 # 5))] heap0 in
  r = Ok (mkobj VHG [("omega", VNone); ("tau", VSym "tau"); ("a", VRef 3); ("t", VFloat (1 # 2)); ("ncoefs", VInt 8)]) /\
  snd (new VHG [VFloat (1 # 2)] [("t", VInt 1)] h) = Err TypeError /\ snd (new SLobe [] [("ncoefs", VInt 5); ("i", VFloat 2)] h) = Err AssertionError /\
  snd (new SIso [VFloat 1] [] h) = Err TypeError /\ snd (new SHG [VFloat 1; VInt 0] [] h) = Err AssertionError /\ snd (new SHG [VFloat 1; VSym "n"] [] h) = Err TypeError.
Proof. repeat split. Qed.

(** ** C204: lists *)

(** without changes in place, each object keeps its list for all times until another one is assigned to it *)
Theorem C204_stable : forall ops more n, existsb edits more = false -> existsb (assigns n) more = false -> n < List.length (s_objs (session ops)) ->
  a_of (session (ops ++ more)) n = a_of (session ops) n.
Proof. intros ops more n. apply a_stable. Qed.
Print Assumptions C204_stable.

(** as long as no list was changed in place, objects that are made without a have the documented default *)
Theorem C204_default : forall ops c pos kw, existsb edits ops = false -> NoDup (keys kw) -> well_called c pos kw -> valid c (s_heap (session ops)) (given c pos kw) ->
  shares c = true -> given c pos kw "a" = None ->
  a_of (session (ops ++ [New c pos kw])) (List.length (s_objs (session ops))) = Some (base_a c).
Proof.
  intros ops c pos kw E ND W V S G. destruct (new_a ops c pos kw ND W V) as (_ & l & _ & El & ->). rewrite S in El. unfold gor in El. rewrite G in El.
  assert (H : nth_error heap0 l = Some (base_a c)) by (destruct c; cbn in El; inversion El; subst; try reflexivity; discriminate).
  pose proof (defaults_kept ops E l _ H) as D. rewrite nth_error_app1; [exact D|]. apply nth_error_Some. congruence.
Qed.
Print Assumptions C204_default.

(** Isotropic and Rayleigh have a list of their own in every session *)
Theorem C204_own_list : forall ops c pos kw, NoDup (keys kw) -> well_called c pos kw -> shares c = false ->
  let s := session ops in let s' := session (ops ++ [New c pos kw]) in let n := List.length (s_objs s) in
  a_of s' n = Some (base_a c) /\ forall m, m <> n -> loc_of s' m <> loc_of s' n.
Proof.
  intros ops c pos kw ND W S s s' n. assert (V : valid c (s_heap (session ops)) (given c pos kw)) by (destruct c; cbn; try exact I; discriminate).
  destruct (new_a ops c pos kw ND W V) as (L & l & El & E2 & Ea). rewrite S in E2.
  assert (l = List.length (s_heap s)) by (destruct c; cbn in E2; inversion E2; try discriminate; reflexivity). subst l. split.
  - unfold s', n. fold s in Ea. rewrite Ea. rewrite nth_error_app2 by lia. rewrite Nat.sub_diag. reflexivity.
  - intros m Hm. unfold s', n, s. rewrite El. unfold loc_of. destruct (nth_error (s_objs (session (ops ++ [New c pos kw]))) m) as [x|] eqn:X; [|discriminate].
    assert (Lm : m < List.length (s_objs s)). { assert (m < List.length (s_objs (session (ops ++ [New c pos kw])))) by (apply nth_error_Some; congruence). rewrite L in H. fold s in H. unfold n in Hm. lia. }
    pose proof (session_wf ops) as [_ Wf]. apply nth_error_Some in Lm. destruct (nth_error (s_objs s) m) as [y|] eqn:Y; [|congruence].
    destruct (Wf m y Y) as (k & Ek & Hk). assert (K : loc_of s m = Some k) by (unfold loc_of; now rewrite Y, Ek).
    pose proof (locs_keep [New c pos kw] ops m k eq_refl K) as K2. unfold loc_of in K2. rewrite X in K2. rewrite K2. unfold s. intros Q. inversion Q. lia.
Qed.
Print Assumptions C204_own_list.

(** a change in place concerns exactly the objects that refer to the same list *)
Theorem C204_local : forall s o n i v, loc_of s n <> loc_of s o -> a_of (step s (Edit o i v)) n = a_of s n /\ a_of (step s (Append o v)) n = a_of s n.
Proof. intros s o n i v H. split; apply in_place_other; exact H. Qed.
Print Assumptions C204_local.

(** objects of one class that were made without a, at any time in a session, share one list: changing the one changes
    the others *)
Theorem C204_shared_refuted : forall ops mid c pos kw pos' kw', shares c = true ->
  let s := session (ops ++ [New c pos kw] ++ mid ++ [New c pos' kw'])%list in
  let n := List.length (s_objs (session ops)) in let m := List.length (s_objs (session (ops ++ [New c pos kw] ++ mid)%list)) in
  NoDup (keys kw) -> well_called c pos kw -> valid c (s_heap (session ops)) (given c pos kw) -> given c pos kw "a" = None ->
  NoDup (keys kw') -> well_called c pos' kw' -> valid c (s_heap (session (ops ++ [New c pos kw] ++ mid)%list)) (given c pos' kw') -> given c pos' kw' "a" = None ->
  existsb (assigns n) mid = false ->
  n < m /\ exists l, a_of s m = Some l /\ forall i v, a_of (step s (Edit n i v)) m = Some (update i (fun _ => v) l) /\ a_of (step s (Edit n i v)) n = Some (update i (fun _ => v) l).
Proof.
  intros ops mid c pos kw pos' kw' S s n m ND W V G ND' W' V' G' A.
  destruct (new_a ops c pos kw ND W V) as (L1 & l & El & E2 & _). rewrite S in E2. unfold gor in E2. rewrite G in E2.
  pose proof (new_a (ops ++ [New c pos kw] ++ mid)%list c pos' kw' ND' W' V') as (L2 & l' & El' & E2' & _). rewrite S in E2'. unfold gor in E2'. rewrite G' in E2'.
  assert (l' = l) by (destruct c; cbn in E2, E2'; try discriminate; congruence). subst l'.
  fold n in El. fold m in El'. replace ((ops ++ [New c pos kw] ++ mid) ++ [New c pos' kw'])%list with (ops ++ [New c pos kw] ++ mid ++ [New c pos' kw'])%list in El' by (rewrite <- !app_assoc; reflexivity). fold s in El'.
  assert (N : loc_of s n = Some l).
  { unfold s. rewrite app_assoc. apply locs_keep; [|exact El]. rewrite existsb_app, A. reflexivity. }
  assert (NM : n < m).
  { assert (X : loc_of (session ((ops ++ [New c pos kw]) ++ mid)) n = Some l) by (apply locs_keep; assumption). rewrite <- app_assoc in X.
    unfold m. apply nth_error_Some. unfold loc_of in X. destruct (nth_error _ n); congruence. }
  split; [exact NM|].
  pose proof (session_wf (ops ++ [New c pos kw] ++ mid ++ [New c pos' kw'])%list) as [Wl _]. fold s in Wl.
  assert (HL : l < List.length (s_heap s)) by (destruct c; cbn in E2; try discriminate; inversion E2; subst; lia).
  apply nth_error_Some in HL. destruct (nth_error (s_heap s) l) as [x|] eqn:X; [|congruence]. exists x. split; [rewrite (a_loc s m l El'); exact X|].
  intros i v. cbn [step]. rewrite (in_place_shared s n m _ l N El'), (in_place_shared s n n _ l N N), X. auto.
Qed.
Print Assumptions C204_shared_refuted.

(** appending to the list of one object makes every later call of the class without a fail *)
Theorem C204_broken_refuted : forall ops c n v pos kw, shares c = true -> loc_of (session ops) n = Some (default_loc c) ->
  option_map (@List.length val) (a_of (session ops) n) = Some 3 -> NoDup (keys kw) -> given c pos kw "a" = None ->
  forall o, snd (new c pos kw (s_heap (session (ops ++ [Append n v])))) <> Ok o.
Proof.
  intros ops c n v pos kw S L H ND G o E. destruct (new_spec _ _ _ _ _ ND E) as (_ & _ & V & _). rewrite session_snoc in V. cbn [step] in V.
  rewrite (in_place_eq _ _ _ _ L) in V. cbn [s_heap] in V. rewrite (a_loc _ _ _ L) in H. destruct (nth_error (s_heap (session ops)) (default_loc c)) as [x|] eqn:X; cbn in H; [|discriminate].
  assert (U : nth_error (update (default_loc c) (fun l => l ++ [v])%list (s_heap (session ops))) (default_loc c) = Some (x ++ [v])%list) by (rewrite update_same, X; reflexivity).
  assert (Lx : List.length (x ++ [v])%list = 4) by (rewrite app_length; cbn; inversion H; lia).
  set (h := update (default_loc c) (fun l => l ++ [v])%list (s_heap (session ops))) in *.
  assert (T : ~ triple h (VRef (default_loc c))). { intros (k & a & b & d & Q & R). inversion Q; subst. rewrite U in R. inversion R as [R2]. rewrite R2 in Lx. discriminate. }
  assert (TF : ~ float_triple h (VRef (default_loc c))). { intros (k & a & b & d & Q & R). apply T. exists k. eauto. }
  destruct c; try discriminate; cbn [valid] in V; unfold gor in V; rewrite G in V; cbn [a_default default_loc] in *; tauto.
Qed.
Print Assumptions C204_broken_refuted.

Example C204_example :
  let ops := [New VHG [VFloat (1 # 2); VInt 8] []; New VRay [] []; New VHG [VSym "t"; VInt 3] []; Edit 0 0 (VFloat 5); New VHG [VFloat 0; VInt 1] []; Append 0 VNone; New VHG [VFloat 0; VInt 1] []] in
  List.length (s_objs (session ops)) = 4 /\ a_of (session ops) 1 = Some [VFloat (-1); VFloat 1; VFloat 1] /\
  a_of (session (firstn 5 ops)) 3 = Some [VFloat 5; VFloat 1; VFloat 1] /\ a_of (session ops) 2 = Some [VFloat 5; VFloat 1; VFloat 1; VNone].
Proof. repeat split. Qed.

(** ** C205: what is shown *)

(** calling the class with the values that are shown (__repr__) or stored (init_dict) gives an object with the same
    attributes, whatever happened to the lists in between, as long as the list of the object is one of three values *)
Theorem C205_recreated : forall c pos kw h h' o, NoDup (keys kw) -> snd (new c pos kw h) = Ok o ->
  (c = SLobe -> positive (int_of (gor (given c pos kw) "ncoefs" VNone))) ->
  (forall a, shares c = true -> attr o "a" = Some a -> float_triple h' a) ->
  exists shown_kw o', shown o = Ok shown_kw /\ snd (new c [] shown_kw h') = Ok o' /\ o_cls o' = o_cls o /\
    (forall k, k <> "a" \/ shares c = true -> attr o' k = attr o k) /\
    (shares c = false -> exists l, attr o' "a" = Some (VRef l) /\ nth_error (fst (new c [] shown_kw h')) l = Some (base_a c)).
Proof.
  intros c pos kw h h' o ND E PL TR. destruct (new_spec _ _ _ _ _ ND E) as (C & _ & V & A).
  destruct (roundtrip c h h' (given c pos kw) o C V A PL) as (kw' & o' & H1 & H2 & H3 & H4 & H5).
  { intros S _. specialize (TR (gor (given c pos kw) "a" (a_default c h)) S). rewrite A in TR.
    assert (T : float_triple h' (gor (given c pos kw) "a" (a_default c h))) by (apply TR; destruct c; try discriminate; reflexivity).
    assert (T2 : triple h' (gor (given c pos kw) "a" (a_default c h))) by (destruct T as (l & x & y & z & T1 & T2); unfold triple; eauto 6). destruct c; assumption. }
  exists kw', o'. split; [exact H1|]. split; [exact H2|]. split; [congruence|]. split; [exact H4|]. intros S. exists (List.length h'). split; [now apply H5|].
  unfold new. cbn [fst]. rewrite nth_error_app2 by lia. rewrite Nat.sub_diag. reflexivity.
Qed.
Print Assumptions C205_recreated.

(** for Isotropic and Rayleigh the list a is neither shown nor stored: after assigning one, the object that is made from
    the stored values has the default again *)
Theorem C205_lost_refuted : forall c pos kw h h' o l, shares c = false -> NoDup (keys kw) -> snd (new c pos kw h) = Ok o ->
  let o2 := mkobj (o_cls o) (dset string_dec "a" (VRef l) (o_attrs o)) in
  attr o2 "a" = Some (VRef l) /\ shown o2 = shown o /\
  exists kw' o', shown o2 = Ok kw' /\ snd (new c [] kw' h') = Ok o' /\ exists n, attr o' "a" = Some (VRef n) /\ nth_error (fst (new c [] kw' h')) n = Some (base_a c).
Proof.
  intros c pos kw h h' o l S ND E o2. destruct (new_spec _ _ _ _ _ ND E) as (C & _ & _ & _).
  assert (SH : shown o2 = shown o).
  { unfold shown, o2, attr. cbn [o_cls o_attrs]. rewrite C. destruct c; try discriminate; cbn [param_names mapM]; rewrite !(dget_dset_other string_dec "a") by discriminate; reflexivity. }
  split; [unfold attr, o2; cbn [o_attrs]; apply dget_dset_same|]. split; [exact SH|]. rewrite SH.
  destruct (C205_recreated c pos kw h h' o ND E) as (kw' & o' & H1 & H2 & _ & _ & H5); [intros ->; discriminate|congruence|]. exists kw', o'. split; [exact H1|]. split; [exact H2|]. exact (H5 S).
Qed.
Print Assumptions C205_lost_refuted.

Example C205_example :
  exists o, snd (new SHG [VFloat (1 # 2); VInt 8] [("NormBRDF", VSym "N")] heap0) = Ok o /\
  shown o = Ok [("t", VFloat (1 # 2)); ("ncoefs", VInt 8); ("NormBRDF", VSym "N"); ("a", VRef 1)] /\ float_triple heap0 (VRef 1).
Proof. eexists. split; [reflexivity|]. split; [reflexivity|]. exists 1, 1%Q, 1%Q, 1%Q. auto. Qed.
