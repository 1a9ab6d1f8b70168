(** C212-C214: RT1 objects with arrays of angles and parameters. *)
From Coq Require Import Reals List Bool Arith String Lia Lra.
From Verif Require Import Base RT_Model Int_Model Arr_Model Arr_Spec Arr_Proofs.
Import ListNotations.
Local Open Scope R_scope.

(** ** C212 *)
Ltac same_shapes := let x := fresh in intros x; cbn [leaves e_surface e_volume e_1bsf e_trans e_Ibs e_mu0 e_muex]; unfold surface_shapes, volume_shapes; rewrite ?in_app_iff; cbn [In]; tauto.

(** surface() and volume() can be evaluated exactly if the arrays can be broadcast; otherwise it is a ValueError *)
Theorem C212_accepted : forall o,
  ((exists c, asurface o = Ok c) <-> compatible (surface_shapes o)) /\ (forall x, asurface o = Err x -> x = ValueError) /\
  ((exists c, avolume o = Ok c) <-> compatible (volume_shapes o)) /\ (forall x, avolume o = Err x -> x = ValueError).
Proof.
  intros o. split; [|split; [|split]].
  - apply eval_iff; same_shapes.
  - intros x. apply eval_err.
  - apply eval_iff; same_shapes.
  - intros x. apply eval_err.
Qed.
Print Assumptions C212_accepted.

(** the shape of the result is the common shape *)
Theorem C212_shape : forall o c,
  (asurface o = Ok c -> common_shape (surface_shapes o) (shape c)) /\ (avolume o = Ok c -> common_shape (volume_shapes o) (shape c)).
Proof.
  intros o c. split; intros E; destruct (eval_some _ _ E) as [S _]; apply bshapes_some; rewrite <- S; apply bshapes_incl; same_shapes.
Qed.
Print Assumptions C212_shape.

Lemma params_at : forall (d : dict string (arr R)) ix, map snd (map (fun q => (fst q, element (snd q) ix)) d) = map (fun a => at_ a ix) (map snd d).
Proof. intros d ix. rewrite !map_map. apply map_ext. intros [k a]. cbn. symmetry. apply at_element. Qed.
Lemma args_at : forall o ix, map (fun a => at_ a ix) (call_args o) = t_0 (object_at o ix) :: t_ex (object_at o ix) :: p_0 (object_at o ix) :: p_ex (object_at o ix) :: map snd (param_dict (object_at o ix)).
Proof.
  intros o ix. unfold call_args. cbn [map]. unfold t_ex, p_ex, t_0, p_0, is_mono, a_tex, a_pex. cbn [object_at gt_0 gp_0 gt_ex gp_ex geometry param_dict]. rewrite params_at, <- !at_element. destruct (String.eqb (a_geometry o) "mono"); [rewrite at_op1|]; reflexivity.
Qed.
Lemma tex_at : forall o ix, at_ (a_tex o) ix = t_ex (object_at o ix).
Proof. intros o ix. unfold t_ex, is_mono, a_tex, t_0. cbn [object_at geometry gt_0 gt_ex]. rewrite <- !at_element. destruct (String.eqb (a_geometry o) "mono"); reflexivity. Qed.
Lemma surface_den : forall o ix, respects (a_brdf o) -> den (e_surface o) ix = surface (object_at o ix).
Proof.
  intros o ix H. unfold e_surface, e_1bsf, e_trans, e_Ibs, e_mu0, e_muex. cbn [den]. rewrite H, args_at, tex_at. unfold surface, brdf_val, mu_0, mu_ex, t_0. cbn [object_at I0 V SRF NormBRDF brdf tau bsf gt_0]. rewrite !at_element. reflexivity.
Qed.
Lemma volume_den : forall o ix, respects (a_p o) -> den (e_volume o) ix = volume (object_at o ix).
Proof.
  intros o ix H. unfold e_volume, e_1bsf, e_trans, e_mu0, e_muex. cbn [den]. rewrite H, args_at, tex_at. unfold volume, p_val, mu_0, mu_ex, t_0. cbn [object_at I0 V omega tau p bsf gt_0]. rewrite !at_element. reflexivity.
Qed.

(** each element is the value of the object that has the corresponding elements of all arrays: everything that is
    proved about one element (C01-C13) holds for arrays of any shape *)
Theorem C212_elements : forall o c ix, (List.length (shape c) <= List.length ix)%nat ->
  (respects (a_brdf o) -> asurface o = Ok c -> element c ix = surface (object_at o ix)) /\
  (respects (a_p o) -> avolume o = Ok c -> element c ix = volume (object_at o ix)).
Proof.
  intros o c ix L. split; intros H E; destruct (eval_some _ _ E) as [_ D]; rewrite <- at_element, (D ix L); [now apply surface_den|now apply volume_den].
Qed.
Print Assumptions C212_elements.
(** in particular for the indices of the array *)
Theorem C212_index : forall A (c : arr A) ix, index_in ix (shape c) -> element c ix = data c ix /\ (List.length (shape c) <= List.length ix)%nat.
Proof. intros A c ix H. split; [rewrite <- at_element; symmetry; now apply data_at|rewrite (index_len _ _ H); lia]. Qed.
Print Assumptions C212_index.
(** an angle given as a number is an array of one element with this value, an array is used as it is *)
Theorem C212_angle : forall x, (shape x = [] -> shape (set_angle x) = [1%nat] /\ data (set_angle x) [0%nat] = data x []) /\
  (shape x <> [] -> set_angle x = x) /\ forall ix, element (set_angle x) ix = element x ix \/ shape x = [] /\ ix = [].
Proof.
  intros x. unfold set_angle. destruct (shape x) as [|n s] eqn:E.
  - split; [split; reflexivity|]. split; [congruence|]. intros ix. left. unfold element. rewrite E. reflexivity.
  - split; [discriminate|]. split; [reflexivity|]. now left.
Qed.
Print Assumptions C212_angle.

(** 3 dates with 2 angles each, one optical depth per date, the others are numbers *)
Definition ex_f : func := mkfunc (fun l => nth 0 l 0 + 1) [true; false; false; false].
Definition ex_num (x : R) : arr R := mkarr [] (fun _ => x).
Definition ex_obj : aobj :=
  mka (ex_num 1) "mono" (mkarr [2; 3]%nat (fun ix => INR (nth 0 ix 0%nat) / 10)) (mkarr [1%nat] (fun _ => 0)) (ex_num 0) (ex_num 0)
      (mkarr [1; 3]%nat (fun ix => INR (nth 1 ix 0%nat))) (ex_num (1/2)) (ex_num (1/5)) (ex_num 0) [] ex_f ex_f.
Example C212_example : exists c, asurface ex_obj = Ok c /\ shape c = [2; 3]%nat /\ respects (a_brdf ex_obj) /\
  index_in [1; 2]%nat (shape c) /\ data c [1; 2]%nat = surface (object_at ex_obj [1; 2]%nat) /\ tau (V (object_at ex_obj [1; 2]%nat)) = INR 2.
Proof.
  assert (Re : respects (a_brdf ex_obj)). { intros l. destruct l as [|a [|b [|d [|e l]]]]; reflexivity. }
  eexists. split; [reflexivity|]. split; [reflexivity|]. split; [exact Re|]. assert (I : index_in [1; 2]%nat [2; 3]%nat) by (repeat constructor; lia). split; [exact I|]. split; [|reflexivity].
  match goal with |- data ?c _ = _ => destruct (C212_index R c [1; 2]%nat I) as [E L]; rewrite <- E; apply (proj1 (C212_elements ex_obj c [1; 2]%nat L) Re eq_refl) end.
Qed.

(** ** C213 *)
Section I.
Variables (expi : R -> R) (expn : nat -> R -> R).

(** the factors of the interaction term: if no array has more axes than the zenith angle, and a coefficient depends on an
    angle or a parameter, they can be evaluated exactly if the arrays can be broadcast, and each element is the factor
    for the corresponding elements *)
Theorem C213_elements : forall nmax fn tau t1 p1 t2 p2 params, List.length fn = nmax -> Forall respects fn ->
  (exists f, In f fn /\ used (f_uses f) (t1 :: p1 :: t2 :: p2 :: params) <> []) ->
  (forall a, In a (tau :: p1 :: t2 :: p2 :: params) -> (List.length (shape a) <= List.length (shape t1))%nat) ->
  compatible (map shape (tau :: t1 :: p1 :: t2 :: p2 :: params)) ->
  exists F, aFint expi expn nmax fn tau t1 p1 t2 p2 params = Ok F /\ common_shape (map shape (tau :: t1 :: p1 :: t2 :: p2 :: params)) (shape F) /\
  forall ix, index_in ix (shape F) -> exists terms,
    bcast (map (fun f => f_val f (element t1 ix :: element p1 ix :: element t2 ix :: element p2 ix :: map (fun a => element a ix) params)) fn)
          (map (fun q => nscale (fst q) (snd q)) (combine (mu_x nmax (cos (element t1 ix))) (S2_mu expi expn nmax (cos (element t1 ix)) (element tau ix)))) = Ok terms /\
    data F ix = fold_left nadd terms (Fin 0).
Proof.
  intros nmax fn tau t1 p1 t2 p2 params LN RF UF RK C. apply bshapes_compatible in C. destruct C as [U E].
  destruct (aFint_spec expi expn nmax fn tau t1 p1 t2 p2 params LN UF RK U E) as (F & EF & SF & VF). exists F. split; [exact EF|]. rewrite SF. split; [now apply bshapes_some|].
  intros ix HI. destruct (VF ix HI) as (terms & H1 & H2). exists terms. split; [|exact H2]. rewrite <- H1. rewrite <- !at_element. f_equal.
  apply map_ext_in. intros f Hf. rewrite Forall_forall in RF. rewrite (RF f Hf). cbn [map]. rewrite (map_ext (fun a => at_ a ix) (fun a => element a ix)) by (intros a; apply at_element). reflexivity.
Qed.

(** incompatible arrays are a ValueError *)
Theorem C213_incompatible : forall nmax fn tau t1 p1 t2 p2 params,
  ~ compatible (map shape (t1 :: p1 :: t2 :: p2 :: params)) -> aFint expi expn nmax fn tau t1 p1 t2 p2 params = Err ValueError.
Proof.
  intros nmax fn tau t1 p1 t2 p2 params C. unfold aFint. destruct (bshapes (map shape (t1 :: p1 :: t2 :: p2 :: params))) as [s|] eqn:E; [|reflexivity]. exfalso. apply C. apply bshapes_compatible. eauto.
Qed.

(** an optical depth for each of k dates (shape (k, 1)) and m angles: surface() and volume() can be evaluated, but the
    factors of the interaction term cannot, unless k is the number of coefficients *)
Theorem C213_axes_refuted : forall nmax fn (tau t1 : arr R) k m, List.length fn = nmax -> (2 <= nmax)%nat -> (2 <= k)%nat -> (1 <= m)%nat -> k <> nmax ->
  shape tau = [1; k]%nat -> shape t1 = [m] -> (exists f, In f fn /\ used (f_uses f) [t1; t1; t1; t1] <> []) ->
  compatible [shape tau; shape t1] /\ aFint expi expn nmax fn tau t1 t1 t1 t1 [] = Err ValueError.
Proof.
  intros nmax fn tau t1 k m LN N K M D St S1 UF. split.
  - rewrite St, S1. intros s t i Hs Ht. destruct Hs as [<-|[<-|[]]], Ht as [<-|[<-|[]]]; destruct i as [|[|[|i]]]; cbn; auto.
  - assert (Es : bshapes (map shape [t1; t1; t1; t1]) = Some [m]) by (apply bshapes_const; [discriminate|]; cbn; rewrite S1; intuition).
    destruct (fn_array_spec fn [t1; t1; t1; t1] [m] Es UF) as (f & Ef & _). unfold aFint. rewrite Es. cbv zeta. rewrite Ef. cbn [bind].
    destruct (aS2_spec expi expn nmax (op1 cos t1) tau [m; k]) as (S2 & E2 & Ss2 & _).
    { cbn [shape op1]. rewrite S1, St. cbn. destruct (Nat.eqb_spec m 1); [subst; reflexivity|]. destruct m as [|[|m]]; reflexivity || lia. }
    rewrite E2. cbn [bind]. unfold op2. rewrite Ss2. cbn [amu_x stack shape op1]. rewrite S1. cbn. rewrite Nat.eqb_refl.
    destruct (Nat.eqb_spec nmax k); [congruence|]. destruct (Nat.eqb_spec nmax 1); [lia|]. destruct (Nat.eqb_spec k 1); [lia|]. reflexivity.
Qed.

(** coefficients that depend neither on an angle nor on a parameter (compiled with sympy): for one angle there are
    as many results as coefficients *)
Theorem C213_constant_refuted : forall nmax fn tau t1, List.length fn = nmax -> (2 <= nmax)%nat -> (forall f, In f fn -> f_uses f = []) -> shape tau = [] -> shape t1 = [1%nat] ->
  exists F, aFint expi expn nmax fn tau t1 t1 t1 t1 [] = Ok F /\ shape F = [nmax] /\ shape F <> shape t1.
Proof.
  intros nmax fn tau t1 LN N UF St S1.
  assert (Es : bshapes (map shape [t1; t1; t1; t1]) = Some [1%nat]) by (apply bshapes_const; [discriminate|]; cbn; rewrite S1; intuition).
  set (args := map (fun a : arr R => mkarr [1%nat] (at_ a)) [t1; t1; t1; t1]).
  assert (Ef : exists f, fn_array fn args = Ok f /\ shape f = [nmax]).
  { unfold fn_array. rewrite (mapM_ok _ _ _ (fun f => mkarr [] (fun ix => f_val f (mask (f_uses f) (map (fun a => at_ a ix) args))))).
    - cbn [bind]. rewrite map_map. cbn [shape]. assert (B : bshapes (map (fun _ : func => []) fn) = Some []) by (apply bshapes_const; [destruct fn; cbn in *; [lia|discriminate]|]; intros t Ht; apply in_map_iff in Ht; destruct Ht as (? & <- & _); reflexivity).
      rewrite B. eexists. split; [reflexivity|]. cbn [stack shape app]. now rewrite map_length, LN.
    - intros f Hf. unfold call. rewrite (UF f Hf). reflexivity. }
  destruct Ef as (f & Ef & Sf). destruct (aS2_spec expi expn nmax (op1 cos t1) tau [1%nat]) as (S2 & E2 & Ss2 & _); [cbn [shape op1]; rewrite S1, St; reflexivity|].
  destruct (op2_ok _ _ _ nscale (amu_x nmax (op1 cos t1)) S2 [1; nmax]%nat) as (mp & Em & Sm). { rewrite Ss2. cbn [amu_x stack shape op1]. rewrite S1. apply bshape_self. }
  destruct (op2_ok _ _ _ nscale f mp [nmax; nmax]%nat) as (tm & Et & Stm). { rewrite Sf, Sm. rewrite bshape_cons. unfold dim. destruct (Nat.eqb_spec nmax 1); [lia|]. reflexivity. }
  exists (sum0 tm). split; [|split].
  - unfold aFint. rewrite Es. cbv zeta. fold args. rewrite Ef. cbn [bind]. rewrite E2. cbn [bind]. rewrite Em. cbn [bind]. rewrite Et. reflexivity.
  - unfold sum0. cbn [shape]. rewrite Stm. reflexivity.
  - unfold sum0. cbn [shape]. rewrite Stm, S1. cbn. intros E. inversion E. lia.
Qed.
End I.
Print Assumptions C213_elements.
Print Assumptions C213_incompatible.
Print Assumptions C213_axes_refuted.
Print Assumptions C213_constant_refuted.
Example C213_example : Forall respects [ex_f; ex_f] /\ (exists f, In f [ex_f; ex_f] /\ used (f_uses f) [a_t0 ex_obj; a_p0 ex_obj; a_t0 ex_obj; a_p0 ex_obj] <> []) /\
  compatible (map shape [a_tau ex_obj; a_t0 ex_obj; a_p0 ex_obj; a_t0 ex_obj; a_p0 ex_obj]).
Proof.
  assert (Re : respects ex_f). { intros l. destruct l as [|a [|b [|d [|e l]]]]; reflexivity. }
  split; [repeat constructor; exact Re|]. split; [exists ex_f; split; [now left|discriminate]|]. apply bshapes_compatible. exists [2; 3]%nat. reflexivity.
Qed.

(** ** C214 *)

(** the results of calc() (without interaction): the total is the sum, element by element; the elements of the
    contributions are those of the corresponding scalar objects.  [py]: tau is a Python number *)
Theorem C214_elements : forall py o t s v ix, acalc py o = Ok (t, s, v) -> (py = true -> shape (a_tau o) = []) -> respects (a_brdf o) -> respects (a_p o) -> index_in ix (shape t) ->
  data t ix = element s ix + element v ix /\ element s ix = surface (object_at o ix) /\
  element v ix = if andb py (if Rlt_dec 0 (tau (V (object_at o ix))) then false else true) then 0 else volume (object_at o ix).
Proof.
  intros py o t s v ix E PY R1 R2 HI. unfold acalc in E. destruct (asurface o) as [s'|] eqn:Es; [|discriminate]. cbn [bind] in E.
  match type of E with bind ?b _ = _ => destruct b as [v'|] eqn:Ev; [|discriminate] end. cbn [bind] in E. destruct (op2 Rplus s' v') as [t'|] eqn:Et; [|discriminate]. cbn [bind] in E. inversion E; subst t' s' v'; clear E.
  pose proof (op2_shape _ _ _ _ _ _ _ Et) as St. pose proof (bshape_len _ _ _ St) as L. pose proof (index_len _ _ HI) as LI. split; [|split].
  - rewrite data_at by exact HI. rewrite (at_op2 _ _ _ _ _ _ _ _ Et) by lia. now rewrite !at_element.
  - apply (proj1 (C212_elements o s ix ltac:(lia)) R1 Es).
  - assert (T : py = true -> tau (V (object_at o ix)) = data (a_tau o) []). { intros H. cbn [object_at V tau]. unfold element. rewrite (PY H). reflexivity. }
    destruct py; cbn [andb].
    + rewrite (T eq_refl). destruct (Rlt_dec 0 (data (a_tau o) [])) as [P|P].
      * apply (proj2 (C212_elements o v ix ltac:(lia)) R2 Ev).
      * inversion Ev; subst. reflexivity.
    + apply (proj2 (C212_elements o v ix ltac:(lia)) R2 Ev).
Qed.
Print Assumptions C214_elements.

(** for a positive optical depth (or an array) the contributions have an element for each incidence angle *)
Theorem C214_shape : forall py o t s v, acalc py o = Ok (t, s, v) -> (py = false \/ 0 < data (a_tau o) []) ->
  forall x, In x [t; s; v] -> (List.length (shape (a_t0 o)) <= List.length (shape x))%nat /\ forall i, nth i (shape (a_t0 o)) 1%nat = 1%nat \/ nth i (shape (a_t0 o)) 1%nat = nth i (shape x) 1%nat.
Proof.
  intros py o t s v E P. unfold acalc in E. destruct (asurface o) as [s'|] eqn:Es; [|discriminate]. cbn [bind] in E.
  assert (EV : exists w, avolume o = Ok w /\ bind (op2 Rplus s' w) (fun t => Ok (t, s', w)) = Ok (t, s, v)).
  { destruct py; [destruct P as [P|P]; [discriminate|]; destruct (Rlt_dec 0 (data (a_tau o) [])); [|contradiction]|]; destruct (avolume o) as [w|]; try discriminate; eauto. }
  destruct EV as (w & Ev & E2). destruct (op2 Rplus s' w) as [t'|] eqn:Et; [|discriminate]. cbn [bind] in E2. inversion E2; subst t' s' w; clear E2 E.
  pose proof (op2_shape _ _ _ _ _ _ _ Et) as St.
  destruct (proj1 (C212_shape o s) Es) as (A1 & _ & A3). destruct (proj2 (C212_shape o v) Ev) as (B1 & _ & B3).
  assert (IS : In (shape (a_t0 o)) (surface_shapes o)) by (unfold surface_shapes; cbn; tauto). assert (IV : In (shape (a_t0 o)) (volume_shapes o)) by (unfold volume_shapes; cbn; tauto).
  assert (HS : forall i, nth i (shape (a_t0 o)) 1%nat = 1%nat \/ nth i (shape (a_t0 o)) 1%nat = nth i (shape s) 1%nat) by (intros i; apply (proj1 (A3 i)); exact IS).
  assert (HV : forall i, nth i (shape (a_t0 o)) 1%nat = 1%nat \/ nth i (shape (a_t0 o)) 1%nat = nth i (shape v) 1%nat) by (intros i; apply (proj1 (B3 i)); exact IV).
  intros x [<-|[<-|[<-|[]]]].
  - split; [rewrite (bshape_len _ _ _ St); specialize (A1 _ IS); lia|]. intros i. pose proof (bshape_nth _ _ _ St i) as D. apply dim_some in D. specialize (HS i). lia.
  - split; [now apply A1|exact HS].
  - split; [now apply B1|exact HV].
Qed.
Print Assumptions C214_shape.

(** without vegetation (tau = 0 or 0.0) the volume contribution has one element, however many angles there are *)
Theorem C214_one_element_refuted : forall o t s v n, acalc true o = Ok (t, s, v) -> data (a_tau o) [] <= 0 -> shape (a_t0 o) = [n] -> (2 <= n)%nat ->
  shape v = [1%nat] /\ nth 0 (shape s) 1%nat = n /\ nth 0 (shape t) 1%nat = n.
Proof.
  intros o t s v n E Z S0 N. unfold acalc in E. destruct (asurface o) as [s'|] eqn:Es; [|discriminate]. cbn [bind] in E. destruct (Rlt_dec 0 (data (a_tau o) [])); [lra|]. cbn [bind] in E.
  destruct (op2 Rplus s' _) as [t'|] eqn:Et; [|discriminate]. cbn [bind] in E. inversion E; subst; clear E. split; [reflexivity|].
  destruct (proj1 (C212_shape o s) Es) as (_ & _ & A3). assert (IS : In (shape (a_t0 o)) (surface_shapes o)) by (unfold surface_shapes; cbn; tauto).
  pose proof (proj1 (A3 0%nat) _ IS) as H. rewrite S0 in H. cbn [nth] in H. pose proof (bshape_nth _ _ _ (op2_shape _ _ _ _ _ _ _ Et) 0%nat) as D. cbn [nth shape] in D. apply dim_some in D. lia.
Qed.
Print Assumptions C214_one_element_refuted.
Example C214_example : let o := mka (ex_num 1) "mono" (mkarr [2%nat] (fun ix => INR (nth 0 ix 0%nat) / 10)) (mkarr [1%nat] (fun _ => 0)) (ex_num 0) (ex_num 0)
    (ex_num 0) (ex_num (1/2)) (ex_num (1/5)) (ex_num 0) [] ex_f ex_f in
  exists t s v, acalc true o = Ok (t, s, v) /\ shape t = [2%nat] /\ shape s = [2%nat] /\ shape v = [1%nat].
Proof.
  cbv zeta. unfold acalc. match goal with |- context [asurface ?o] => destruct (asurface o) as [s|x] eqn:Es; [|discriminate] end. cbn [bind a_tau ex_num data]. destruct (Rlt_dec 0 0); [lra|]. cbn [bind].
  inversion Es; subst. cbn. do 3 eexists. split; [reflexivity|]. repeat split.
Qed.
