(** C206, C207: cached properties of the scattering functions. *)
From Coq Require Import List Arith Bool String Lia.
From Verif Require Import Base Kwd_Model Cch_Model Cch_Spec Cch_Proofs Cch2_Proofs.
Import ListNotations.
Local Open Scope list_scope.

Section Props.
Context {V A L E : Type}.
Variable efunc : cls -> V -> A -> E.
Variable elegc : cls -> V -> A -> L.
Variable n : nat.
Notation run := (crun efunc elegc n).
Notation value := (value efunc n).
Notation slope := (slope efunc n).
Notation expansion := (expansion elegc n).

(** ** C206 *)

(** with parameters that are not assigned after the first use of an object, everything is made from the current ones *)
Theorem C206_current : forall (init : nat -> sobj V A) ops1 ops2 o ns,
  Forall (fun x => ~ evaluates o x) ops1 -> Forall (fun x => ~ changes o x) ops2 ->
  let s := run init (ops1 ++ ops2) in
  let c := s_cls (init o) in let t := last_t (ops1 ++ ops2) o (s_t (init o)) in let a := last_a (ops1 ++ ops2) o (s_a (init o)) in
  fst (value s o ns) = efunc c t a /\ fst (slope s o) = efunc c t a /\
  fst (expansion s o) = (elegc c t a, a, match fixed c with Some k => k | None => last_n (ops1 ++ ops2) o (s_n (init o)) end).
Proof.
  intros init ops1 ops2 o ns H1 H2 s c t a. pose proof (fresh efunc elegc n init ops1 ops2 o H1 H2) as F. fold s in F.
  assert (Ef : cur_f efunc (c_obj s o) = efunc c t a) by (unfold s; now rewrite obj_run).
  assert (El : cur_l elegc (c_obj s o) = elegc c t a) by (unfold s; now rewrite obj_run).
  split; [|split].
  - rewrite <- Ef. apply (proj1 (inv_value efunc n _ _ s o ns F (fun _ => eq_refl))). reflexivity.
  - rewrite <- Ef. apply (proj1 (inv_func efunc n _ _ s o F (fun _ => eq_refl))). reflexivity.
  - destruct (inv_expand elegc n _ _ s o F (fun _ => eq_refl)) as (H & _ & _). specialize (H eq_refl). rewrite El in H. rewrite <- H. unfold expansion, get_legc. cbn [fst c_obj].
    unfold s. rewrite obj_run. cbn [s_cls s_a s_n]. destruct (fixed (s_cls (init o))) eqn:X; unfold c; rewrite X; reflexivity.
Qed.

(** in every session: classes with a numeric function evaluate with the current parameters, expansions use the current
    list a and number of coefficients *)
Theorem C206_numeric : forall (init : nat -> sobj V A) ops o ns, numeric (s_cls (init o)) = true ->
  fst (value (run init ops) o ns) = efunc (s_cls (init o)) (last_t ops o (s_t (init o))) (last_a ops o (s_a (init o))).
Proof. intros init ops o ns N. unfold Cch_Model.value. rewrite obj_run. cbn [s_cls s_t s_a]. rewrite N. reflexivity. Qed.
Theorem C206_expansion : forall (init : nat -> sobj V A) ops o,
  snd (fst (fst (expansion (run init ops) o))) = last_a ops o (s_a (init o)) /\
  snd (fst (expansion (run init ops) o)) = match fixed (s_cls (init o)) with Some k => k | None => last_n ops o (s_n (init o)) end.
Proof. intros init ops o. unfold Cch_Model.expansion, get_legc. cbn [fst snd c_obj]. rewrite obj_run. cbn [s_cls s_a s_n]. split; [reflexivity|]. destruct (fixed _); reflexivity. Qed.

(** in every session: what is used was made from the parameters the object had at some time before *)
Theorem C206_past : forall (init : nat -> sobj V A) ops o ns,
  let at_ (f : cls -> V -> A -> E) k := f (s_cls (init o)) (last_t (firstn k ops) o (s_t (init o))) (last_a (firstn k ops) o (s_a (init o))) in
  (exists k, fst (value (run init ops) o ns) = at_ efunc k) /\ (exists k, fst (slope (run init ops) o) = at_ efunc k) /\
  (exists k, fst (fst (fst (expansion (run init ops) o))) = elegc (s_cls (init o)) (last_t (firstn k ops) o (s_t (init o))) (last_a (firstn k ops) o (s_a (init o)))).
Proof.
  intros init ops o ns at_. pose proof (past efunc elegc n init ops) as P.
  assert (W : forall e, was_f efunc init ops o e -> exists k, e = at_ efunc k).
  { intros e (u & w & -> & ->). exists (List.length u). unfold at_. rewrite firstn_app, firstn_all, Nat.sub_diag. cbn [firstn]. now rewrite app_nil_r. }
  assert (WL : forall l, was_l elegc init ops o l -> exists k, l = elegc (s_cls (init o)) (last_t (firstn k ops) o (s_t (init o))) (last_a (firstn k ops) o (s_a (init o)))).
  { intros e (u & w & -> & ->). exists (List.length u). rewrite firstn_app, firstn_all, Nat.sub_diag. cbn [firstn]. now rewrite app_nil_r. }
  split; [|split].
  - apply W. exact (proj1 (inv_value efunc n _ _ _ o ns P (cur_was_f efunc elegc n init ops o))).
  - apply W. exact (proj1 (inv_func efunc n _ _ _ o P (cur_was_f efunc elegc n init ops o))).
  - apply WL. exact (proj1 (inv_expand elegc n _ _ _ o P (cur_was_l efunc elegc n init ops o))).
Qed.

(** after the first use assignments have no effect: values of the classes without a numeric function, derivatives of
    all classes, and coefficients of all classes stay the same *)
Theorem C206_stale_refuted : forall (init : nat -> sobj V A) ops more o ns, 1 <= n -> Forall assigns more ->
  (numeric (s_cls (init o)) = false -> fst (value (run init (ops ++ [Value o ns] ++ more)) o ns) = fst (value (run init ops) o ns)) /\
  fst (slope (run init (ops ++ [Slope o] ++ more)) o) = fst (slope (run init ops) o) /\
  fst (fst (fst (expansion (run init (ops ++ [Expand o] ++ more)) o))) = fst (fst (fst (expansion (run init ops) o))).
Proof.
  intros init ops more o ns H1 HM.
  assert (R : forall x, run init (ops ++ [x] ++ more) = fold_left (cstep efunc elegc n) more (cstep efunc elegc n (run init ops) x)) by (intros x; unfold crun; now rewrite !fold_left_app).
  split; [|split].
  - intros N. rewrite R. apply value_stale; [exact H1|rewrite obj_run; exact N|]. apply assign_caches. exact HM.
  - rewrite R. apply func_stale; [exact H1|]. apply (assign_caches efunc elegc n). exact HM.
  - rewrite R. apply expand_stale; [exact H1|]. apply (assign_caches efunc elegc n). exact HM.
Qed.

(** the same assignment does have an effect if enough other objects of the class were used in between *)
Theorem C206_others_refuted : forall (init : nat -> sobj V A) o ns t' qs, 1 <= n -> numeric (s_cls (init o)) = false ->
  NoDup (o :: qs) -> List.length qs = n -> (forall q, In q qs -> s_cls (init q) = s_cls (init o)) ->
  let c := s_cls (init o) in let ops := [Value o ns; SetT o t'] in
  fst (value (run init ops) o ns) = efunc c (s_t (init o)) (s_a (init o)) /\
  fst (value (run init (ops ++ map (fun q => Value q ns) qs)) o ns) = efunc c t' (s_a (init o)).
Proof.
  intros init o ns t' qs H1 N ND LQ HC c ops. split.
  - pose proof (proj1 (C206_stale_refuted init [] [SetT o t'] o ns H1 ltac:(repeat constructor)) N) as S. cbn [app] in S. fold ops in S. rewrite S.
    cbn. unfold Cch_Model.value. cbn [c_obj]. rewrite N. unfold get_lam. cbn [c_lam lget c_obj]. reflexivity.
  - apply NoDup_cons_iff in ND. destruct ND as [No NQ].
    set (s := run init ops). assert (Es : run init (ops ++ map (fun q => Value q ns) qs) = fold_left (cstep efunc elegc n) (map (fun q => Value q ns) qs) s) by (unfold s, crun; now rewrite fold_left_app).
    assert (B : forall q, c_obj s q = if Nat.eqb q o then mks (s_cls (init o)) t' (s_a (init o)) (s_n (init o)) else init q).
    { intros q. unfold s. rewrite obj_run. cbn. rewrite (Nat.eqb_sym o q). destruct (Nat.eqb_spec q o) as [->|]; [|destruct (init q); cbn]; destruct (fixed _); reflexivity. }
    assert (S0 : c_func s c = [(o, efunc c (s_t (init o)) (s_a (init o)))] /\ c_lam s (surface c) = [((o, ns), efunc c (s_t (init o)) (s_a (init o)))]).
    { assert (P1 : forall K X (dec : forall x y : K, {x = y} + {x <> y}) k (x : X), lput dec n [] k x = [(k, x)]) by (intros; unfold lput; cbn [lget]; destruct n as [|n']; [lia|]; cbn [firstn]; now rewrite firstn_nil).
      unfold s, ops, crun. cbn [fold_left cstep cupd c_func c_lam]. unfold Cch_Model.value. cbn [c_obj]. rewrite N. unfold get_lam, get_func. cbn [c_lam lget c_obj snd c_func fst]. fold c. rewrite cset_same, bset_same, !P1. auto. }
    destruct S0 as [F0 L0].
    assert (K1 : firstn n [o] = [o]) by (destruct n as [|n']; [lia|]; cbn; now rewrite firstn_nil).
    destruct (others efunc elegc n c ns qs s [o] N) as (O & F & LL); auto.
    + intros q Hq. rewrite B. destruct (Nat.eqb_spec q o) as [->|]; [contradiction|now apply HC].
    + intros q Hq [->|[]]. contradiction.
    + rewrite F0, K1. reflexivity.
    + rewrite L0, K1. reflexivity.
    + rewrite <- Es in O, F, LL. set (s' := run init (ops ++ map (fun q => Value q ns) qs)) in *.
      assert (K : firstn n (rev qs ++ [o]) = rev qs) by (rewrite <- LQ, <- (rev_length qs), firstn_app, firstn_all, Nat.sub_diag; cbn [firstn]; now rewrite app_nil_r). rewrite K in F, LL.
      assert (Bo : c_obj s' o = mks c t' (s_a (init o)) (s_n (init o))) by (rewrite O, B, Nat.eqb_refl; reflexivity).
      unfold Cch_Model.value. rewrite Bo. cbn [s_cls]. unfold c at 1. rewrite N. unfold get_lam. rewrite Bo. cbn [s_cls].
      assert (G : lget key_dec (c_lam s' (surface c)) (o, ns) = None).
      { apply lget_none_notin. rewrite LL. intros I. apply in_map_iff in I. destruct I as (z & Ez & Iz). inversion Ez; subst. apply in_rev in Iz. contradiction. }
      rewrite G. cbn [fst]. unfold get_func. rewrite Bo. cbn [s_cls s_t s_a fst].
      assert (G2 : lget Nat.eq_dec (c_func s' c) o = None) by (apply lget_none_notin; rewrite F; intros I; apply in_rev in I; contradiction).
      rewrite G2. reflexivity.
Qed.

(** ** C207 *)

(** unless parameters are assigned after the first use, value, derivative and expansion belong to the same parameters *)
Theorem C207_consistent : forall (init : nat -> sobj V A) ops1 ops2 o ns,
  Forall (fun x => ~ evaluates o x) ops1 -> Forall (fun x => ~ changes o x) ops2 ->
  exists t a k, let s := run init (ops1 ++ ops2) in
  fst (value s o ns) = efunc (s_cls (init o)) t a /\ fst (slope s o) = efunc (s_cls (init o)) t a /\ fst (expansion s o) = (elegc (s_cls (init o)) t a, a, k).
Proof. intros init ops1 ops2 o ns H1 H2. pose proof (C206_current init ops1 ops2 o ns H1 H2) as C. cbv zeta in C. eauto. Qed.

(** otherwise not: the contributions of first order (value) use the old parameter, the interaction term (expansion) the
    new one, or the other way round *)
Theorem C207_mixed_refuted : forall (init : nat -> sobj V A) o ns t', 1 <= n ->
  let c := s_cls (init o) in let t := s_t (init o) in let a := s_a (init o) in
  (numeric c = false ->
    fst (value (run init [Value o ns; SetT o t']) o ns) = efunc c t a /\ fst (fst (fst (expansion (run init [Value o ns; SetT o t']) o))) = elegc c t' a) /\
  (numeric c = true ->
    fst (value (run init [Expand o; SetT o t']) o ns) = efunc c t' a /\ fst (fst (fst (expansion (run init [Expand o; SetT o t']) o))) = elegc c t a).
Proof.
  intros init o ns t' H1 c t a. split; intros N.
  - split.
    + pose proof (proj1 (C206_stale_refuted init [] [SetT o t'] o ns H1 ltac:(repeat constructor)) N) as S. cbn [app] in S. rewrite S.
      unfold crun. cbn [fold_left]. unfold Cch_Model.value. cbn [c_obj]. fold c. rewrite N. unfold get_lam. cbn [c_lam lget c_obj]. reflexivity.
    + assert (G : forall d, lget Nat.eq_dec (c_legc (run init [Value o ns; SetT o t']) d) o = None) by (apply no_legc; repeat constructor; cbn; auto).
      unfold Cch_Model.expansion, get_legc. cbn [fst]. rewrite G. rewrite obj_run. cbn. rewrite Nat.eqb_refl. reflexivity.
  - split.
    + rewrite (C206_numeric init _ o ns N). cbn. now rewrite Nat.eqb_refl.
    + pose proof (proj2 (proj2 (C206_stale_refuted init [] [SetT o t'] o ns H1 ltac:(repeat constructor)))) as S. cbn [app] in S. rewrite S. reflexivity.
Qed.

(** also the derivative is not the one of the function *)
Theorem C207_slope_refuted : forall (init : nat -> sobj V A) o ns t', 1 <= n -> numeric (s_cls (init o)) = true ->
  let c := s_cls (init o) in let s := run init [Slope o; SetT o t'] in
  fst (value s o ns) = efunc c t' (s_a (init o)) /\ fst (slope s o) = efunc c (s_t (init o)) (s_a (init o)).
Proof.
  intros init o ns t' H1 N c s. split.
  - unfold s. rewrite (C206_numeric init _ o ns N). cbn. now rewrite Nat.eqb_refl.
  - pose proof (proj1 (proj2 (C206_stale_refuted init [] [SetT o t'] o ns H1 ltac:(repeat constructor)))) as S. cbn [app] in S. unfold s. rewrite S. reflexivity.
Qed.
End Props.
Print Assumptions C206_current.
Print Assumptions C206_numeric.
Print Assumptions C206_expansion.
Print Assumptions C206_past.
Print Assumptions C206_stale_refuted.
Print Assumptions C206_others_refuted.
Print Assumptions C207_consistent.
Print Assumptions C207_mixed_refuted.
Print Assumptions C207_slope_refuted.

(** objects 0, 1: a surface and a volume Henyey-Greenstein function; expressions are represented by what they are made
    from *)
Example C206_example :
  let f := fun c (t a : nat) => (c, t, a) in
  let run := crun f f 2 in let init := fun o => if Nat.eqb o 1 then mks VHG 3 0 5 else mks SHG 3 0 5 in
  let s := run init [Value 0 []; SetT 0 7; SetA 0 1; SetN 0 9] in
  fst (value f 2 s 0 []) = (SHG, 3, 0) /\ fst (expansion f 2 s 0) = ((SHG, 7, 1), 1, 9) /\ fst (value f 2 s 0 ["t"%string]) = (SHG, 3, 0) /\
  fst (value f 2 (run init [Value 0 []; SetT 0 7; Value 2 []; Value 3 []]) 0 []) = (SHG, 7, 0) /\
  fst (value f 2 (run init [Slope 1; Expand 1; SetT 1 7]) 1 []) = (VHG, 7, 0).
Proof. repeat split. Qed.
Example C207_example :
  let f := fun c (t a : nat) => (c, t, a) in
  let run := crun f f 128 in let init := fun o => if Nat.eqb o 1 then mks VHG 3 0 5 else mks SHG 3 0 5 in
  let s := run init [Slope 1; Expand 1; SetT 1 7; Slope 1] in
  fst (value f 128 s 1 []) = (VHG, 7, 0) /\ fst (slope f 128 s 1) = (VHG, 3, 0) /\ fst (expansion f 128 s 1) = ((VHG, 3, 0), 0, 5).
Proof. repeat split. Qed.

(** ** which classes these are *)
(** HG_nadirnorm and HenyeyGreenstein have a numeric function; Isotropic and Rayleigh have a fixed number of coefficients *)
Theorem C206_classes : forall c, (numeric c = true <-> c = SNadir \/ c = VHG) /\ (forall k, fixed c = Some k <-> (c = SIso /\ k = 1) \/ (c = VRay /\ k = 3)).
Proof.
  intros c. destruct c; cbn; (split; [split; [intros E; try discriminate; auto|intros [E|E]; discriminate || reflexivity]|]);
    intros k; (split; [intros E; inversion E; auto|intros [[E ->]|[E ->]]; discriminate || reflexivity]).
Qed.
Print Assumptions C206_classes.
