(** Invariants of sessions *)
From Coq Require Import List Arith Bool String Lia.
From Verif Require Import Base Ses_Model Ses_Spec.
Import ListNotations.

Section P.
Context {Mdl DDict Ds Dat Val Fn Out : Type}.
Variable mk : Mdl -> DDict -> pval Val * pval Val * pval Val.
Variable prep : Ds -> DDict -> Dat.
Variable fnof : Mdl -> DDict -> Fn.
Variable rt : bool -> bool -> Dat -> Mdl * DDict -> DDict -> pval Val * pval Val * pval Val -> list (string * Val) -> option Fn -> Out.
Notation fit := (fit Mdl DDict Ds Fn).
Notation op := (op Mdl DDict Ds Val Fn).

(** constants are unchanged *)
Definition keeps (p0 p : pval Val) : Prop := forall v, p0 = Num v -> p = Num v.
Definition keeps3 (a b : pval Val * pval Val * pval Val) : Prop :=
  keeps (fst (fst a)) (fst (fst b)) /\ keeps (snd (fst a)) (snd (fst b)) /\ keeps (snd a) (snd b).

(** what the caches of one object may hold *)
Definition good (f : fit) (c : cache) : Prop :=
  let p := mk (f_model f) (f_defdict f) in
  match c_sc c with
  | None => True
  | Some (m, dd, t) => m = f_model f /\ dd = f_defdict f /\ keeps3 p t /\ (c_fun c = None -> t = p)
  end /\
  match c_fun c with None => True | Some g => g = p end /\
  match c_dat c with None => True | Some d => d = prep (f_dataset f) (f_defdict f) end /\
  (c_set c = true -> c_sc c <> None /\ c_fun c <> None).

Lemma keeps3_refl p : keeps3 p p.
Proof. repeat split; intros v H; exact H. Qed.

Lemma good_empty f : good f empty.
Proof. repeat split; discriminate. Qed.

Lemma put_same {A} (f : nat -> A) o x : put f o x o = x.
Proof. unfold put. rewrite Nat.eqb_refl. reflexivity. Qed.
Lemma put_other {A} (f : nat -> A) o x q : q <> o -> put f o x q = f q.
Proof. intros H. unfold put. apply Nat.eqb_neq in H. rewrite H. reflexivity. Qed.

(** the new value of one entry *)
Lemma new_value_ok name ps p0 p : keeps p0 p -> new_value name ps p0 p = value_of name ps p0.
Proof.
  intros K. unfold new_value, value_of. destruct p0 as [v|ks f]; [|reflexivity].
  unfold lookup. destruct (dget string_dec name ps); [reflexivity|]. rewrite (K v eq_refl). reflexivity.
Qed.

Lemma value_of_keeps name ps p0 p : value_of name ps p0 = Ok p -> (forall v, p0 = Num v -> dget string_dec name ps = None) -> keeps p0 p.
Proof. intros E H v ->. simpl in E. rewrite (H v eq_refl) in E. injection E as <-. reflexivity. Qed.

(** after [set_model] both entries are present *)
Lemma set_model_ok (s : state) o : good (s_fit s o) (s_cache s o) ->
  exists t, s_fit (set_model mk s o) = s_fit s /\
    s_cache (set_model mk s o) o = mkcache (Some (f_model (s_fit s o), f_defdict (s_fit s o), t))
                                      (Some (mk (f_model (s_fit s o)) (f_defdict (s_fit s o)))) (c_dat (s_cache s o)) true /\
    keeps3 (mk (f_model (s_fit s o)) (f_defdict (s_fit s o))) t /\
    (forall q, q <> o -> s_cache (set_model mk s o) q = s_cache s q).
Proof.
  intros (H1 & H2 & H3 & H4). unfold set_model, get_fun, get_sc. destruct (s_cache s o) as [sc fu da se] eqn:Ec. cbn [c_sc c_fun c_dat c_set] in *.
  destruct se.
  - destruct (H4 eq_refl) as [Hs Hf]. destruct sc as [[[m dd] t]|]; [|congruence]. destruct fu as [g|]; [|congruence].
    destruct H1 as (-> & -> & K & _). subst g. exists t. auto.
  - destruct sc as [[[m dd] t]|]; destruct fu as [g|]; cbn.
    + destruct H1 as (-> & -> & K & _). subst g. exists t. repeat (first [rewrite Ec|rewrite put_same]; cbn).
      split; [reflexivity|]. split; [reflexivity|]. split; [exact K|]. intros q Hq. rewrite !put_other by auto. reflexivity.
    + destruct H1 as (-> & -> & K & E). specialize (E eq_refl). subst t. eexists. repeat (first [rewrite Ec|rewrite put_same]; cbn).
      split; [reflexivity|]. split; [reflexivity|]. split; [apply keeps3_refl|]. intros q Hq. rewrite !put_other by auto. reflexivity.
    + subst g. eexists. repeat (first [rewrite Ec|rewrite put_same]; cbn).
      split; [reflexivity|]. split; [reflexivity|]. split; [apply keeps3_refl|]. intros q Hq. rewrite !put_other by auto. reflexivity.
    + eexists. repeat (first [rewrite Ec|rewrite put_same]; cbn).
      split; [reflexivity|]. split; [reflexivity|]. split; [apply keeps3_refl|]. intros q Hq. rewrite !put_other by auto. reflexivity.
Qed.

Definition with_fn (f : fit) : fit :=
  if f_intQ f then mkfit (f_model f) (f_defdict f) (f_dataset f) (f_sig0 f) (f_dB f) (f_intQ f)
                    (match f_fn f with Some g => Some g | None => Some (fnof (f_model f) (f_defdict f)) end) else f.

(** one evaluation *)
Lemma evaluate_ok (s : state) o ps : good (s_fit s o) (s_cache s o) ->
  let f := s_fit s o in let r := evaluate mk prep fnof rt s o ps in
  fst r = expected mk prep rt f (if f_intQ f then f_fn (with_fn f) else None) ps /\
  s_fit (snd r) o = with_fn f /\ (forall q, q <> o -> s_fit (snd r) q = s_fit s q /\ s_cache (snd r) q = s_cache s q) /\
  (respects mk f ps -> good f (s_cache (snd r) o)).
Proof.
  intros G f. destruct (set_model_ok s o G) as (t & Ef & Ec & K & Eo). unfold evaluate.
  set (s1 := set_model mk s o) in *. clearbody s1.
  assert (Hd : match c_dat (s_cache s o) with None => True | Some d => d = prep (f_dataset f) (f_defdict f) end) by apply G.
  set (s2 := snd (get_dat prep s1 o)).
  assert (H2 : get_dat prep s1 o = (prep (f_dataset f) (f_defdict f), s2) /\ s_fit s2 = s_fit s /\
     s_cache s2 o = mkcache (Some (f_model f, f_defdict f, t)) (Some (mk (f_model f) (f_defdict f))) (Some (prep (f_dataset f) (f_defdict f))) true /\
     forall q, q <> o -> s_cache s2 q = s_cache s q).
  { subst s2. unfold get_dat. rewrite Ec, Ef. fold f. cbn [c_dat c_sc c_fun c_set].
    destruct (c_dat (s_cache s o)) as [d|] eqn:Ed; cbn.
    - split; [rewrite Hd; reflexivity|]. split; [exact Ef|]. split; [rewrite Ec, Hd; reflexivity|exact Eo].
    - rewrite put_same. split; [reflexivity|]. split; [exact Ef|]. split; [reflexivity|]. intros q Hq. rewrite put_other by auto. apply Eo; auto. }
  destruct H2 as (-> & Ef2 & Ec2 & Eo2). clearbody s2.
  unfold get_sc. rewrite Ec2. cbn [c_sc fst snd].
  set (s3 := snd (get_fn fnof s2 o (f_model f, f_defdict f))).
  assert (H3 : get_fn fnof s2 o (f_model f, f_defdict f) = (if f_intQ f then f_fn (with_fn f) else None, s3) /\
     s_fit s3 o = with_fn f /\ s_cache s3 = s_cache s2 /\ forall q, q <> o -> s_fit s3 q = s_fit s q).
  { subst s3. unfold get_fn. rewrite Ef2. fold f. cbn [fst snd]. unfold with_fn. destruct (f_intQ f) eqn:Eq; cbn [snd fst].
    - destruct (f_fn f) eqn:En; cbn.
      + rewrite Ef2. fold f. split; [reflexivity|]. split; [|split; [reflexivity|intros; reflexivity]].
        destruct f; cbn in *; congruence.
      + rewrite put_same. split; [reflexivity|]. split; [reflexivity|]. split; [reflexivity|]. intros q Hq. rewrite put_other, Ef2 by auto. reflexivity.
    - rewrite Ef2. auto. }
  destruct H3 as (-> & Ef3 & Ec3 & Eo3). clearbody s3.
  unfold get_fun, get_sc. rewrite Ec3, Ec2. cbn [c_sc c_fun]. rewrite Ec3, Ec2. cbn [c_fun].
  (* attributes other than the functions are unchanged *)
  assert (Ew : f_sig0 (with_fn f) = f_sig0 f /\ f_dB (with_fn f) = f_dB f /\ f_defdict (with_fn f) = f_defdict f).
  { unfold with_fn. destruct (f_intQ f); auto. }
  unfold set_values, expected. destruct (mk (f_model f) (f_defdict f)) as [[om ta] no] eqn:Em. cbn [fst snd].
  fold f in K. rewrite Em in K. destruct K as (K1 & K2 & K3). cbn [fst snd] in K1, K2, K3. destruct t as [[t1 t2] t3]. cbn [fst snd] in *.
  rewrite !new_value_ok by auto. unfold respects. rewrite Em.
  assert (Gen : forall s4 x y z, s_fit s4 = s_fit s3 -> s_cache s4 o = mkcache (Some (f_model f, f_defdict f, (x, y, z))) (Some (om, ta, no)) (Some (prep (f_dataset f) (f_defdict f))) true ->
     (forall q, q <> o -> s_cache s4 q = s_cache s q) ->
     s_fit s4 o = with_fn f /\ (forall q, q <> o -> s_fit s4 q = s_fit s q /\ s_cache s4 q = s_cache s q) /\
     (keeps om x -> keeps ta y -> keeps no z -> good f (s_cache s4 o))).
  { intros s4 x y z F4 C4 O4. split; [congruence|]. split.
    - intros q Hq. split; [rewrite F4; auto|auto].
    - intros A B C. rewrite C4. unfold good. rewrite Em. cbn. repeat split; auto; discriminate. }
  assert (O3 : forall q, q <> o -> s_cache s3 q = s_cache s q) by (intros; rewrite Ec3; auto).
  destruct (value_of "omega" ps om) as [a|e] eqn:Va; cbn [bind].
  2:{ cbn. split; [reflexivity|]. destruct (Gen s3 t1 t2 t3 eq_refl) as (X1 & X2 & X3); [rewrite Ec3; exact Ec2|exact O3|]. auto. }
  destruct (value_of "tau" ps ta) as [b|e] eqn:Vb; cbn [bind].
  2:{ cbn. split; [reflexivity|]. edestruct (Gen (write_sc s3 o (f_model f, f_defdict f) (a, t2, t3)) a t2 t3) as (X1 & X2 & X3).
      - reflexivity. - unfold write_sc. cbn. rewrite put_same, Ec3, Ec2. reflexivity.
      - intros q Hq. cbn. rewrite put_other by auto. auto.
      - split; [exact X1|]. split; [exact X2|]. intros (R1 & R2 & R3). apply X3; auto. eapply value_of_keeps; eauto. }
  destruct (value_of "NormBRDF" ps no) as [n|e] eqn:Vn; cbn [bind].
  - split; [cbn; rewrite Ef3; destruct Ew as (-> & -> & ->); reflexivity|].
    edestruct (Gen (write_sc (write_sc (write_sc s3 o (f_model f, f_defdict f) (a, t2, t3)) o (f_model f, f_defdict f) (a, b, t3)) o (f_model f, f_defdict f) (a, b, n)) a b n) as (X1 & X2 & X3).
    + reflexivity. + unfold write_sc. cbn. rewrite !put_same. cbn. rewrite ?put_same, Ec3, Ec2. reflexivity.
    + intros q Hq. cbn. rewrite !put_other by auto. auto.
    + cbn. split; [exact X1|]. split; [exact X2|]. intros (R1 & R2 & R3). apply X3; eapply value_of_keeps; eauto.
  - split; [reflexivity|].
    edestruct (Gen (write_sc (write_sc s3 o (f_model f, f_defdict f) (a, t2, t3)) o (f_model f, f_defdict f) (a, b, t3)) a b t3) as (X1 & X2 & X3).
    + reflexivity. + unfold write_sc. cbn. rewrite !put_same. cbn. rewrite ?put_same, Ec3, Ec2. reflexivity.
    + intros q Hq. cbn. rewrite !put_other by auto. auto.
    + cbn. split; [exact X1|]. split; [exact X2|]. intros (R1 & R2 & R3). apply X3; auto; eapply value_of_keeps; eauto.
Qed.

Lemma good_with_fn f c : good (with_fn f) c <-> good f c.
Proof. unfold good, with_fn. destruct (f_intQ f); cbn; tauto. Qed.

(** the attributes are those assigned last and the caches are valid *)
Definition valid (s : @state Mdl DDict Ds Dat Val Fn) (a : nat -> fit) : Prop := forall q, s_fit s q = a q /\ good (a q) (s_cache s q).

Lemma assign_valid s a o x : valid s a -> good x empty -> valid (assign (clear s) o x) (fun q => if Nat.eqb q o then x else a q).
Proof.
  intros H G q. cbn. destruct (Nat.eqb_spec q o) as [->|N].
  - rewrite put_same. split; [reflexivity|exact G].
  - rewrite put_other by auto. split; [apply H|apply good_empty].
Qed.

Lemma step_valid s a (x : op) : plain x = true -> (forall o ps, x = Calc o ps -> respects mk (a o) ps) ->
  valid s a -> valid (step mk prep fnof rt s x) (attr_step fnof a x).
Proof.
  intros Hp Hr H. destruct x; try discriminate Hp; cbn [step]; unfold attr_step.
  - apply assign_valid; auto using good_empty.
  - rewrite (proj1 (H o)). intros q. destruct (assign_valid s a o (mkfit m (f_defdict (a o)) (f_dataset (a o)) (f_sig0 (a o)) (f_dB (a o)) (f_intQ (a o)) (f_fn (a o))) H (good_empty _) q) as [E G].
    cbv beta in G, E |- *. destruct (Nat.eqb_spec q o) as [e|N]; [rewrite e in *|]; auto.
  - rewrite (proj1 (H o)). intros q. destruct (assign_valid s a o (mkfit (f_model (a o)) dd (f_dataset (a o)) (f_sig0 (a o)) (f_dB (a o)) (f_intQ (a o)) (f_fn (a o))) H (good_empty _) q) as [E G].
    cbv beta in G, E |- *. destruct (Nat.eqb_spec q o) as [e|N]; [rewrite e in *|]; auto.
  - rewrite (proj1 (H o)). intros q. destruct (assign_valid s a o (mkfit (f_model (a o)) (f_defdict (a o)) d (f_sig0 (a o)) (f_dB (a o)) (f_intQ (a o)) (f_fn (a o))) H (good_empty _) q) as [E G].
    cbv beta in G, E |- *. destruct (Nat.eqb_spec q o) as [e|N]; [rewrite e in *|]; auto.
  - rewrite (proj1 (H o)). intros q. destruct (assign_valid s a o (mkfit (f_model (a o)) (f_defdict (a o)) (f_dataset (a o)) b (f_dB (a o)) (f_intQ (a o)) (f_fn (a o))) H (good_empty _) q) as [E G].
    cbv beta in G, E |- *. destruct (Nat.eqb_spec q o) as [e|N]; [rewrite e in *|]; auto.
  - rewrite (proj1 (H o)). intros q. destruct (assign_valid s a o (mkfit (f_model (a o)) (f_defdict (a o)) (f_dataset (a o)) (f_sig0 (a o)) b (f_intQ (a o)) (f_fn (a o))) H (good_empty _) q) as [E G].
    cbv beta in G, E |- *. destruct (Nat.eqb_spec q o) as [e|N]; [rewrite e in *|]; auto.
  - intros q. cbn. destruct (H o) as [E G]. rewrite E. destruct (Nat.eqb_spec q o) as [->|N].
    + rewrite put_same. auto.
    + rewrite put_other by auto. apply H.
  - intros q. cbn. split; [apply H|apply good_empty].
  - intros q. destruct (H o) as [E G]. rewrite <- E in G. destruct (evaluate_ok s o ps G) as (_ & E1 & E2 & E3).
    destruct (Nat.eqb_spec q o) as [->|N]; cbn [andb].
    + rewrite E1, E. fold (with_fn (a o)). split; [reflexivity|]. apply good_with_fn. rewrite E in E3. apply E3. apply (Hr o ps eq_refl).
    + destruct (E2 q N) as [-> ->]. apply H.
Qed.

Lemma run_valid init ops : forallb plain ops = true -> respectful mk fnof init ops ->
  valid (run mk prep fnof rt init ops) (attrs fnof init ops).
Proof.
  intros Hp Hr. unfold run, attrs.
  assert (G : forall ops s a, forallb plain ops = true -> valid s a ->
     (forall l o ps r, ops = l ++ Calc o ps :: r -> respects mk (fold_left (attr_step fnof) l a o) ps) ->
     valid (fold_left (step mk prep fnof rt) ops s) (fold_left (attr_step fnof) ops a)).
  { clear. induction ops as [|x ops IH]; intros s a Hp V Hr; [exact V|]. cbn in *. apply andb_true_iff in Hp. destruct Hp as [Hx Hp].
    apply IH; auto.
    - apply step_valid; auto. intros o ps ->. apply (Hr [] o ps ops eq_refl).
    - intros l o ps r ->. apply (Hr (x :: l) o ps r eq_refl). }
  apply G; auto. intros q. split; [reflexivity|apply good_empty].
Qed.

(** [respectful] along the history *)
Fixpoint resp (a : nat -> fit) (ops : list op) : Prop :=
  match ops with
  | [] => True
  | x :: r => match x with Calc o ps => respects mk (a o) ps | _ => True end /\ resp (attr_step fnof a x) r
  end.
Lemma resp_ok ops : forall init, resp init ops -> respectful mk fnof init ops.
Proof.
  induction ops as [|x ops IH]; intros init H l o ps r E; [destruct l; discriminate|]. destruct H as [H1 H2].
  destruct l as [|y l]; cbn in E; injection E as -> E.
  - exact H1.
  - apply (IH _ H2 l o ps r E).
Qed.

End P.
