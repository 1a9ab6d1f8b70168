(** Proofs for Kwd_Model.v: sessions, __repr__ *)
From Coq Require Import String List Bool ZArith QArith Arith Lia.
From Verif Require Import Base Base_Proofs Kwd_Model Kwd_Spec Kwd_Proofs.
Import ListNotations.
Local Open Scope string_scope.
Local Open Scope nat_scope.

Lemma update_length {A} n (f : A -> A) l : List.length (update n f l) = List.length l.
Proof. revert n. induction l as [|x r IH]; intros [|n]; cbn; auto. Qed.
Lemma update_same {A} n (f : A -> A) l : nth_error (update n f l) n = option_map f (nth_error l n).
Proof. revert n. induction l as [|x r IH]; intros [|n]; cbn; auto. Qed.
Lemma update_other {A} n m (f : A -> A) l : n <> m -> nth_error (update n f l) m = nth_error l m.
Proof. revert n m. induction l as [|x r IH]; intros [|n] [|m] H; cbn; auto; try congruence. Qed.

(** what a successful call made *)
Lemma new_spec c pos kw h o : NoDup (keys kw) -> snd (new c pos kw h) = Ok o ->
  o_cls o = c /\ well_called c pos kw /\ valid c h (given c pos kw) /\ forall k, attr o k = expected c h (given c pos kw) k.
Proof.
  intros ND. rewrite new_eq. pose proof (bound_spec c pos kw ND) as B. destruct (bound c pos kw) as [[A K]|]; cbn [bind fst snd]; [|discriminate].
  destruct B as (W & HA & HK). destruct (init c h A K) as [at_|] eqn:E; cbn [bind]; [|discriminate]. intros H. inversion H; subst. cbn [o_cls].
  split; [reflexivity|]. split; [exact W|]. split; [apply (init_valid c h A K _ HA HK); eauto|]. intros k. unfold attr. cbn [o_attrs]. exact (init_attrs c h A K _ at_ HA HK E k).
Qed.
Lemma new_ok c pos kw h : NoDup (keys kw) -> well_called c pos kw -> valid c h (given c pos kw) -> exists o, snd (new c pos kw h) = Ok o.
Proof.
  intros ND W V. rewrite new_eq. pose proof (bound_spec c pos kw ND) as B. destruct (bound c pos kw) as [[A K]|]; cbn [bind fst snd]; [|destruct B; contradiction].
  destruct B as (_ & HA & HK). destruct (proj2 (init_valid c h A K _ HA HK) V) as [at_ ->]. cbn [bind]. eauto.
Qed.

(** sessions: every object refers to a list *)
Definition wf (s : state) : Prop := 5 <= List.length (s_heap s) /\ forall n x, nth_error (s_objs s) n = Some x -> exists l, attr x "a" = Some (VRef l) /\ l < List.length (s_heap s).
Lemma new_ref c pos kw h o : snd (new c pos kw h) = Ok o -> exists l, attr o "a" = Some (VRef l) /\ l < S (List.length h).
Proof.
  rewrite new_eq. destruct (bound c pos kw) as [[A K]|]; cbn [bind fst snd]; [|discriminate].
  destruct (init c h A K) as [at_|] eqn:E; cbn [bind]; [|discriminate]. intros H. inversion H; subst. unfold attr. cbn [o_attrs].
  set (g := fun k => if inb string_dec k (arguments c) then dget string_dec k A else dget string_dec k K).
  assert (HA : forall k, In k (arguments c) -> dget string_dec k A = g k) by (intros k Hk; unfold g; now rewrite (proj2 (inb_iff string_dec k _) Hk)).
  assert (HK : forall k, ~ In k (arguments c) -> dget string_dec k K = g k) by (intros k Hk; unfold g; now rewrite (proj2 (inb_false string_dec k _) Hk)).
  assert (V : valid c h g) by (apply (init_valid c h A K g HA HK); eauto).
  rewrite (init_attrs c h A K g at_ HA HK E). unfold expected. cbn [String.eqb Ascii.eqb Bool.eqb].
  assert (T : forall v, triple h v -> exists l, Some v = Some (VRef l) /\ l < S (List.length h)).
  { intros v (l & x & y & z & -> & N). exists l. split; [reflexivity|]. assert (l < List.length h) by (apply nth_error_Some; congruence). lia. }
  assert (TF : forall v, float_triple h v -> triple h v) by (intros v (l & x & y & z & -> & N); unfold triple; eauto 6).
  destruct c; cbn [valid] in V; try (eexists; split; [reflexivity|cbn; lia]); apply T; first [apply V|apply TF; apply V].
Qed.
Lemma step_wf s o : wf s -> wf (step s o).
Proof.
  intros [L W]. assert (IP : forall n f, wf (in_place n f s)).
  { intros n f. unfold in_place. destruct (nth_error (s_objs s) n) as [x|]; [|split; assumption]. destruct (attr x "a") as [[]|]; try (split; assumption).
    split; cbn; [rewrite update_length; exact L|]. intros m y Hy. rewrite update_length. now apply (W m). }
  destruct o; cbn [step]; [| |apply IP|apply IP|].
  - split; cbn; rewrite app_length; cbn; [lia|]. intros n x E. destruct (W n x E) as (k & E2 & H). exists k. split; [exact E2|lia].
  - destruct (new c pos kw (s_heap s)) as [h r] eqn:N. assert (Hh : h = (s_heap s ++ [base_a c])%list) by (unfold new in N; congruence). subst h.
    split; cbn [s_heap s_objs]; rewrite app_length; cbn [List.length]; [lia|]. intros n x E.
    assert (OLD : nth_error (s_objs s) n = Some x -> exists l, attr x "a" = Some (VRef l) /\ l < List.length (s_heap s) + 1).
    { intros E2. destruct (W n x E2) as (k & E3 & H). exists k. split; [exact E3|lia]. }
    destruct r as [y|]; [|now apply OLD]. destruct (lt_dec n (List.length (s_objs s))) as [Hn|Hn]; [rewrite nth_error_app1 in E by exact Hn; now apply OLD|].
    rewrite nth_error_app2 in E by lia. destruct (n - List.length (s_objs s)) as [|m]; cbn in E; [|destruct m; discriminate]. inversion E; subst.
    destruct (new_ref c pos kw (s_heap s) x) as (l & E2 & H); [rewrite N; reflexivity|]. exists l. split; [exact E2|lia].
  - destruct (Nat.ltb_spec loc (List.length (s_heap s))) as [H|H]; [|split; assumption]. split; [exact L|]. cbn [s_heap s_objs]. intros n x E.
    destruct (Nat.eq_dec o n) as [->|D].
    + rewrite update_same in E. destruct (nth_error (s_objs s) n) as [y|]; cbn in E; [|discriminate]. inversion E; subst. exists loc. split; [|exact H].
      unfold attr. cbn [o_attrs]. apply dget_dset_same.
    + rewrite update_other in E by exact D. now apply (W n).
Qed.
Lemma session_wf ops : wf (session ops).
Proof.
  unfold session. assert (H : wf start) by (split; [cbn; lia|intros [|n] x E; discriminate]). revert H. generalize start.
  induction ops as [|o r IH]; intros s H; cbn [fold_left]; [exact H|]. apply IH. now apply step_wf.
Qed.

(** without edits: lists stay, and so do the objects that are not assigned to *)
Lemma step_keep s o n l x : edits o = false -> assigns n o = false -> nth_error (s_objs s) n = Some x -> nth_error (s_heap s) l <> None ->
  nth_error (s_objs (step s o)) n = Some x /\ nth_error (s_heap (step s o)) l = nth_error (s_heap s) l.
Proof.
  intros E A X H. assert (Hl : l < List.length (s_heap s)) by now apply nth_error_Some. assert (Hn : n < List.length (s_objs s)) by (apply nth_error_Some; congruence).
  destruct o; cbn [edits] in E; try discriminate; cbn [step].
  - cbn. rewrite nth_error_app1 by exact Hl. auto.
  - destruct (new c pos kw (s_heap s)) as [h r] eqn:N. assert (Hh : h = (s_heap s ++ [base_a c])%list) by (unfold new in N; congruence). subst h. cbn [s_heap s_objs].
    rewrite nth_error_app1 by exact Hl. split; [|reflexivity]. destruct r; [|exact X]. now rewrite nth_error_app1.
  - destruct (Nat.ltb loc (List.length (s_heap s))); [|auto]. cbn. split; [|reflexivity]. cbn in A. apply Nat.eqb_neq in A. now rewrite update_other.
Qed.
Lemma a_keep s o n : edits o = false -> assigns n o = false -> wf s -> n < List.length (s_objs s) -> a_of (step s o) n = a_of s n /\ n < List.length (s_objs (step s o)).
Proof.
  intros E A [_ W] Hn. apply nth_error_Some in Hn. destruct (nth_error (s_objs s) n) as [x|] eqn:X; [|congruence]. destruct (W n x X) as (l & El & Hl).
  apply nth_error_Some in Hl. destruct (step_keep s o n l x E A X Hl) as [K1 K2]. split; [|apply nth_error_Some; congruence]. unfold a_of. rewrite K1, X, El. exact K2.
Qed.
Lemma heap_keep s o l : edits o = false -> l < List.length (s_heap s) -> nth_error (s_heap (step s o)) l = nth_error (s_heap s) l /\ l < List.length (s_heap (step s o)).
Proof.
  intros E Hl. assert (G : nth_error (s_heap (step s o)) l = nth_error (s_heap s) l).
  { destruct o; cbn [edits] in E; try discriminate; cbn [step].
    - cbn. now rewrite nth_error_app1.
    - destruct (new c pos kw (s_heap s)) as [h r] eqn:N. assert (Hh : h = (s_heap s ++ [base_a c])%list) by (unfold new in N; congruence). subst h. cbn. now rewrite nth_error_app1.
    - destruct (Nat.ltb loc (List.length (s_heap s))); reflexivity. }
  split; [exact G|]. apply nth_error_Some. rewrite G. now apply nth_error_Some.
Qed.
Lemma session_snoc ops o : session (ops ++ [o]) = step (session ops) o.
Proof. unfold session. now rewrite fold_left_app. Qed.
Lemma a_stable more : forall ops n, existsb edits more = false -> existsb (assigns n) more = false -> n < List.length (s_objs (session ops)) ->
  a_of (session (ops ++ more)) n = a_of (session ops) n.
Proof.
  induction more as [|o r IH]; intros ops n E A Hn; [now rewrite app_nil_r|]. cbn in E, A. apply orb_false_iff in E, A. destruct E as [E1 E2], A as [A1 A2].
  destruct (a_keep (session ops) o n E1 A1 (session_wf ops) Hn) as [K1 K2]. rewrite <- session_snoc in K1, K2.
  replace (ops ++ o :: r)%list with ((ops ++ [o]) ++ r)%list by (rewrite <- app_assoc; reflexivity). rewrite IH by assumption. exact K1.
Qed.
Lemma defaults_kept ops : existsb edits ops = false -> forall l x, nth_error heap0 l = Some x -> nth_error (s_heap (session ops)) l = Some x.
Proof.
  intros E l x H. assert (G : forall s, existsb edits ops = false -> nth_error (s_heap s) l = Some x -> nth_error (s_heap (fold_left step ops s)) l = Some x).
  { clear E H. induction ops as [|o r IH]; intros s E H; cbn [fold_left]; [exact H|]. cbn in E. apply orb_false_iff in E. destruct E as [E1 E2]. apply IH; [exact E2|].
    rewrite (proj1 (heap_keep s o l E1 (proj1 (nth_error_Some _ _) (ltac:(rewrite H; discriminate))))). exact H. }
  now apply G.
Qed.
(** the list of a new object *)
Lemma new_a ops c pos kw : NoDup (keys kw) -> well_called c pos kw -> valid c (s_heap (session ops)) (given c pos kw) -> let s := session ops in let s' := session (ops ++ [New c pos kw]) in
  List.length (s_objs s') = S (List.length (s_objs s)) /\
  exists l, loc_of s' (List.length (s_objs s)) = Some l /\ VRef l = (if shares c then gor (given c pos kw) "a" (a_default c (s_heap s)) else a_default c (s_heap s)) /\
            a_of s' (List.length (s_objs s)) = nth_error (s_heap s ++ [base_a c])%list l.
Proof.
  intros ND W V s s'. unfold s'. rewrite session_snoc. fold s. destruct (new_ok c pos kw (s_heap s) ND W V) as [o Eo].
  destruct (new_spec c pos kw (s_heap s) o ND Eo) as (_ & _ & _ & At). cbn [step]. destruct (new c pos kw (s_heap s)) as [h r] eqn:N.
  assert (Hh : h = (s_heap s ++ [base_a c])%list) by (unfold new in N; congruence). cbn in Eo. subst h r. cbn [s_objs]. rewrite app_length. split; [cbn; lia|].
  destruct (new_ref c pos kw (s_heap s) o) as (l & El & _); [rewrite N; reflexivity|]. exists l.
  assert (X : nth_error (s_objs s ++ [o])%list (List.length (s_objs s)) = Some o) by (rewrite nth_error_app2 by lia; rewrite Nat.sub_diag; reflexivity).
  split; [unfold loc_of; cbn [s_objs]; now rewrite X, El|]. split; [|unfold a_of; cbn [s_objs s_heap]; now rewrite X, El].
  specialize (At "a"). rewrite El in At. unfold expected in At. cbn [String.eqb Ascii.eqb Bool.eqb] in At. inversion At. now destruct c.
Qed.
(** objects that are not assigned to keep their list *)
Lemma loc_keep s o n l : assigns n o = false -> loc_of s n = Some l -> loc_of (step s o) n = Some l.
Proof.
  unfold loc_of. intros A H. destruct (nth_error (s_objs s) n) as [x|] eqn:X; [|discriminate].
  assert (G : nth_error (s_objs (step s o)) n = Some x); [|now rewrite G].
  assert (Hn : n < List.length (s_objs s)) by (apply nth_error_Some; congruence).
  destruct o; cbn [step].
  - exact X.
  - destruct (new c pos kw (s_heap s)) as [h r]. cbn. destruct r; [|exact X]. now rewrite nth_error_app1.
  - unfold in_place. destruct (nth_error (s_objs s) o); [|exact X]. destruct (attr o0 "a") as [[]|]; exact X.
  - unfold in_place. destruct (nth_error (s_objs s) o); [|exact X]. destruct (attr o0 "a") as [[]|]; exact X.
  - destruct (Nat.ltb loc (List.length (s_heap s))); [|exact X]. cbn. cbn in A. apply Nat.eqb_neq in A. now rewrite update_other.
Qed.
Lemma locs_keep more : forall ops n l, existsb (assigns n) more = false -> loc_of (session ops) n = Some l -> loc_of (session (ops ++ more)) n = Some l.
Proof.
  induction more as [|o r IH]; intros ops n l A H; [now rewrite app_nil_r|]. cbn in A. apply orb_false_iff in A. destruct A as [A1 A2].
  replace (ops ++ o :: r)%list with ((ops ++ [o]) ++ r)%list by (rewrite <- app_assoc; reflexivity). apply IH; [exact A2|]. rewrite session_snoc. now apply loc_keep.
Qed.
Lemma a_loc s n l : loc_of s n = Some l -> a_of s n = nth_error (s_heap s) l.
Proof. unfold loc_of, a_of. destruct (nth_error (s_objs s) n); [|discriminate]. destruct (attr o "a") as [[]|]; try discriminate. congruence. Qed.
Lemma in_place_eq s o f l : loc_of s o = Some l -> in_place o f s = mkst (update l f (s_heap s)) (s_objs s).
Proof. unfold loc_of, in_place. destruct (nth_error (s_objs s) o); [|discriminate]. destruct (attr o0 "a") as [[]|]; try discriminate. congruence. Qed.
Lemma in_place_none s o f : loc_of s o = None -> in_place o f s = s.
Proof. unfold loc_of, in_place. destruct (nth_error (s_objs s) o); [|reflexivity]. destruct (attr o0 "a") as [[]|]; try discriminate; reflexivity. Qed.
Lemma in_place_other s o n f : loc_of s n <> loc_of s o -> a_of (in_place o f s) n = a_of s n.
Proof.
  intros H. destruct (loc_of s o) as [l|] eqn:E; [|now rewrite in_place_none]. rewrite (in_place_eq s o f l E). unfold a_of, loc_of in *. cbn [s_objs s_heap].
  destruct (nth_error (s_objs s) n) as [x|]; [|reflexivity]. destruct (attr x "a") as [[]|]; try reflexivity. apply update_other. congruence.
Qed.
Lemma in_place_shared s o n f l : loc_of s o = Some l -> loc_of s n = Some l -> a_of (in_place o f s) n = option_map f (nth_error (s_heap s) l).
Proof.
  intros E H. rewrite (in_place_eq s o f l E). unfold a_of, loc_of in *. cbn [s_objs s_heap]. destruct (nth_error (s_objs s) n) as [x|]; [|discriminate].
  destruct (attr x "a") as [[]|]; try discriminate. inversion H; subst. apply update_same.
Qed.

(** the values shown *)
Lemma shown_spec o : (forall k, In k (param_names (o_cls o)) -> attr o k <> None) ->
  exists kw, shown o = Ok kw /\ keys kw = param_names (o_cls o) /\ forall k, dget string_dec k kw = if inb string_dec k (param_names (o_cls o)) then attr o k else None.
Proof.
  unfold shown. generalize (param_names (o_cls o)). induction l as [|k r IH]; intros H; cbn [mapM]; [exists []; auto|].
  destruct (attr o k) as [v|] eqn:E; [|exfalso; apply (H k); [now left|exact E]]. cbn [bind].
  destruct IH as (kw & -> & K & G); [intros k2 H2; apply H; now right|]. cbn [bind]. exists ((k, v) :: kw). split; [reflexivity|]. split; [cbn; f_equal; exact K|].
  intros k2. cbn [dget]. destruct (string_dec k2 k) as [->|D].
  - rewrite (proj2 (inb_iff string_dec k (k :: r)) (or_introl eq_refl)). now rewrite E.
  - rewrite G. destruct (inb string_dec k2 r) eqn:B.
    + apply (inb_iff string_dec) in B. now rewrite (proj2 (inb_iff string_dec k2 (k :: r)) (or_intror B)).
    + apply (inb_false string_dec) in B. rewrite (proj2 (inb_false string_dec k2 (k :: r))); [reflexivity|]. intros [X|X]; congruence || contradiction.
Qed.
Lemma given_kw c kw k : given c [] kw k = dget string_dec k kw.
Proof. unfold given. destruct (position k (arguments c)) as [[|n]|]; reflexivity. Qed.
Lemma well_kw c kw : ~ In "self" (keys kw) -> well_called c [] kw.
Proof. intros H. split; [cbn; lia|]. split; [exact H|]. intros n k _ L. cbn in L. lia. Qed.
Lemma int_of_again v : positive v -> int_of (int_of v) = int_of v.
Proof. intros [-> | [(z & -> & _) | (q & -> & _)]]; reflexivity. Qed.
Lemma triple_app h h' v : triple h v -> triple (h ++ h')%list v.
Proof. intros (l & x & y & z & -> & E). exists l, x, y, z. split; [reflexivity|]. rewrite nth_error_app1; [exact E|]. apply nth_error_Some. congruence. Qed.
Lemma ftriple_app h h' v : float_triple h v -> float_triple (h ++ h')%list v.
Proof. intros (l & x & y & z & -> & E). exists l, x, y, z. split; [reflexivity|]. rewrite nth_error_app1; [exact E|]. apply nth_error_Some. congruence. Qed.

Lemma names_nodup c : NoDup (param_names c) /\ ~ In "self" (param_names c).
Proof. destruct c; cbn; split; try (repeat constructor; cbn; intuition discriminate); intuition discriminate. Qed.

Lemma roundtrip c h h' g o : o_cls o = c -> valid c h g -> (forall k, attr o k = expected c h g k) ->
  (c = SLobe -> positive (int_of (gor g "ncoefs" VNone))) ->
  (shares c = true -> valid c h g -> match c with SLobe | VHGR => float_triple h' (gor g "a" (a_default c h)) | _ => triple h' (gor g "a" (a_default c h)) end) ->
  exists kw o', shown o = Ok kw /\ snd (new c [] kw h') = Ok o' /\ o_cls o' = c /\
    (forall k, k <> "a" \/ shares c = true -> attr o' k = attr o k) /\ (shares c = false -> attr o' "a" = Some (VRef (List.length h'))).
Proof.
  intros EC V At PL TR. 
  assert (TN : shares c = true -> c <> SLobe -> g "t" = Some (gor g "t" VNone)) by (intros S1 S2; destruct c; try discriminate; try congruence; apply gor_some, V).
  assert (NC : shares c = true -> g "ncoefs" = Some (gor g "ncoefs" VNone)) by (intros S1; destruct c; try discriminate; apply gor_some, positive_some, V).
  assert (NI : c = SLobe -> g "i" = Some (gor g "i" VNone)) by (intros ->; apply gor_some, power_some, V).
  destruct (shown_spec o) as (kw & Ek & K & G).
  { rewrite EC. intros k Hk. rewrite At. destruct c; cbn in Hk; repeat destruct Hk as [<-|Hk]; try contradiction; cbn; try discriminate;
      rewrite ?NI, ?NC, ?TN by (reflexivity || discriminate); discriminate. }
  rewrite EC in K, G. exists kw. destruct (names_nodup c) as [N1 N2]. rewrite <- K in N1, N2.
  assert (V' : valid c h' (given c [] kw)).
  { assert (GO : forall k d, gor (given c [] kw) k d = match (if inb string_dec k (param_names c) then expected c h g k else None) with Some v => v | None => d end).
    { intros k d. unfold gor. rewrite given_kw, G, At. reflexivity. }
    destruct c; cbn [valid] in *; try exact I; rewrite !GO; cbn; rewrite ?NI, ?NC, ?TN by (reflexivity || discriminate); cbn; intuition. }
  destruct (new_ok c [] kw h' N1 (well_kw c kw N2) V') as [o' E']. exists o'. destruct (new_spec c [] kw h' o' N1 E') as (C' & _ & _ & At').
  split; [exact Ek|]. split; [exact E'|]. split; [exact C'|]. split.
  - intros k Hk. rewrite At', At. 
    assert (X : forall k2, given c [] kw k2 = if inb string_dec k2 (param_names c) then expected c h g k2 else None) by (intros k2; rewrite given_kw, G, At; reflexivity).
    unfold expected at 1. unfold gor. rewrite !X. 
    destruct (String.eqb_spec k "a") as [->|Na].
    { destruct Hk as [Hk|Hk]; [congruence|]. destruct c; try discriminate; reflexivity. }
    destruct (String.eqb_spec k "NormBRDF") as [->|Nn]; [destruct c; reflexivity|].
    destruct (String.eqb_spec k "omega") as [->|No]; [destruct c; reflexivity|].
    destruct (String.eqb_spec k "tau") as [->|Nt]; [destruct c; reflexivity|]. cbn [orb].
    destruct (String.eqb_spec k "i") as [->|Ni]; [destruct c; reflexivity|].
    destruct (String.eqb_spec k "t") as [->|Ntt]; [destruct c; reflexivity|].
    destruct (String.eqb_spec k "ncoefs") as [->|Nnc].
    + destruct c; try reflexivity. cbn. rewrite NC by reflexivity. cbn. rewrite int_of_again by apply V. reflexivity.
    + unfold expected. destruct (String.eqb_spec k "a"); [congruence|]. destruct (String.eqb_spec k "NormBRDF"); [congruence|]. destruct (String.eqb_spec k "omega"); [congruence|].
      destruct (String.eqb_spec k "tau"); [congruence|]. destruct (String.eqb_spec k "i"); [congruence|]. destruct (String.eqb_spec k "t"); [congruence|]. destruct (String.eqb_spec k "ncoefs"); [congruence|]. reflexivity.
  - intros S. rewrite At'. destruct c; try discriminate; reflexivity.
Qed.
