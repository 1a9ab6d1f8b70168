(** C179: fit.metric.KEY1.KEY2 describes the current dataset and results. *)
From Coq Require Import List Arith Bool String Lia.
From Verif Require Import Base Base_Proofs Str_Proofs Met_Model Met_Spec Met2_Props Exa13_Spec Exa13_Proofs Mky_Model Mky_Spec.
Import ListNotations.
Local Open Scope string_scope.
Local Open Scope list_scope.

Lemma nth_upd_same {A} (l : list A) j x y : nth_error l j = Some y -> nth_error (upd l j x) j = Some x.
Proof. revert j. induction l as [|z l IH]; intros [|j]; cbn; intros H; try discriminate; [reflexivity|now apply IH]. Qed.
Lemma nth_upd_other {A} (l : list A) j i x : i <> j -> nth_error (upd l j x) i = nth_error l i.
Proof. revert i j. induction l as [|z l IH]; intros [|i] [|j] H; cbn; try reflexivity; try congruence. apply IH. congruence. Qed.
Lemma length_upd {A} (l : list A) j x : List.length (upd l j x) = List.length l.
Proof. revert j. induction l as [|z l IH]; intros [|j]; cbn; try reflexivity. now rewrite IH. Qed.

Section P.
Context {Ds Rs Df D : Type}.
Variable ds_names : Ds -> list string.
Variable res_names : Rs -> list string.
Variables ds_col calc_col res_col : att Ds Rs Df -> string -> res D.
Variable unify : D -> D -> res (D * D).
Variable reserved : string -> bool.
Notation build := (build (D := D) ds_names res_names reserved).
Notation get := (get_data ds_col calc_col res_col).
Notation lookup := (lookup ds_col calc_col res_col unify).
Notation held := (held ds_col calc_col res_col unify).
Notation access := (access ds_names res_names ds_col calc_col res_col unify reserved).
Notation mstep := (mstep ds_names res_names ds_col calc_col res_col unify reserved).
Notation mrun := (mrun ds_names res_names ds_col calc_col res_col unify reserved).

(* the cached values are the current ones *)
Definition fresh_cell (f : att Ds Rs Df) sn1 sn2 (c : cell) : Prop :=
  (forall x, c_d1 c = Some x -> get f sn1 = Ok x) /\ (forall y, c_d2 c = Some y -> get f sn2 = Ok y) /\
  (forall u, c_u c = Some u -> exists x y, get f sn1 = Ok x /\ get f sn2 = Ok y /\ unify x y = Ok u).
Definition fresh_obj (f : att Ds Rs Df) (o : mobj) : Prop :=
  (exists o', build f = Ok o' /\ o_keys o = o_keys o') /\
  forall k1 k2 sn1 sn2, resolve_key (o_keys o) k1 = Ok sn1 -> resolve_key (o_keys o) k2 = Ok sn2 -> fresh_cell f sn1 sn2 (o_cell o k1 k2).
Definition now_pair (f : att Ds Rs Df) sn1 sn2 : res (D * D) :=
  match get f sn1 with Err e => Err e | Ok x => match get f sn2 with Err e => Err e | Ok y => unify x y end end.

Lemma eval_fresh f sn1 sn2 c : fresh_cell f sn1 sn2 c ->
  fst (eval_cell ds_col calc_col res_col unify f sn1 sn2 c) = now_pair f sn1 sn2 /\
  fresh_cell f sn1 sn2 (snd (eval_cell ds_col calc_col res_col unify f sn1 sn2 c)).
Proof.
  intros (H1 & H2 & H3). unfold eval_cell, now_pair. destruct (c_u c) as [u|] eqn:U.
  - destruct (H3 u eq_refl) as (x & y & E1 & E2 & E3). rewrite E1, E2. cbn. split; [congruence|]. unfold fresh_cell. rewrite U. repeat split; try assumption.
  - unfold cached at 1 3. assert (E1 : match c_d1 c with Some d => Ok d | None => get f sn1 end = get f sn1).
    { destruct (c_d1 c); [symmetry; now apply H1|reflexivity]. }
    rewrite E1. destruct (get f sn1) as [x|e] eqn:G1; cbn [c_d1 c_d2 c_u].
    2: { cbn. split; [reflexivity|]. unfold fresh_cell. rewrite U, G1. repeat split; try assumption. }
    unfold cached. assert (E2 : match c_d2 c with Some d => Ok d | None => get f sn2 end = get f sn2).
    { destruct (c_d2 c); [symmetry; now apply H2|reflexivity]. }
    rewrite E2. destruct (get f sn2) as [y|e] eqn:G2.
    2: { cbn. split; [reflexivity|]. unfold fresh_cell. cbn. rewrite G1, G2. repeat split; try assumption; try congruence. }
    destruct (unify x y) as [u|e] eqn:W; cbn; (split; [reflexivity|]); unfold fresh_cell; cbn; rewrite G1, G2; repeat split; try congruence.
    intros v [= <-]. exists x, y. repeat split. exact W.
Qed.

Lemma lookup_fresh f o k1 k2 : fresh_obj f o -> fresh_obj f (snd (lookup f o k1 k2)).
Proof.
  intros [K C]. unfold Mky_Model.lookup. destruct (resolve_key (o_keys o) k1) as [sn1|] eqn:R1; [|now split]. destruct (resolve_key (o_keys o) k2) as [sn2|] eqn:R2; [|now split].
  destruct (String.eqb k1 k2); [now split|].
  destruct (eval_cell ds_col calc_col res_col unify f sn1 sn2 (o_cell o k1 k2)) as [r c] eqn:E. cbn [snd]. split; [exact K|]. intros a b t1 t2. cbn. intros A B.
  destruct (String.eqb_spec a k1) as [->|]; [destruct (String.eqb_spec b k2) as [->|]|]; cbn; try (now apply C).
  assert (t1 = sn1) as -> by congruence. assert (t2 = sn2) as -> by congruence.
  pose proof (eval_fresh f sn1 sn2 _ (C k1 k2 sn1 sn2 A B)) as [_ F]. now rewrite E in F.
Qed.

Lemma lookup_keys f o k1 k2 : o_keys (snd (lookup f o k1 k2)) = o_keys o.
Proof.
  unfold Mky_Model.lookup. destruct (resolve_key (o_keys o) k1); [|reflexivity]. destruct (resolve_key (o_keys o) k2); [|reflexivity]. destruct (String.eqb k1 k2); [reflexivity|].
  destruct (eval_cell _ _ _ _ _ _ _ _). reflexivity.
Qed.

(* the invariant: the cached object, if any, is fresh *)
Definition minv (s : mstate Ds Rs Df D) : Prop :=
  match m_cur s with None => True | Some j => exists o, nth_error (m_heap s) j = Some o /\ fresh_obj (m_att s) o end.

Lemma held_att s j k1 k2 : m_att (snd (held s j k1 k2)) = m_att s.
Proof. unfold Mky_Model.held. destruct (nth_error (m_heap s) j); [|reflexivity]. destruct (lookup (m_att s) m k1 k2). reflexivity. Qed.
Lemma access_att s k1 k2 : m_att (snd (access s k1 k2)) = m_att s.
Proof. unfold Mky_Model.access. destruct (m_cur s); [apply held_att|]. destruct (build (m_att s)); [|reflexivity]. now rewrite held_att. Qed.

Lemma held_inv s j k1 k2 : minv s -> minv (snd (held s j k1 k2)).
Proof.
  intros I. unfold Mky_Model.held. destruct (nth_error (m_heap s) j) as [o|] eqn:E; [|exact I].
  pose proof (lookup_fresh (m_att s) o k1 k2) as F. destruct (lookup (m_att s) o k1 k2) as [r o']. cbn [snd] in *. unfold minv in *. cbn.
  destruct (m_cur s) as [i|]; [|exact I]. destruct I as (p & P & Q). destruct (Nat.eq_dec i j) as [->|N].
  - exists o'. split; [now apply (nth_upd_same _ _ _ o)|]. apply F. rewrite P in E. injection E as <-. exact Q.
  - exists p. rewrite nth_upd_other by exact N. now split.
Qed.

Lemma build_fresh f o : build f = Ok o -> fresh_obj f o.
Proof.
  intros B. split; [now exists o|]. intros k1 k2 sn1 sn2 _ _. unfold Mky_Model.build in B. destruct (a_res f); [|discriminate]. destruct (existsb _ _); [discriminate|].
  injection B as <-. cbn. repeat split; discriminate.
Qed.

Lemma nth_last {A} (l : list A) x : nth_error (l ++ [x]) (List.length l) = Some x.
Proof. rewrite nth_error_app2 by apply Nat.le_refl. now rewrite Nat.sub_diag. Qed.

Lemma access_inv s k1 k2 : minv s -> minv (snd (access s k1 k2)).
Proof.
  intros I. unfold Mky_Model.access. destruct (m_cur s) eqn:E; [now apply held_inv|]. destruct (build (m_att s)) as [o|] eqn:B; [|exact I].
  apply held_inv. unfold minv. cbn. exists o. split; [apply nth_last|now apply build_fresh].
Qed.

Lemma step_inv s a : tracked a = true -> minv s -> minv (mstep s a).
Proof.
  intros T I. destruct a; try discriminate; cbn [Mky_Model.mstep]; try (exact Logic.I).
  - now apply access_inv.
  - now apply held_inv.
  - destruct r; exact Logic.I.
  - destruct (nth_error (m_heap s) j) as [o|] eqn:E; [|exact I]. unfold minv in *. cbn.
    destruct (m_cur s) as [i|]; [|exact I]. destruct I as (p & P & Q). destruct (Nat.eq_dec i j) as [->|N].
    + eexists. split; [now apply (nth_upd_same _ _ _ o)|]. rewrite P in E. injection E as ->. destruct Q as [K C]. split; [exact K|].
      intros a b t1 t2. cbn. intros A B. specialize (C a b t1 t2 A B).
      destruct (String.eqb_spec a k1) as [->|]; [destruct (String.eqb_spec b k2) as [->|]|]; cbn; try exact C.
      destruct C as (C1 & C2 & C3). unfold evict, fresh_cell. cbn. destruct e1, e2, eu; repeat split; try discriminate; assumption.
    + exists p. rewrite nth_upd_other by exact N. now split.
Qed.

Lemma step_att s a : m_att (mstep s a) = after (m_att s) a.
Proof. destruct a; cbn; try reflexivity; [apply access_att|apply held_att|destruct r; reflexivity|destruct (nth_error (m_heap s) j); reflexivity]. Qed.

Lemma run_att f ops : m_att (mrun f ops) = attributes f ops.
Proof.
  unfold Mky_Model.mrun, attributes. induction ops as [|a l IH] using rev_ind; [reflexivity|]. rewrite !fold_left_app. cbn [fold_left]. now rewrite step_att, IH.
Qed.
Lemma run_inv f ops : forallb tracked ops = true -> minv (mrun f ops).
Proof.
  unfold Mky_Model.mrun. induction ops as [|a l IH] using rev_ind; intros T; [exact I|]. rewrite forallb_app in T. cbn in T. rewrite !andb_true_iff in T. destruct T as (T & Ta & _).
  rewrite fold_left_app. cbn [fold_left]. apply step_inv; [exact Ta|now apply IH].
Qed.

Lemma held_value s j o k1 k2 sn1 sn2 : nth_error (m_heap s) j = Some o -> fresh_obj (m_att s) o -> k1 <> k2 ->
  resolve_key (o_keys o) k1 = Ok sn1 -> resolve_key (o_keys o) k2 = Ok sn2 -> fst (held s j k1 k2) = now_pair (m_att s) sn1 sn2.
Proof.
  intros E [K C] N R1 R2. unfold Mky_Model.held. rewrite E. unfold Mky_Model.lookup. rewrite R1, R2. rewrite (proj2 (String.eqb_neq k1 k2) N).
  pose proof (eval_fresh (m_att s) sn1 sn2 _ (C k1 k2 sn1 sn2 R1 R2)) as [V _]. destruct (eval_cell _ _ _ _ _ _ _ _). exact V.
Qed.

(* an access to a fresh state *)
Lemma access_value s k1 k2 r : minv s -> a_res (m_att s) = Some r ->
  existsb reserved (keys (all_keys (sources_of_fit ds_names res_names (m_att s) r))) = false ->
  let ks := all_keys (sources_of_fit ds_names res_names (m_att s) r) in
  (forall sn1 sn2, k1 <> k2 -> resolve_key ks k1 = Ok sn1 -> resolve_key ks k2 = Ok sn2 -> fst (access s k1 k2) = now_pair (m_att s) sn1 sn2) /\
  (k1 = k2 \/ ~ In k1 (keys ks) \/ ~ In k2 (keys ks) -> fst (access s k1 k2) = Err AttributeError).
Proof.
  intros I Hr Hs ks.
  assert (B : build (m_att s) = Ok (mkmobj ks (fun _ _ => newcell))). { unfold Mky_Model.build. now rewrite Hr, Hs. }
  assert (A : exists s' j o, access s k1 k2 = held s' j k1 k2 /\ nth_error (m_heap s') j = Some o /\ fresh_obj (m_att s') o /\ o_keys o = ks /\ m_att s' = m_att s).
  { unfold Mky_Model.access. destruct (m_cur s) as [j|] eqn:E.
    - unfold minv in I. rewrite E in I. destruct I as (o & P & Q). exists s, j, o. split; [reflexivity|]. split; [exact P|]. split; [exact Q|]. split; [|reflexivity]. destruct Q as [(o' & B' & K) _]. rewrite B in B'. injection B' as <-. exact K.
    - rewrite B. eexists _, _, _. split; [reflexivity|]. split; [apply nth_last|]. split; [now apply build_fresh|]. split; reflexivity. }
  destruct A as (s' & j & o & -> & P & Q & K & <-). split.
  - intros sn1 sn2 N R1 R2. rewrite <- K in R1, R2. exact (held_value s' j o k1 k2 sn1 sn2 P Q N R1 R2).
  - intros H. unfold Mky_Model.held. rewrite P. unfold Mky_Model.lookup. rewrite K.
    assert (G : forall k, ~ In k (keys ks) -> exists e, resolve_key ks k = Err e).
    { intros k Hk. unfold resolve_key. rewrite (proj1 (dget_none string_dec k ks) Hk). now eexists. }
    destruct H as [<-|[H|H]].
    + destruct (resolve_key ks k1); [|reflexivity]. now rewrite String.eqb_refl.
    + destruct (G k1 H) as [e ->]. reflexivity.
    + destruct (G k2 H) as [e ->]. destruct (resolve_key ks k1); reflexivity.
Qed.
End P.

(** after any session in which the attributes are changed by assignments to
    dataset, defdict, set_V_SRF, sig0, dB and by performfit: for every two
    variables there is a pair of keys under which the metrics are computed
    from the current values of these variables; nothing else can be accessed *)
Theorem C179_current : forall Ds Rs Df D ds_names res_names ds_col calc_col res_col unify reserved
    (f : att Ds Rs Df) (ops : list (mop Ds Rs Df)) r,
  forallb tracked ops = true -> let g := attributes f ops in a_res g = Some r ->
  let src := sources_of_fit ds_names res_names g r in distinct_names src -> unambiguous src ->
  (forall k, In k (keys (all_keys src)) -> reserved k = false) ->
  let result k1 k2 := fst (access (D := D) ds_names res_names ds_col calc_col res_col unify reserved
     (mrun ds_names res_names ds_col calc_col res_col unify reserved f ops) k1 k2) in
  (forall s1 n1 s2 n2, available src s1 n1 -> available src s2 n2 -> (s1, n1) <> (s2, n2) ->
     exists k1 k2, k1 <> k2 /\ resolve_key (all_keys src) k1 = Ok (s1, n1) /\ resolve_key (all_keys src) k2 = Ok (s2, n2) /\
     forall v1 v2, current ds_col calc_col res_col g s1 n1 v1 -> current ds_col calc_col res_col g s2 n2 v2 ->
       result k1 k2 = match v1, v2 with Err e, _ => Err e | _, Err e => Err e | Ok x, Ok y => unify x y end) /\
  (forall k1 k2, k1 = k2 \/ ~ In k1 (keys (all_keys src)) \/ ~ In k2 (keys (all_keys src)) -> result k1 k2 = Err AttributeError).
Proof.
  intros Ds Rs Df D ds_names res_names ds_col calc_col res_col unify reserved f ops r T g Hr src Hd Hs Hv result.
  pose proof (run_inv ds_names res_names ds_col calc_col res_col unify reserved f ops T) as I.
  pose proof (run_att ds_names res_names ds_col calc_col res_col unify reserved f ops) as A. fold g in A.
  set (s := mrun ds_names res_names ds_col calc_col res_col unify reserved f ops) in *.
  assert (Hx : existsb reserved (keys (all_keys src)) = false).
  { destruct (existsb reserved (keys (all_keys src))) eqn:E; [|reflexivity]. apply existsb_exists in E. destruct E as (k & K1 & K2). rewrite (Hv k K1) in K2. discriminate. }
  assert (V : forall k1 k2, _) by (intros k1 k2; apply (access_value ds_names res_names ds_col calc_col res_col unify reserved s k1 k2 r I); rewrite A; assumption).
  rewrite A in V. cbv zeta in V. fold src in V. split.
  - intros s1 n1 s2 n2 A1 A2 N. destruct (proj2 (one_key_iff src Hd) Hs) as (K & _).
    destruct (K s1 n1 A1) as (k1 & [_ E1] & _). destruct (K s2 n2 A2) as (k2 & [_ E2] & _). exists k1, k2.
    assert (Nk : k1 <> k2). { intros ->. rewrite E1 in E2. injection E2 as <- <-. now apply N. }
    split; [exact Nk|]. split; [exact E1|]. split; [exact E2|]. intros v1 v2 C1 C2. unfold result. rewrite (proj1 (V k1 k2) _ _ Nk E1 E2). unfold now_pair.
    assert (Gd : forall q m v, current ds_col calc_col res_col g q m v -> get_data ds_col calc_col res_col g (q, m) = v).
    { intros q m v [[-> ->]|[[-> ->]|[-> ->]]]; reflexivity. }
    rewrite (Gd _ _ _ C1), (Gd _ _ _ C2). destruct v1; [destruct v2|]; reflexivity.
  - intros k1 k2 H. unfold result. now apply (proj2 (V k1 k2)).
Qed.
Print Assumptions C179_current.

(** every variable a user can name has a current value, so the theorem says
    something about each *)
Lemma current_total {Ds Rs Df D} ds_names res_names (ds_col calc_col res_col : att Ds Rs Df -> string -> res D) f r s n :
  available (sources_of_fit ds_names res_names f r) s n -> exists v, current ds_col calc_col res_col f s n v.
Proof. intros []; unfold current; eauto. cbn in H. contradiction. Qed.

(** without results there is nothing to compare: AttributeError, and nothing is cached *)
Theorem C179_before_fit : forall Ds Rs Df D ds_names res_names ds_col calc_col res_col unify reserved
    (f : att Ds Rs Df) (ops : list (mop Ds Rs Df)) k1 k2,
  forallb tracked ops = true -> a_res (attributes f ops) = None ->
  fst (access (D := D) ds_names res_names ds_col calc_col res_col unify reserved
     (mrun ds_names res_names ds_col calc_col res_col unify reserved f ops) k1 k2) = Err AttributeError.
Proof.
  intros Ds Rs Df D ds_names res_names ds_col calc_col res_col unify reserved f ops k1 k2 T Hr.
  pose proof (run_inv ds_names res_names ds_col calc_col res_col unify reserved f ops T) as I.
  pose proof (run_att ds_names res_names ds_col calc_col res_col unify reserved f ops) as A.
  assert (B : build (D := D) ds_names res_names reserved (m_att (mrun ds_names res_names ds_col calc_col res_col unify reserved f ops)) = Err AttributeError).
  { unfold build. now rewrite A, Hr. }
  unfold access. unfold minv in I. destruct (m_cur _) as [j|]; [|now rewrite B]. destruct I as (o & _ & ((o' & B' & _) & _)). rewrite B in B'. discriminate.
Qed.
Print Assumptions C179_before_fit.

(** a pair of series obtained from a kept result of fit.metric stays the same,
    whatever is done to the fit, as long as it is not evicted *)
Theorem C179_static_reference : forall Ds Rs Df D ds_names res_names ds_col calc_col res_col unify reserved
    (s : mstate Ds Rs Df D) j k1 k2 u ops,
  fst (held ds_col calc_col res_col unify s j k1 k2) = Ok u ->
  (forall a, In a ops -> kept j k1 k2 a) ->
  fst (held ds_col calc_col res_col unify
     (fold_left (mstep ds_names res_names ds_col calc_col res_col unify reserved) ops (snd (held ds_col calc_col res_col unify s j k1 k2))) j k1 k2) = Ok u.
Proof.
  intros Ds Rs Df D ds_names res_names ds_col calc_col res_col unify reserved s j k1 k2 u ops H N.
  set (good := fun t : mstate Ds Rs Df D => exists o sn1 sn2, nth_error (m_heap t) j = Some o /\ k1 <> k2 /\ resolve_key (o_keys o) k1 = Ok sn1 /\ resolve_key (o_keys o) k2 = Ok sn2 /\ c_u (o_cell o k1 k2) = Some u).
  assert (F : forall t, good t -> fst (held ds_col calc_col res_col unify t j k1 k2) = Ok u).
  { intros t (o & sn1 & sn2 & E & Nk & R1 & R2 & C). unfold held. rewrite E. unfold lookup. rewrite R1, R2, (proj2 (String.eqb_neq k1 k2) Nk). unfold eval_cell. rewrite C. reflexivity. }
  assert (G0 : good (snd (held ds_col calc_col res_col unify s j k1 k2))).
  { unfold held in *. destruct (nth_error (m_heap s) j) as [o|] eqn:E; [|discriminate]. unfold lookup in *. destruct (resolve_key (o_keys o) k1) as [sn1|] eqn:R1; [|discriminate]. destruct (resolve_key (o_keys o) k2) as [sn2|] eqn:R2; [|discriminate].
    destruct (String.eqb_spec k1 k2) as [|Nk]; [discriminate|]. destruct (eval_cell ds_col calc_col res_col unify (m_att s) sn1 sn2 (o_cell o k1 k2)) as [q c] eqn:V. cbn in H |- *. subst q.
    unfold good. cbn. exists (put_cell o k1 k2 c), sn1, sn2. split; [now apply (nth_upd_same _ _ _ o)|]. repeat split; try assumption. cbn. rewrite !String.eqb_refl. cbn.
    unfold eval_cell in V. destruct (c_u (o_cell o k1 k2)) eqn:U; [injection V as -> <-; exact U|]. destruct (cached _ _ _ _ _ sn1); [|discriminate]. cbn [c_d2] in V. destruct (cached _ _ _ _ _ sn2); [|discriminate]. destruct (unify _ _); [|discriminate]. now injection V as -> <-. }
  assert (Gl : forall t i q1 q2, good t -> good (snd (held ds_col calc_col res_col unify t i q1 q2))).
  { intros t i q1 q2 (o & sn1 & sn2 & E & Nk & R1 & R2 & C). unfold held. destruct (nth_error (m_heap t) i) as [p|] eqn:Ei; [|now exists o, sn1, sn2].
    pose proof (lookup_keys ds_col calc_col res_col unify (m_att t) p q1 q2) as Lk.
    destruct (lookup ds_col calc_col res_col unify (m_att t) p q1 q2) as [w p'] eqn:L. cbn [snd] in *. unfold good. cbn [m_heap]. destruct (Nat.eq_dec j i) as [<-|Ne].
    - rewrite E in Ei. injection Ei as <-. exists p', sn1, sn2. split; [now apply (nth_upd_same _ _ _ o)|]. rewrite Lk. repeat split; try assumption.
      unfold lookup in L. destruct (resolve_key (o_keys o) q1) as [t1|] eqn:Q1; [|injection L as _ <-; exact C]. destruct (resolve_key (o_keys o) q2) as [t2|] eqn:Q2; [|injection L as _ <-; exact C].
      destruct (String.eqb q1 q2); [injection L as _ <-; exact C|]. destruct (eval_cell _ _ _ _ (m_att t) t1 t2 (o_cell o q1 q2)) as [v c] eqn:V. injection L as _ <-. cbn.
      destruct (String.eqb_spec k1 q1) as [<-|]; [destruct (String.eqb_spec k2 q2) as [<-|]|]; cbn; try exact C.
      unfold eval_cell in V. rewrite C in V. injection V as _ <-. exact C.
    - exists o, sn1, sn2. rewrite nth_upd_other by exact Ne. repeat split; assumption. }
  apply F. clear F H. revert G0 N. generalize (snd (held ds_col calc_col res_col unify s j k1 k2)). clear s. induction ops as [|a l IH]; intros t G N; [exact G|]. cbn [fold_left]. apply IH; [|intros b Hb; apply N; now right].
  specialize (N a (or_introl eq_refl)). assert (Gh : forall t t' : mstate Ds Rs Df D, m_heap t' = m_heap t -> good t -> good t'). { unfold good. intros t1 t2 ->. tauto. }
  destruct a; cbn [mstep]; try (now apply Gl); try (apply (Gh t); [reflexivity|exact G]).
  - unfold access. destruct (m_cur t); [now apply Gl|]. destruct (build _ _ _ _) as [p|]; [|exact G]. apply Gl. destruct G as (o & sn1 & sn2 & E & X). exists o, sn1, sn2. cbn. split; [|exact X].
    rewrite nth_error_app1; [exact E|]. apply nth_error_Some. congruence.
  - destruct r; apply (Gh t); try reflexivity; exact G.
  - destruct (nth_error (m_heap t) j0) as [p|] eqn:Ei; [|exact G]. destruct G as (o & sn1 & sn2 & E & Nk & R1 & R2 & C). unfold good. cbn [m_heap]. destruct (Nat.eq_dec j j0) as [<-|Ne].
    + rewrite E in Ei. injection Ei as <-. eexists _, sn1, sn2. split; [now apply (nth_upd_same _ _ _ o)|]. cbn. repeat split; try assumption.
      destruct (String.eqb_spec k1 k0) as [<-|]; [destruct (String.eqb_spec k2 k3) as [<-|]|]; cbn; try exact C. exfalso. now apply (N e1 e2 eu).
    + exists o, sn1, sn2. rewrite nth_upd_other by exact Ne. repeat split; assumption.
Qed.
Print Assumptions C179_static_reference.

(** ** concrete sessions: a dataset with the column sig, results with SM; every
    series is a number *)
Definition eg_dsn (d : nat) : list string := ["sig"].
Definition eg_resn (r : nat) : list string := ["SM"].
Definition eg_ds (f : att nat nat nat) (n : string) : res nat := Ok (a_ds f).
Definition eg_calc (f : att nat nat nat) (n : string) : res nat := match a_res f with Some r => Ok (r + a_ds f) | None => Err AttributeError end.
Definition eg_res (f : att nat nat nat) (n : string) : res nat := match a_res f with Some r => Ok r | None => Err AttributeError end.
Definition eg_unify (x y : nat) : res (nat * nat) := Ok (x, y).
Definition eg_reserved (s : string) : bool := String.eqb s "_all_keys".
Notation eg_run := (mrun eg_dsn eg_resn eg_ds eg_calc eg_res eg_unify eg_reserved).
Notation eg_access := (access eg_dsn eg_resn eg_ds eg_calc eg_res eg_unify eg_reserved).
Definition eg_fit : att nat nat nat := mkatt 5 None 0 false.

Lemma eg_names (f : att nat nat nat) r : let src := sources_of_fit eg_dsn eg_resn f r in distinct_names src /\ suffix_free src.
Proof.
  split.
  - repeat split; repeat constructor; cbn; tauto.
  - intros s n A m t Ht E. assert (L : exists c, String.length n = c /\ c < 6) by (clear E; eexists; split; [reflexivity|]; destruct A; cbn in *; intuition (subst; cbn; lia)).
    destruct L as (c & <- & L). subst n. rewrite !slength_app in L. cbn in Ht, L. intuition (subst t; cbn in L; lia).
Qed.

(** a re-fit, a new dataset and evictions are all reflected *)
Example C179_example :
  let ops := [MFit (Some 1); MAccess "sig" "tot"; MEvict 0 "sig" "tot" true false true; MAccess "sig" "tot"; MDataset 7; MAccess "sig" "SM"; MFit (Some 2)] in
  forallb tracked ops = true /\ attributes eg_fit ops = mkatt 7 (Some 2) 0 false /\
  (let src := sources_of_fit eg_dsn eg_resn (attributes eg_fit ops) 2 in
   distinct_names src /\ unambiguous src /\ (forall k, In k (keys (all_keys src)) -> eg_reserved k = false)) /\
  fst (eg_access (eg_run eg_fit ops) "sig" "tot") = Ok (7, 9) /\
  fst (eg_access (eg_run eg_fit ops) "SM" "SM") = Err AttributeError /\
  fst (eg_access (eg_run eg_fit [MFit (Some 1); MAccess "sig" "tot"]) "sig" "tot") = Ok (5, 6) /\
  fst (eg_access (eg_run eg_fit [MDataset 7]) "sig" "tot") = Err AttributeError.
Proof.
  cbv zeta. split; [reflexivity|]. split; [reflexivity|]. split.
  - destruct (eg_names (mkatt 7 (Some 2) 0 false) 2) as [A B]. split; [exact A|]. split; [apply suffix_free_unambiguous; exact B|]. vm_compute. intros k H. intuition (subst; reflexivity).
  - vm_compute. repeat split; reflexivity.
Qed.

(** the reference kept by the user: the old pair, also after a new fit *)
Example C179_static_example :
  let s := eg_run eg_fit [MFit (Some 1); MAccess "sig" "tot"] in
  fst (held eg_ds eg_calc eg_res eg_unify s 0 "sig" "SM") = Ok (5, 1) /\
  fst (held eg_ds eg_calc eg_res eg_unify (eg_run eg_fit [MFit (Some 1); MHeld 0 "sig" "SM"; MAccess "sig" "SM"; MFit (Some 3); MAccess "sig" "SM"]) 0 "sig" "SM") = Ok (5, 1).
Proof. vm_compute. split; reflexivity. Qed.

(** ** what is not noticed *)
(** performfit(clear_cache=False), an assignment to res_dict, and
    MultiFits.set_dataset leave the metrics of the old results (dataset) in
    place; after a change of int_Q the new component has no metrics *)
Theorem C179_unnoticed_refuted :
  let stale a := fst (eg_access (eg_run eg_fit [MFit (Some 1); MAccess "sig" "tot"; a]) "sig" "tot") in
  let fresh a := fst (eg_access (eg_run (attributes eg_fit [MFit (Some 1); a]) []) "sig" "tot") in
  (forall a, In a [MFitKeep 2; MRes 2; MMulti 9] -> stale a = Ok (5, 6) /\ fresh a <> Ok (5, 6)) /\
  fst (eg_access (eg_run eg_fit [MFit (Some 1); MAccess "sig" "tot"; MInt true]) "sig" "inter") = Err AttributeError /\
  fst (eg_access (eg_run (attributes eg_fit [MFit (Some 1); MInt true]) []) "sig" "inter") = Ok (5, 6).
Proof.
  cbv zeta. split.
  - intros a [<-|[<-|[<-|[]]]]; vm_compute; (split; [reflexivity|discriminate]).
  - vm_compute. split; reflexivity.
Qed.
Print Assumptions C179_unnoticed_refuted.

(** ... and a kept reference of which one series was evicted compares the old
    values of one variable with the new values of the other *)
Theorem C179_mixed_refuted :
  fst (held eg_ds eg_calc eg_res eg_unify (eg_run eg_fit [MFit (Some 1); MAccess "sig" "SM"; MDataset 7; MFit (Some 2); MEvict 0 "sig" "SM" true false true]) 0 "sig" "SM") = Ok (7, 1).
Proof. vm_compute. reflexivity. Qed.
Print Assumptions C179_mixed_refuted.
