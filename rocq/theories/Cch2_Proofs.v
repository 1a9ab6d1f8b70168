(** Lemmas on caches of the scattering functions: stale entries and evictions. *)
From Coq Require Import List Arith Bool String Lia.
From Verif Require Import Base Kwd_Model Cch_Model Cch_Spec Cch_Proofs.
Import ListNotations.
Local Open Scope list_scope.

Section C2.
Context {V A L E : Type}.
Variable efunc : cls -> V -> A -> E.
Variable elegc : cls -> V -> A -> L.
Variable n : nat.
Notation step := (cstep efunc elegc n).
Notation run := (crun efunc elegc n).
Notation cst := (cstate V A L E).

Definition same_caches (s s' : cst) : Prop := c_func s' = c_func s /\ c_legc s' = c_legc s /\ c_lam s' = c_lam s /\ forall o, s_cls (c_obj s' o) = s_cls (c_obj s o).
Lemma assign_caches : forall ops s, Forall assigns ops -> same_caches s (fold_left step ops s).
Proof.
  induction ops as [|x r IH]; intros s H; [repeat split|]. inversion H as [|? ? Hx Hr]; subst. cbn [fold_left]. specialize (IH (step s x) Hr).
  assert (S : same_caches s (step s x)).
  { destruct x; cbn in Hx; try contradiction; cbn [cstep]; (split; [reflexivity|split; [reflexivity|split; [reflexivity|]]]); intros q; cbn [cupd c_obj]; destruct (Nat.eqb q _); reflexivity. }
  destruct S as (S1 & S2 & S3 & S4), IH as (I1 & I2 & I3 & I4). repeat split; intros; congruence.
Qed.
Lemma cset_same : forall X (f : cls -> X) c x, cset f c x c = x.
Proof. intros. unfold cset. destruct (cls_dec c c); congruence. Qed.
Lemma bset_same : forall X (f : bool -> X) b x, bset f b x b = x.
Proof. intros. unfold bset. now rewrite Bool.eqb_reflx. Qed.
Lemma obj_lam : forall (s : cst) o ns, c_obj (snd (get_lam efunc n s o ns)) = c_obj s.
Proof. intros. unfold get_lam. destruct (lget key_dec _ _); reflexivity. Qed.

Lemma lam_cached : forall (s : cst) o ns, 1 <= n ->
  lget key_dec (c_lam (snd (get_lam efunc n s o ns)) (surface (s_cls (c_obj s o)))) (o, ns) = Some (fst (get_lam efunc n s o ns)).
Proof.
  intros s o ns H. unfold get_lam, get_func. cbv zeta. destruct (lget key_dec (c_lam s _) (o, ns)); cbn [fst snd c_lam]; rewrite bset_same; now apply put_same.
Qed.
Lemma lam_stale : forall (s s' : cst) o ns, 1 <= n -> same_caches (snd (get_lam efunc n s o ns)) s' -> fst (get_lam efunc n s' o ns) = fst (get_lam efunc n s o ns).
Proof.
  intros s s' o ns H (_ & _ & S3 & S4). pose proof (lam_cached s o ns H) as C. unfold get_lam at 1. rewrite S4, S3, obj_lam, C. reflexivity.
Qed.
Lemma value_stale : forall (s s' : cst) o ns, 1 <= n -> numeric (s_cls (c_obj s o)) = false -> same_caches (snd (value efunc n s o ns)) s' -> fst (value efunc n s' o ns) = fst (value efunc n s o ns).
Proof.
  intros s s' o ns H N S. unfold value in *. rewrite N in *. assert (C : s_cls (c_obj s' o) = s_cls (c_obj s o)) by (destruct S as (_ & _ & _ & ->); now rewrite obj_lam).
  rewrite C, N. now apply lam_stale.
Qed.
Lemma func_stale : forall (s s' : cst) o, 1 <= n -> same_caches (snd (slope efunc n s o)) s' -> fst (slope efunc n s' o) = fst (slope efunc n s o).
Proof.
  intros s s' o H (S1 & _ & _ & S4). unfold slope, get_func in *. cbn [fst snd c_obj c_func] in *. rewrite S4, S1, cset_same, put_same by exact H. reflexivity.
Qed.
Lemma expand_stale : forall (s s' : cst) o, 1 <= n -> same_caches (snd (expansion elegc n s o)) s' -> fst (fst (fst (expansion elegc n s' o))) = fst (fst (fst (expansion elegc n s o))).
Proof.
  intros s s' o H (_ & S2 & _ & S4). unfold expansion, get_legc in *. cbn [fst snd c_obj c_legc] in *. rewrite S4, S2, cset_same, put_same by exact H. reflexivity.
Qed.

(** no coefficients are cached of an object without expansions *)
Lemma no_legc : forall ops init o, Forall (fun x => ~ expands o x) ops -> forall c, lget Nat.eq_dec (c_legc (run init ops) c) o = None.
Proof.
  intros ops init o. induction ops as [|x ops IH] using rev_ind; intros H c; [reflexivity|]. apply Forall_app in H. destruct H as [H1 H2]. inversion H2 as [|? ? Hx _]; subst. specialize (IH H1).
  rewrite run_snoc. set (s := run init ops) in *. destruct x as [q ns|q|q|q v|q a|q k]; cbn [cstep]; try apply IH.
  - unfold value. destruct (numeric _); [apply IH|]. unfold get_lam. destruct (lget key_dec _ _); apply IH.
  - cbn in Hx. destruct (lget Nat.eq_dec (c_legc (snd (expansion elegc n s q)) c) o) eqn:G; [|reflexivity]. unfold expansion, get_legc in G. cbn [snd c_legc] in G. unfold cset in G.
    destruct (cls_dec c _) as [->|]; [|congruence]. apply put_other in G; [congruence|auto].
Qed.

(** eviction *)
Lemma put_miss : forall K X (dec : forall x y : K, {x = y} + {x <> y}) (c : lru K X) k x, ~ In k (map fst c) -> map fst (lput dec n c k x) = firstn n (k :: map fst c).
Proof.
  intros K X dec c k x H. unfold lput. rewrite (proj2 (lget_none_notin dec c k) H). rewrite <- firstn_map. reflexivity.
Qed.
Lemma firstn_cons_firstn : forall X m (x : X) l, firstn m (x :: firstn m l) = firstn m (x :: l).
Proof. intros X [|m] x l; [reflexivity|]. rewrite !firstn_cons. f_equal. rewrite firstn_firstn. f_equal. lia. Qed.

Lemma others : forall c ns qs (s : cst) ks, numeric c = false -> (forall q, In q qs -> s_cls (c_obj s q) = c) ->
  NoDup qs -> (forall q, In q qs -> ~ In q ks) ->
  map fst (c_func s c) = firstn n ks -> map fst (c_lam s (surface c)) = map (fun q => (q, ns)) (firstn n ks) ->
  let s' := fold_left step (map (fun q => Value q ns) qs) s in
  c_obj s' = c_obj s /\ map fst (c_func s' c) = firstn n (rev qs ++ ks) /\ map fst (c_lam s' (surface c)) = map (fun q => (q, ns)) (firstn n (rev qs ++ ks)).
Proof.
  intros c ns qs. induction qs as [|q r IH]; intros s ks N HC ND HK HF HL; [cbn; auto|].
  inversion ND as [|? ? Nq Nr]; subst. cbn [map fold_left rev]. rewrite <- app_assoc. cbn [app].
  assert (Cq : s_cls (c_obj s q) = c) by (apply HC; now left).
  assert (Qk : ~ In q (firstn n ks)). { intros I. apply (HK q); [now left|]. rewrite <- (firstn_skipn n ks). apply in_or_app. now left. }
  assert (S1 : step s (Value q ns) = snd (get_lam efunc n s q ns)) by (cbn [cstep]; unfold value; rewrite Cq, N; reflexivity).
  assert (G1 : lget key_dec (c_lam s (surface c)) (q, ns) = None).
  { apply lget_none_notin. rewrite HL. intros I. apply in_map_iff in I. destruct I as (z & Ez & Iz). inversion Ez; subst. contradiction. }
  assert (S2 : snd (get_lam efunc n s q ns) = let s1 := snd (get_func efunc n s q) in mkc (c_obj s1) (c_func s1) (c_legc s1) (bset (c_lam s1) (surface c) (lput key_dec n (c_lam s1 (surface c)) (q, ns) (fst (get_func efunc n s q))))).
  { unfold get_lam. rewrite Cq, G1. reflexivity. }
  rewrite S1, S2. cbv zeta. unfold get_func. cbn [fst snd c_obj c_func c_legc c_lam]. rewrite Cq.
  match goal with |- context [fold_left step _ ?S] => set (s1 := S) end.
  assert (F1 : map fst (c_func s1 c) = firstn n (q :: ks)). { unfold s1. cbn [c_func]. rewrite cset_same, put_miss by (rewrite HF; exact Qk). now rewrite HF, firstn_cons_firstn. }
  assert (L1 : map fst (c_lam s1 (surface c)) = map (fun z => (z, ns)) (firstn n (q :: ks))).
  { unfold s1. cbn [c_lam]. rewrite bset_same, put_miss by (apply (lget_none_notin key_dec); exact G1). rewrite HL. change ((q, ns) :: map (fun z => (z, ns)) (firstn n ks)) with (map (fun z => (z, ns)) (q :: firstn n ks)). now rewrite firstn_map, firstn_cons_firstn. }
  destruct (IH s1 (q :: ks) N) as (O & F & LL); auto.
  - intros z Hz. unfold s1. cbn [c_obj]. apply HC. now right.
  - intros z Hz [->|Hk]; [contradiction|]. apply (HK z); [now right|exact Hk].
Qed.
End C2.
