(** Lemmas on caches of the scattering functions. *)
From Coq Require Import List Arith Bool String Lia.
From Verif Require Import Base Kwd_Model Cch_Model Cch_Spec.
Import ListNotations.
Local Open Scope list_scope.

Section LruP.
Context {K A : Type}.
Variable dec : forall x y : K, {x = y} + {x <> y}.

Lemma lget_drop : forall (c : lru K A) k j, j <> k -> lget dec (ldrop dec c k) j = lget dec c j.
Proof.
  intros c k j H. induction c as [|[q x] r IH]; [reflexivity|]. cbn [ldrop filter fst lget]. fold (ldrop dec r k).
  destruct (dec q k) as [->|]; [destruct (dec k j); [congruence|]; apply IH|]. cbn [lget]. destruct (dec q j); [reflexivity|apply IH].
Qed.
Lemma lget_firstn : forall n (c : lru K A) k x, lget dec (firstn n c) k = Some x -> lget dec c k = Some x.
Proof.
  induction n as [|n IH]; intros [|[q y] r] k x; try discriminate. cbn [firstn lget]. destruct (dec q k); [tauto|]. apply IH.
Qed.
Lemma put_same : forall n (c : lru K A) k x, 1 <= n -> lget dec (lput dec n c k x) k = Some x.
Proof.
  intros n c k x H. unfold lput. destruct (lget dec c k); [|destruct n; [lia|]; cbn [firstn]]; cbn [lget]; destruct (dec k k); congruence.
Qed.
Lemma put_other : forall n (c : lru K A) k x j y, j <> k -> lget dec (lput dec n c k x) j = Some y -> lget dec c j = Some y.
Proof.
  intros n c k x j y H. unfold lput. destruct (lget dec c k).
  - cbn [lget]. destruct (dec k j); [congruence|]. rewrite lget_drop; auto.
  - intros E. apply lget_firstn in E. cbn [lget] in E. destruct (dec k j); [congruence|exact E].
Qed.
(** the entry of a key is at most that of the last use *)
Lemma put_any : forall n (c : lru K A) k x j y, lget dec (lput dec n c k x) j = Some y -> (j = k /\ y = x) \/ (j <> k /\ lget dec c j = Some y).
Proof.
  intros n c k x j y E. destruct (dec j k) as [->|H].
  - left. split; [reflexivity|]. unfold lput in E. destruct (lget dec c k).
    + cbn [lget] in E. destruct (dec k k); congruence.
    + apply lget_firstn in E. cbn [lget] in E. destruct (dec k k); congruence.
  - right. split; [exact H|]. eapply put_other; eauto.
Qed.

(** position in the cache: an entry moves back by one for each other key *)
Definition at_least (c : lru K A) (k : K) (d : nat) : Prop := forall i x, nth_error c i = Some (k, x) -> d <= i.
Lemma lget_none_notin : forall (c : lru K A) k, lget dec c k = None <-> ~ In k (map fst c).
Proof.
  intros c k. induction c as [|[q x] r IH]; cbn; [tauto|]. destruct (dec q k); split; intros; try discriminate; subst; intuition congruence.
Qed.
End LruP.

Section CchP.
Context {V A L E : Type}.
Variable efunc : cls -> V -> A -> E.
Variable elegc : cls -> V -> A -> L.
Variable n : nat.
Notation step := (cstep efunc elegc n).
Notation run := (crun efunc elegc n).
Notation cst := (cstate V A L E).
Notation obj := (sobj V A).

(** expressions of the current attributes *)
Definition cur_f (p : obj) : E := efunc (s_cls p) (s_t p) (s_a p).
Definition cur_l (p : obj) : L := elegc (s_cls p) (s_t p) (s_a p).
(** all entries satisfy a predicate *)
Definition Inv (P : nat -> E -> Prop) (Q : nat -> L -> Prop) (s : cst) : Prop :=
  (forall c o e, lget Nat.eq_dec (c_func s c) o = Some e -> P o e) /\
  (forall c o l, lget Nat.eq_dec (c_legc s c) o = Some l -> Q o l) /\
  (forall b o ns e, lget key_dec (c_lam s b) (o, ns) = Some e -> P o e).

Lemma inv_func : forall P Q s o, Inv P Q s -> P o (cur_f (c_obj s o)) -> P o (fst (get_func efunc n s o)) /\ Inv P Q (snd (get_func efunc n s o)) /\ c_obj (snd (get_func efunc n s o)) = c_obj s.
Proof.
  intros P Q s o (I1 & I2 & I3) H. unfold get_func. cbn [fst snd c_obj].
  set (e := match lget Nat.eq_dec (c_func s (s_cls (c_obj s o))) o with Some e => e | None => _ end).
  assert (Pe : P o e) by (unfold e; destruct (lget _ _ _) eqn:G; [eapply I1; eauto|exact H]).
  split; [exact Pe|]. split; [|reflexivity]. split; [|split; [exact I2|exact I3]].
  intros c q x. cbn [c_func]. unfold cset. destruct (cls_dec c _) as [->|]; [|apply I1]. intros G. apply put_any in G. destruct G as [[-> ->]|[_ G]]; [exact Pe|eapply I1; eauto].
Qed.
Lemma inv_legc : forall P Q s o, Inv P Q s -> Q o (cur_l (c_obj s o)) -> Q o (fst (get_legc elegc n s o)) /\ Inv P Q (snd (get_legc elegc n s o)) /\ c_obj (snd (get_legc elegc n s o)) = c_obj s.
Proof.
  intros P Q s o (I1 & I2 & I3) H. unfold get_legc. cbn [fst snd c_obj].
  set (e := match lget Nat.eq_dec (c_legc s (s_cls (c_obj s o))) o with Some e => e | None => _ end).
  assert (Pe : Q o e) by (unfold e; destruct (lget _ _ _) eqn:G; [eapply I2; eauto|exact H]).
  split; [exact Pe|]. split; [|reflexivity]. split; [exact I1|split; [|exact I3]].
  intros c q x. cbn [c_legc]. unfold cset. destruct (cls_dec c _) as [->|]; [|apply I2]. intros G. apply put_any in G. destruct G as [[-> ->]|[_ G]]; [exact Pe|eapply I2; eauto].
Qed.
Lemma inv_lamput : forall P Q (s : cst) b o ns e, Inv P Q s -> P o e -> Inv P Q (mkc (c_obj s) (c_func s) (c_legc s) (bset (c_lam s) b (lput key_dec n (c_lam s b) (o, ns) e))).
Proof.
  intros P Q s b o ns e (I1 & I2 & I3) H. split; [exact I1|]. split; [exact I2|]. intros d q ms x. cbn [c_lam]. unfold bset. destruct (Bool.eqb_spec d b) as [->|]; [|apply I3].
  intros G. apply put_any in G. destruct G as [[Eq ->]|[_ G]]; [inversion Eq; subst; exact H|eapply I3; eauto].
Qed.
Lemma inv_lam : forall P Q s o ns, Inv P Q s -> P o (cur_f (c_obj s o)) -> P o (fst (get_lam efunc n s o ns)) /\ Inv P Q (snd (get_lam efunc n s o ns)) /\ c_obj (snd (get_lam efunc n s o ns)) = c_obj s.
Proof.
  intros P Q s o ns I H. unfold get_lam. destruct (lget key_dec (c_lam s _) (o, ns)) as [e|] eqn:G.
  - cbn [fst snd c_obj]. assert (Pe : P o e) by (destruct I as (_ & _ & I3); eapply I3; eauto). split; [exact Pe|]. split; [now apply inv_lamput|reflexivity].
  - destruct (inv_func P Q s o I H) as (Pe & I' & Eo). destruct (get_func efunc n s o) as [e s']. cbn [fst snd] in *. split; [exact Pe|]. split; [now apply inv_lamput|exact Eo].
Qed.
Lemma inv_value : forall P Q s o ns, Inv P Q s -> P o (cur_f (c_obj s o)) -> P o (fst (value efunc n s o ns)) /\ Inv P Q (snd (value efunc n s o ns)) /\ c_obj (snd (value efunc n s o ns)) = c_obj s.
Proof.
  intros P Q s o ns I H. unfold value. destruct (numeric _); [|now apply inv_lam]. cbn [fst snd]. auto.
Qed.
Lemma inv_expand : forall P Q s o, Inv P Q s -> Q o (cur_l (c_obj s o)) ->
  Q o (fst (fst (fst (expansion elegc n s o)))) /\ Inv P Q (snd (expansion elegc n s o)) /\ c_obj (snd (expansion elegc n s o)) = c_obj s.
Proof.
  intros P Q s o I H. unfold expansion. destruct (inv_legc P Q s o I H) as (Pe & I' & Eo). destruct (get_legc elegc n s o) as [l s']. cbn [fst snd] in *. auto.
Qed.

Lemma inv_step : forall P Q s x, Inv P Q s -> (forall o, P o (cur_f (c_obj s o))) -> (forall o, Q o (cur_l (c_obj s o))) -> Inv P Q (step s x).
Proof.
  intros P Q s x I HP HQ. destruct x as [o ns|o|o|o v|o a|o k]; cbn [cstep]; try exact I.
  - now apply inv_value.
  - unfold slope. now apply inv_func.
  - now apply inv_expand.
Qed.

(** what an operation does to the objects *)
Lemma obj_step : forall s x o, c_obj (step s x) o =
  match x with
  | SetT q v => if Nat.eqb o q then mks (s_cls (c_obj s o)) v (s_a (c_obj s o)) (s_n (c_obj s o)) else c_obj s o
  | SetA q a => if Nat.eqb o q then mks (s_cls (c_obj s o)) (s_t (c_obj s o)) a (s_n (c_obj s o)) else c_obj s o
  | SetN q k => if Nat.eqb o q then mks (s_cls (c_obj s o)) (s_t (c_obj s o)) (s_a (c_obj s o)) (match fixed (s_cls (c_obj s o)) with Some _ => s_n (c_obj s o) | None => k end) else c_obj s o
  | _ => c_obj s o
  end.
Proof.
  intros s x o. assert (I : Inv (fun _ _ => True) (fun _ _ => True) s) by (repeat split).
  destruct x as [q ns|q|q|q v|q a|q k]; cbn [cstep]; try reflexivity.
  now destruct (inv_value _ _ s q ns I Logic.I) as (_ & _ & ->).
Qed.

Lemma run_snoc : forall init ops x, run init (ops ++ [x]) = step (run init ops) x.
Proof. intros. unfold crun. now rewrite fold_left_app. Qed.

Lemma last_t_snoc : forall ops x o v, last_t (V:=V) (A:=A) (ops ++ [x]) o v = match x with SetT q w => if Nat.eqb q o then w else last_t ops o v | _ => last_t ops o v end.
Proof. induction ops as [|y r IH]; intros x o v; [destruct x; reflexivity|]. destruct y; cbn [app last_t]; apply IH. Qed.
Lemma last_a_snoc : forall ops x o v, last_a (V:=V) (A:=A) (ops ++ [x]) o v = match x with SetA q w => if Nat.eqb q o then w else last_a ops o v | _ => last_a ops o v end.
Proof. induction ops as [|y r IH]; intros x o v; [destruct x; reflexivity|]. destruct y; cbn [app last_a]; apply IH. Qed.
Lemma last_n_snoc : forall ops x o v, last_n (V:=V) (A:=A) (ops ++ [x]) o v = match x with SetN q w => if Nat.eqb q o then w else last_n ops o v | _ => last_n ops o v end.
Proof. induction ops as [|y r IH]; intros x o v; [destruct x; reflexivity|]. destruct y; cbn [app last_n]; apply IH. Qed.

Lemma obj_run : forall init ops o, c_obj (run init ops) o =
  mks (s_cls (init o)) (last_t ops o (s_t (init o))) (last_a ops o (s_a (init o))) (match fixed (s_cls (init o)) with Some _ => s_n (init o) | None => last_n ops o (s_n (init o)) end).
Proof.
  intros init ops o. induction ops as [|x ops IH] using rev_ind.
  - cbn. destruct (init o) as [c t a k]. cbn. destruct (fixed c); reflexivity.
  - rewrite run_snoc, obj_step, IH, last_t_snoc, last_a_snoc, last_n_snoc. destruct x as [q ns|q|q|q v|q a|q k]; cbn [s_cls s_t s_a s_n]; try reflexivity; rewrite (Nat.eqb_sym q o); destruct (Nat.eqb o q); try reflexivity; destruct (fixed _); reflexivity.
Qed.

(** every entry is of some earlier time *)
Definition was_f (init : nat -> obj) (ops : list (cop V A)) (o : nat) (e : E) : Prop :=
  exists ops1 ops2, ops = ops1 ++ ops2 /\ e = efunc (s_cls (init o)) (last_t ops1 o (s_t (init o))) (last_a ops1 o (s_a (init o))).
Definition was_l (init : nat -> obj) (ops : list (cop V A)) (o : nat) (l : L) : Prop :=
  exists ops1 ops2, ops = ops1 ++ ops2 /\ l = elegc (s_cls (init o)) (last_t ops1 o (s_t (init o))) (last_a ops1 o (s_a (init o))).
Lemma cur_was_f : forall init ops o, was_f init ops o (cur_f (c_obj (run init ops) o)).
Proof. intros. exists ops, []. rewrite app_nil_r, obj_run. auto. Qed.
Lemma cur_was_l : forall init ops o, was_l init ops o (cur_l (c_obj (run init ops) o)).
Proof. intros. exists ops, []. rewrite app_nil_r, obj_run. auto. Qed.
Lemma inv_weaken : forall (P P' : nat -> E -> Prop) (Q Q' : nat -> L -> Prop) s, (forall o e, P o e -> P' o e) -> (forall o l, Q o l -> Q' o l) -> Inv P Q s -> Inv P' Q' s.
Proof. intros P P' Q Q' s H1 H2 (I1 & I2 & I3). split; [eauto|]. split; eauto. Qed.
Lemma past : forall init ops, Inv (was_f init ops) (was_l init ops) (run init ops).
Proof.
  intros init ops. induction ops as [|x ops IH] using rev_ind.
  - split; [|split]; cbn; discriminate.
  - rewrite run_snoc. eapply inv_weaken; [| |apply inv_step; [exact IH|apply cur_was_f|apply cur_was_l]].
    + intros o e (u & w & -> & ->). exists u, (w ++ [x]). now rewrite app_assoc.
    + intros o e (u & w & -> & ->). exists u, (w ++ [x]). now rewrite app_assoc.
Qed.

(** nothing is cached of an object that was not evaluated *)
Lemma inv_other : forall s x o, ~ evaluates o x ->
  Inv (fun q _ => q <> o) (fun q _ => q <> o) s -> Inv (fun q _ => q <> o) (fun q _ => q <> o) (step s x).
Proof.
  intros s x o N I. destruct x as [q ns|q|q|q v|q a|q k]; cbn [cstep evaluates] in *; try exact I.
  - apply inv_value; assumption.
  - unfold slope. apply inv_func; assumption.
  - apply inv_expand; assumption.
Qed.
Lemma unused : forall init ops o, Forall (fun x => ~ evaluates o x) ops -> Inv (fun q _ => q <> o) (fun q _ => q <> o) (run init ops).
Proof.
  intros init ops o. induction ops as [|x ops IH] using rev_ind; intros H.
  - split; [|split]; cbn; discriminate.
  - apply Forall_app in H. destruct H as [H1 H2]. rewrite run_snoc. apply inv_other; [now inversion H2|auto].
Qed.
Lemma keep_t : forall ops o v w, Forall (fun x => ~ changes o x) ops -> last_t (V:=V) (A:=A) ops o v = v /\ last_a (V:=V) (A:=A) ops o w = w.
Proof.
  induction ops as [|x r IH]; intros o v w H; [split; reflexivity|]. inversion H as [|? ? Hx Hr]; subst. destruct x as [q ns|q|q|q t|q a|q k]; cbn [last_t last_a changes] in *; try (now apply IH).
  - destruct (Nat.eqb_spec q o); [congruence|now apply IH].
  - destruct (Nat.eqb_spec q o); [congruence|now apply IH].
Qed.
Lemma fresh : forall init ops1 ops2 o, Forall (fun x => ~ evaluates o x) ops1 -> Forall (fun x => ~ changes o x) ops2 ->
  Inv (fun q e => q = o -> e = cur_f (c_obj (run init (ops1 ++ ops2)) o)) (fun q l => q = o -> l = cur_l (c_obj (run init (ops1 ++ ops2)) o)) (run init (ops1 ++ ops2)).
Proof.
  intros init ops1 ops2 o H1. induction ops2 as [|x r IH] using rev_ind; intros H2.
  - rewrite app_nil_r. eapply inv_weaken; [| |apply unused; eassumption]; cbn; congruence.
  - apply Forall_app in H2. destruct H2 as [Hr Hx]. inversion Hx as [|? ? Hx1 _]; subst. specialize (IH Hr). rewrite app_assoc, run_snoc.
    set (s := run init (ops1 ++ r)) in *.
    assert (F : cur_f (c_obj (step s x) o) = cur_f (c_obj s o) /\ cur_l (c_obj (step s x) o) = cur_l (c_obj s o)).
    { rewrite obj_step. destruct x as [q ns|q|q|q v|q a|q k]; cbn [changes] in Hx1; try (split; reflexivity); destruct (Nat.eqb_spec o q); try (exfalso; congruence); split; reflexivity. }
    destruct F as [-> ->]. apply inv_step; [exact IH| |]; intros q ->; reflexivity.
Qed.
End CchP.
