(** The derivative functions that the jacobian uses (C185) *)
From Coq Require Import String List Arith Bool Lia.
From Verif Require Import Base Base_Proofs Dlc_Model Dlc_Spec.
Import ListNotations.

Section P.
Context {F : Type}.
Variable n : nat.
Notation state := (dstate F).

Lemma keq_iff a b : keq a b = true <-> a = b.
Proof. destruct a as [a1 a2], b as [b1 b2]. unfold keq. cbn [fst snd]. rewrite andb_true_iff, Nat.eqb_eq. destruct (string_dec a2 b2) as [E|E]; split; intros H; [destruct H; congruence|split; congruence|destruct H; discriminate|congruence]. Qed.
Lemma cfind_in (c : @dcache F) k x : cfind c k = Some x -> In (k, x) c.
Proof. induction c as [|[k' y] c IH]; cbn; [discriminate|]. destruct (keq k k') eqn:E; [|auto]. apply keq_iff in E. subst. intros H. injection H as ->. auto. Qed.
Lemma ccall_in (c : @dcache F) k new e : In e (snd (ccall n c k new)) -> In e c \/ (cfind c k = None /\ e = (k, new)).
Proof.
  unfold ccall. destruct (cfind c k) as [x|] eqn:E; cbn [snd].
  - intros [<-|I]; [left; apply cfind_in, E|]. apply filter_In in I. tauto.
  - unfold cmiss. intros I. assert (J := In_nth_error _ _ I). assert (I2 : In e ((k, new) :: c)). { clear - I. revert I. generalize ((k, new) :: c). clear. intros l. revert l. induction n as [|m IH]; intros [|y l]; cbn; try tauto. intros [->|I]; auto. }
    destruct I2 as [<-|I2]; auto.
Qed.
Lemma ccall_val (c : @dcache F) k new : fst (ccall n c k new) = new \/ In (k, fst (ccall n c k new)) c.
Proof. unfold ccall. destruct (cfind c k) as [x|] eqn:E; cbn; [right; apply cfind_in, E|auto]. Qed.

Lemma run_snoc init ops (a : dop F) : drun n init (ops ++ [a]) = dstep n (drun n init ops) a.
Proof. unfold drun. rewrite fold_left_app. reflexivity. Qed.
Lemma objs_snoc init ops (a : dop F) : objs init (ops ++ [a]) = obj_step (objs init ops) a.
Proof. unfold objs. rewrite fold_left_app. reflexivity. Qed.
Lemma jac_obj (s : state) o key : d_obj (snd (jac n s o key)) = d_obj s.
Proof.
  unfold jac. destruct (negb _); [reflexivity|]. destruct (ccall n (d_srf s) _ _) as [f c]. destruct (apply_fun f _); [|reflexivity].
  cbn [d_vol]. destruct (ccall n (d_vol s) _ _) as [g c']. destruct (apply_fun g _); reflexivity.
Qed.
Lemma run_obj (init : nat -> robj F) (ops : list (dop F)) o : d_obj (drun n init ops) o = objs init ops o.
Proof.
  revert o. induction ops as [|a ops IH] using rev_ind; intros o; [reflexivity|]. rewrite run_snoc, objs_snoc. destruct a; cbn; try (unfold set_obj; rewrite ?IH; destruct (Nat.eqb o o0); [|reflexivity]; rewrite ?IH; reflexivity); try apply IH.
  rewrite jac_obj. apply IH.
Qed.
Lemma jac_srf (s : state) o key e : In e (d_srf (snd (jac n s o key))) -> In e (d_srf s) \/ e = ((o, key), (o_srf (d_obj s o), key, o_names (d_obj s o))).
Proof.
  unfold jac. destruct (negb _); [auto|]. assert (X := ccall_in (d_srf s) (o, key) (o_srf (d_obj s o), key, o_names (d_obj s o)) e).
  destruct (ccall n (d_srf s) _ _) as [f c]. cbn [snd] in X. destruct (apply_fun f _).
  - cbn [d_vol]. destruct (ccall n (d_vol s) _ _) as [g c']. destruct (apply_fun g _); cbn; intros I; destruct (X I) as [Y|[_ Y]]; auto.
  - cbn. intros I; destruct (X I) as [Y|[_ Y]]; auto.
Qed.
Lemma jac_vol (s : state) o key e : In e (d_vol (snd (jac n s o key))) -> In e (d_vol s) \/ e = ((o, key), (o_v (d_obj s o), key, o_names (d_obj s o))).
Proof.
  unfold jac. destruct (negb _); [auto|]. destruct (ccall n (d_srf s) _ _) as [f c]. destruct (apply_fun f _); [|auto]. cbn [d_vol].
  assert (X := ccall_in (d_vol s) (o, key) (o_v (d_obj s o), key, o_names (d_obj s o)) e).
  destruct (ccall n (d_vol s) _ _) as [g c']. cbn [snd] in X. destruct (apply_fun g _); cbn; intros I; destruct (X I) as [Y|[_ Y]]; auto.
Qed.
(** the names of other objects do not matter; an entry belongs to an evaluation *)
Lemma entries (init : nat -> robj F) ops o key f : (In ((o, key), f) (d_srf (drun n init ops)) \/ In ((o, key), f) (d_vol (drun n init ops))) -> exists l r, ops = l ++ DJac o key :: r.
Proof.
  induction ops as [|a ops IH] using rev_ind; [cbn; tauto|]. rewrite run_snoc. intros H.
  assert (G : (In ((o, key), f) (d_srf (drun n init ops)) \/ In ((o, key), f) (d_vol (drun n init ops))) \/ a = DJac o key).
  { destruct a; cbn in H; auto; [destruct H as [[]|H]; auto|]. destruct H as [H|H]; [apply jac_srf in H|apply jac_vol in H]; (destruct H as [H|H]; [auto|injection H as -> -> _; auto]). }
  destruct G as [G| ->]; [|exists ops, []; reflexivity]. destruct (IH G) as (l & r & ->). exists l, (r ++ [a]). rewrite <- app_assoc. reflexivity.
Qed.

(** entries of [o] in both caches are made from what [o] is *)
Definition srf_ok (s : state) (o : nat) : Prop := forall key f, In ((o, key), f) (d_srf s) -> f = (o_srf (d_obj s o), key, o_names (d_obj s o)).
Definition vol_ok (s : state) (o : nat) : Prop := forall key f, In ((o, key), f) (d_vol s) -> f = (o_v (d_obj s o), key, o_names (d_obj s o)).

Lemma srf_step s a o : srf_ok s o -> ~ changes_srf o a -> ~ changes_names o a -> srf_ok (dstep n s a) o.
Proof.
  intros H N1 N2. destruct a as [q d|q d|q l| |q k]; cbn.
  - intros key f I. cbn in I. cbn. unfold set_obj. destruct (Nat.eqb_spec o q) as [->|N]; [elim N1; exists d; reflexivity|]. auto.
  - intros key f I. cbn in I. cbn. unfold set_obj. rewrite (H key f I). destruct (Nat.eqb_spec o q) as [->|N]; reflexivity.
  - intros key f I. cbn in I. cbn. unfold set_obj. destruct (Nat.eqb_spec o q) as [->|N]; [elim N2; exists l; reflexivity|]. auto.
  - intros key f [].
  - intros key f I. rewrite jac_obj. apply jac_srf in I. destruct I as [I|I]; [auto|]. injection I as <- <- ->. reflexivity.
Qed.
Lemma vol_step s a o : vol_ok s o -> ~ changes_v o a -> ~ changes_names o a -> vol_ok (dstep n s a) o.
Proof.
  intros H N1 N2. destruct a as [q d|q d|q l| |q k]; cbn.
  - intros key f I. cbn in I. cbn. unfold set_obj. rewrite (H key f I). destruct (Nat.eqb_spec o q) as [->|N]; reflexivity.
  - intros key f I. cbn in I. cbn. unfold set_obj. destruct (Nat.eqb_spec o q) as [->|N]; [elim N1; exists d; reflexivity|]. auto.
  - intros key f I. cbn in I. cbn. unfold set_obj. destruct (Nat.eqb_spec o q) as [->|N]; [elim N2; exists l; reflexivity|]. auto.
  - exact H.
  - intros key f I. rewrite jac_obj. apply jac_vol in I. destruct I as [I|I]; [auto|]. injection I as <- <- ->. reflexivity.
Qed.
Lemma srf_steps l s o : srf_ok s o -> never (changes_srf o) l -> never (changes_names o) l -> srf_ok (fold_left (dstep n) l s) o.
Proof. revert s. induction l as [|a l IH]; intros s H A B; [exact H|]. cbn. apply IH; [apply srf_step; auto; [apply A|apply B]; cbn; auto|intros x X; apply A; cbn; auto|intros x X; apply B; cbn; auto]. Qed.
Lemma vol_steps l s o : vol_ok s o -> never (changes_v o) l -> never (changes_names o) l -> vol_ok (fold_left (dstep n) l s) o.
Proof. revert s. induction l as [|a l IH]; intros s H A B; [exact H|]. cbn. apply IH; [apply vol_step; auto; [apply A|apply B]; cbn; auto|intros x X; apply A; cbn; auto|intros x X; apply B; cbn; auto]. Qed.
Lemma run_app (init : nat -> robj F) l1 l2 : drun n init (l1 ++ l2) = fold_left (dstep n) l2 (drun n init l1).
Proof. unfold drun. apply fold_left_app. Qed.
Lemma unused (init : nat -> robj F) l o : never (evaluates o) l -> srf_ok (drun n init l) o /\ vol_ok (drun n init l) o.
Proof.
  intros N. split; intros key f I; exfalso; destruct (entries init l o key f) as (a & b & ->); auto; apply (N (DJac o key)); try (apply in_app_iff; cbn; auto); exists key; reflexivity.
Qed.
Lemma apply_same d key names : @apply_fun F (d, key, names) names = Ok (d, key).
Proof.
  unfold apply_fun. assert (A : forallb (fun a => inb string_dec a names) names = true) by (apply forallb_forall; intros x X; apply inb_iff, X). rewrite A. reflexivity.
Qed.
Lemma jac_good (s : state) o key : srf_ok s o -> vol_ok s o -> In key (o_names (d_obj s o)) -> fst (jac n s o key) = Ok (wanted (d_obj s o) key).
Proof.
  intros A B K. unfold jac. rewrite (proj2 (inb_iff string_dec key (o_names (d_obj s o))) K). cbn [negb].
  assert (X := ccall_val (d_srf s) (o, key) (o_srf (d_obj s o), key, o_names (d_obj s o))). destruct (ccall n (d_srf s) _ _) as [f c]. cbn [fst] in X.
  assert (Ef : f = (o_srf (d_obj s o), key, o_names (d_obj s o))) by (destruct X as [X|X]; [exact X|apply A, X]). rewrite Ef, apply_same. cbn [d_vol].
  assert (Y := ccall_val (d_vol s) (o, key) (o_v (d_obj s o), key, o_names (d_obj s o))). destruct (ccall n (d_vol s) _ _) as [g c']. cbn [fst] in Y.
  assert (Eg : g = (o_v (d_obj s o), key, o_names (d_obj s o))) by (destruct Y as [Y|Y]; [exact Y|apply B, Y]). rewrite Eg, apply_same. reflexivity.
Qed.

(** If an object was not changed since the jacobian was evaluated for the first time, the derivatives are those of its functions. *)
Theorem C185_unchanged : forall (init : nat -> robj F) l1 l2 o key, never (evaluates o) l1 ->
  never (changes_srf o) l2 -> never (changes_v o) l2 -> never (changes_names o) l2 ->
  In key (o_names (objs init (l1 ++ l2) o)) ->
  fst (jac n (drun n init (l1 ++ l2)) o key) = Ok (wanted (objs init (l1 ++ l2) o) key).
Proof.
  intros init l1 l2 o key N A B C K. rewrite <- !run_obj in *. destruct (unused init l1 o N) as [X Y]. apply jac_good; [| |exact K]; rewrite run_app; [apply srf_steps|apply vol_steps]; assumption.
Qed.

(** [_clear_cache] is enough if the volume-scattering function and the names of the parameters are the same ... *)
Theorem C185_surface : forall (init : nat -> robj F) l1 l2 l3 o key, never (evaluates o) l1 ->
  never (changes_v o) (l2 ++ DClear :: l3) -> never (changes_names o) (l2 ++ DClear :: l3) -> never (changes_srf o) l3 ->
  In key (o_names (objs init (l1 ++ l2 ++ DClear :: l3) o)) ->
  fst (jac n (drun n init (l1 ++ l2 ++ DClear :: l3)) o key) = Ok (wanted (objs init (l1 ++ l2 ++ DClear :: l3) o) key).
Proof.
  intros init l1 l2 l3 o key N B C A K. rewrite <- !run_obj in *. destruct (unused init l1 o N) as [X Y]. apply jac_good; [| |exact K].
  - rewrite app_assoc, run_app. cbn [fold_left dstep]. apply srf_steps; [intros k f []|exact A|]. intros a I. apply C. apply in_app_iff. cbn. auto.
  - rewrite run_app. apply vol_steps; assumption.
Qed.

(** ... but not for a new volume-scattering function: the derivative of the old one is used. *)
Theorem C185_volume_refuted : forall (init : nat -> robj F) o key d, 0 < n -> In key (o_names (init o)) ->
  fst (jac n (drun n init [DJac o key; DV o d; DClear]) o key) = Ok ((o_srf (init o), key), (o_v (init o), key)) /\
  o_v (objs init [DJac o key; DV o d; DClear] o) = d.
Proof.
  intros init o key d Hn K. split; [|cbn; rewrite Nat.eqb_refl; reflexivity].
  assert (Q : keq (o, key) (o, key) = true) by (apply keq_iff; reflexivity).
  assert (J : snd (jac n (mkd init [] []) o key) = mkd init (cmiss n [] (o, key) (o_srf (init o), key, o_names (init o))) (cmiss n [] (o, key) (o_v (init o), key, o_names (init o)))).
  { unfold jac. cbn [d_obj]. rewrite (proj2 (inb_iff string_dec key (o_names (init o))) K). cbn [negb d_srf d_vol ccall cfind]. rewrite apply_same. cbn [d_vol ccall cfind d_obj d_srf]. rewrite apply_same. reflexivity. }
  unfold drun. cbn [fold_left]. unfold dstep at 3. rewrite J. cbn [dstep d_obj d_srf d_vol]. unfold jac. cbn [d_obj]. unfold set_obj. rewrite !Nat.eqb_refl. cbn [o_names o_srf o_v].
  rewrite (proj2 (inb_iff string_dec key (o_names (init o))) K). cbn [negb d_srf d_vol]. unfold ccall at 1. cbn [cfind]. rewrite apply_same. cbn [d_vol d_srf d_obj].
  unfold cmiss. destruct n as [|m]; [lia|]. cbn [firstn]. unfold ccall. cbn [cfind]. rewrite Q. rewrite apply_same. reflexivity.
Qed.

(** New parameters: the jacobian fails, before and after [_clear_cache]. *)
Theorem C185_names_refuted : forall (init : nat -> robj F) o key x l, 0 < n -> In key (o_names (init o)) -> In key l -> In x l -> ~ In x (o_names (init o)) ->
  fst (jac n (drun n init [DJac o key; DNames o l]) o key) = Err TypeError /\
  fst (jac n (drun n init [DJac o key; DNames o l; DClear]) o key) = Err TypeError.
Proof.
  intros init o key x l Hn K Kl Xl Xn.
  assert (Q : keq (o, key) (o, key) = true) by (apply keq_iff; reflexivity).
  assert (J : snd (jac n (mkd init [] []) o key) = mkd init (cmiss n [] (o, key) (o_srf (init o), key, o_names (init o))) (cmiss n [] (o, key) (o_v (init o), key, o_names (init o)))).
  { unfold jac. cbn [d_obj]. rewrite (proj2 (inb_iff string_dec key (o_names (init o))) K). cbn [negb d_srf d_vol ccall cfind]. rewrite apply_same. cbn [d_vol ccall cfind d_obj d_srf]. rewrite apply_same. reflexivity. }
  assert (T : forall d, @apply_fun F (d, key, o_names (init o)) l = Err TypeError).
  { intros d. unfold apply_fun. assert (Y : forallb (fun a => inb string_dec a (o_names (init o))) l = false).
    { destruct (forallb _ l) eqn:E; [|reflexivity]. rewrite forallb_forall in E. specialize (E x Xl). apply inb_iff in E. contradiction. }
    rewrite Y, andb_false_r. reflexivity. }
  destruct n as [|m]; [lia|]. split; unfold drun; cbn [fold_left].
  - unfold dstep at 2. rewrite J. cbn [dstep d_obj d_srf d_vol]. unfold jac. cbn [d_obj]. unfold set_obj. rewrite !Nat.eqb_refl. cbn [o_names o_srf o_v].
    rewrite (proj2 (inb_iff string_dec key l) Kl). cbn [negb d_srf d_vol cmiss firstn]. unfold ccall. cbn [cfind]. rewrite Q, T. reflexivity.
  - unfold dstep at 3. rewrite J. cbn [dstep d_obj d_srf d_vol]. unfold jac. cbn [d_obj]. unfold set_obj. rewrite !Nat.eqb_refl. cbn [o_names o_srf o_v].
    rewrite (proj2 (inb_iff string_dec key l) Kl). cbn [negb d_srf d_vol cmiss firstn]. unfold ccall at 1. cbn [cfind]. rewrite apply_same. cbn [d_vol]. unfold ccall. cbn [cfind]. rewrite Q, T. reflexivity.
Qed.

(** A parameter that is not in param_dict: an AssertionError, whatever was cached. *)
Theorem C185_unknown : forall (init : nat -> robj F) ops o key, ~ In key (o_names (objs init ops o)) -> fst (jac n (drun n init ops) o key) = Err AssertionError.
Proof. intros init ops o key N. rewrite <- run_obj in N. unfold jac. destruct (inb string_dec key _) eqn:E; [apply inb_iff in E; contradiction|reflexivity]. Qed.
End P.
Print Assumptions C185_unchanged.
Print Assumptions C185_surface.
Print Assumptions C185_volume_refuted.
Print Assumptions C185_names_refuted.
Print Assumptions C185_unknown.

Open Scope string_scope.
Example C185_example :
  let init := fun _ : nat => mkro 1 2 ["a"; "b"] in
  fst (jac 20 (drun 20 init [DSrf 0 5; DJac 0 "a"; DJac 1 "a"; DV 1 7; DClear; DJac 0 "b"]) 0 "a") = Ok ((5, "a"), (2, "a")) /\
  fst (jac 20 (drun 20 init [DSrf 0 5; DJac 0 "a"; DJac 1 "a"; DV 1 7; DClear; DJac 0 "b"]) 1 "a") = Ok ((1, "a"), (2, "a")) /\
  fst (jac 20 (drun 20 init [DJac 0 "a"; DSrf 0 5; DClear]) 0 "a") = Ok ((5, "a"), (2, "a")) /\
  fst (jac 20 (drun 20 init [DJac 0 "a"; DSrf 0 5]) 0 "a") = Ok ((1, "a"), (2, "a")).
Proof. repeat split. Qed.
