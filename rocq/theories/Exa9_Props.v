(** C185: the derivatives that the jacobian uses after any history. *)
From Coq Require Import String List Arith Bool.
From Verif Require Import Base Base_Proofs Dlc_Model Dlc_Spec Dlc_Props.
Import ListNotations.
Local Open Scope list_scope.

Section Past.
Context {F : Type}.
Variable n : nat.

Lemma srf_past (init : nat -> robj F) ops o key f : In ((o, key), f) (d_srf (drun n init ops)) ->
  exists l r, ops = l ++ r /\ ~ In DClear r /\ f = (o_srf (objs init l o), key, o_names (objs init l o)).
Proof.
  induction ops as [|a ops IH] using rev_ind; [intros []|]. rewrite run_snoc. intros H.
  assert (G : a <> DClear /\ (In ((o, key), f) (d_srf (drun n init ops)) \/ f = (o_srf (objs init ops o), key, o_names (objs init ops o)))).
  { destruct a as [q d|q d|q l| |q k]; cbn in H; try (split; [discriminate|now left]); [destruct H|]. split; [discriminate|].
    apply jac_srf in H. destruct H as [H|H]; [now left|]. right. injection H as <- <- ->. now rewrite run_obj. }
  destruct G as [N [G|G]].
  - destruct (IH G) as (l & r & -> & X & E). exists l, (r ++ [a]). split; [now rewrite app_assoc|]. split; [|exact E].
    intros I. apply in_app_or in I. destruct I as [I|[I|[]]]; auto.
  - exists ops, [a]. split; [reflexivity|]. split; [|exact G]. intros [I|[]]; auto.
Qed.
Lemma vol_past (init : nat -> robj F) ops o key f : In ((o, key), f) (d_vol (drun n init ops)) ->
  exists l r, ops = l ++ r /\ f = (o_v (objs init l o), key, o_names (objs init l o)).
Proof.
  induction ops as [|a ops IH] using rev_ind; [intros []|]. rewrite run_snoc. intros H.
  assert (G : In ((o, key), f) (d_vol (drun n init ops)) \/ f = (o_v (objs init ops o), key, o_names (objs init ops o))).
  { destruct a as [q d|q d|q l| |q k]; cbn in H; try now left.
    apply jac_vol in H. destruct H as [H|H]; [now left|]. right. injection H as <- <- ->. now rewrite run_obj. }
  destruct G as [G|G].
  - destruct (IH G) as (l & r & -> & E). exists l, (r ++ [a]). split; [now rewrite app_assoc|exact E].
  - exists ops, [a]. split; [reflexivity|exact G].
Qed.
Lemma apply_same (d : F) key l : apply_fun (d, key, l) l = Ok (d, key).
Proof.
  unfold apply_fun. replace (forallb (fun a => inb string_dec a l) l) with true; [reflexivity|]. symmetry. apply forallb_forall. intros x I. now apply inb_iff.
Qed.
Lemma apply_any (d : F) key l l' : apply_fun (d, key, l) l' = Ok (d, key) \/ (apply_fun (d, key, l) l' = Err TypeError /\ l <> l').
Proof.
  unfold apply_fun. destruct (forallb _ l && forallb _ l') eqn:E; [now left|]. right. split; [reflexivity|]. intros <-.
  pose proof (apply_same d key l) as H. unfold apply_fun in H. rewrite E in H. discriminate.
Qed.
End Past.

(** After any history, the entry of a known parameter is made from derivatives with respect to this very parameter, of a
    surface function that the object itself had since the caches were cleared last and a volume function that it had at
    some time; the only other outcome is a TypeError, if the names of its parameters were changed.  Other objects never matter. *)
Theorem C185_past : forall (F : Type) n (init : nat -> robj F) ops o key, In key (o_names (objs init ops o)) ->
  (exists l1 r1 l2 r2, ops = l1 ++ r1 /\ ops = l2 ++ r2 /\ ~ In DClear r1 /\
     fst (jac n (drun n init ops) o key) = Ok ((o_srf (objs init l1 o), key), (o_v (objs init l2 o), key))) \/
  (fst (jac n (drun n init ops) o key) = Err TypeError /\ exists a, In a ops /\ changes_names o a).
Proof.
  intros F n init ops o key K. unfold jac. rewrite run_obj. rewrite (proj2 (inb_iff string_dec key _) K). cbn [negb].
  assert (CH : forall l r, ops = l ++ r -> o_names (objs init l o) <> o_names (objs init ops o) -> exists a, In a ops /\ changes_names o a).
  { intros l r -> N. clear K. induction r as [|a r IH] using rev_ind; [rewrite app_nil_r in N; congruence|]. rewrite app_assoc, objs_snoc in N.
    assert (D : changes_names o a \/ o_names (obj_step (objs init (l ++ r)) a o) = o_names (objs init (l ++ r) o)).
    { destruct a as [q d|q d|q x| |q k]; cbn; try (now right); destruct (Nat.eqb_spec o q) as [<-|]; try (now right). left. now exists x. }
    destruct D as [D|D]; [exists a; split; [apply in_or_app; right; apply in_or_app; right; now left|exact D]|].
    rewrite D in N. destruct (IH N) as (b & I & B). exists b. split; [|exact B]. rewrite app_assoc. apply in_or_app. now left. }
  assert (S : exists l r, ops = l ++ r /\ ~ In DClear r /\ fst (ccall n (d_srf (drun n init ops)) (o, key) (o_srf (objs init ops o), key, o_names (objs init ops o))) = (o_srf (objs init l o), key, o_names (objs init l o))).
  { destruct (ccall_val n (d_srf (drun n init ops)) (o, key) (o_srf (objs init ops o), key, o_names (objs init ops o))) as [E|I].
    - exists ops, []. rewrite app_nil_r. split; [reflexivity|]. split; [intros []|exact E].
    - now apply (srf_past n). }
  assert (V : exists l r, ops = l ++ r /\ fst (ccall n (d_vol (drun n init ops)) (o, key) (o_v (objs init ops o), key, o_names (objs init ops o))) = (o_v (objs init l o), key, o_names (objs init l o))).
  { destruct (ccall_val n (d_vol (drun n init ops)) (o, key) (o_v (objs init ops o), key, o_names (objs init ops o))) as [E|I].
    - exists ops, []. rewrite app_nil_r. split; [reflexivity|exact E].
    - now apply (vol_past n). }
  destruct S as (l1 & r1 & O1 & N1 & S). destruct V as (l2 & r2 & O2 & V).
  destruct (ccall n (d_srf (drun n init ops)) _ _) as [f c]. cbn [fst] in S. subst f. cbn [d_vol].
  destruct (apply_any (o_srf (objs init l1 o)) key (o_names (objs init l1 o)) (o_names (objs init ops o))) as [->|[-> X]]; [|right; split; [reflexivity|now apply (CH l1 r1)]].
  destruct (ccall n (d_vol (drun n init ops)) _ _) as [g c']. cbn [fst] in V. subst g.
  destruct (apply_any (o_v (objs init l2 o)) key (o_names (objs init l2 o)) (o_names (objs init ops o))) as [->|[-> X]]; [|right; split; [reflexivity|now apply (CH l2 r2)]].
  left. exists l1, r1, l2, r2. auto.
Qed.
Print Assumptions C185_past.
Example C185_past_example : let init := fun _ : nat => mkro 1 2 ["a"%string; "b"%string] in
  let ops := [DJac 0 "a"%string; DSrf 0 5; DV 0 6; DClear; DV 0 7] in
  In "a"%string (o_names (objs init ops 0)) /\ fst (jac 20 (drun 20 init ops) 0 "a"%string) = Ok ((5, "a"%string), (2, "a"%string)).
Proof. cbv zeta. split; [left; reflexivity|reflexivity]. Qed.
