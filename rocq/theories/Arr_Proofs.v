(** Proofs for Arr_Props. *)
From Coq Require Import Reals List Bool Arith String Lia.
From Verif Require Import Base RT_Model Int_Model Arr_Model Arr_Spec.
Import ListNotations.
Local Open Scope nat_scope.

Definition dim (a b : nat) : option nat := if Nat.eqb a b then Some a else if Nat.eqb a 1 then Some b else if Nat.eqb b 1 then Some a else None.
Lemma bshape_cons : forall a s b t, bshape (a :: s) (b :: t) = match dim a b, bshape s t with Some c, Some u => Some (c :: u) | _, _ => None end.
Proof. reflexivity. Qed.
Lemma dim_some : forall a b c, dim a b = Some c <-> (a = b \/ a = 1 \/ b = 1) /\ (a = 1 \/ a = c) /\ (b = 1 \/ b = c) /\ (c = a \/ c = b).
Proof.
  intros a b c. unfold dim. destruct (Nat.eqb_spec a b); [subst; split; [intros E; inversion E; lia|intros; f_equal; lia]|].
  destruct (Nat.eqb_spec a 1); [split; [intros E; inversion E; lia|intros; f_equal; lia]|]. destruct (Nat.eqb_spec b 1); (split; [intros E; inversion E; lia|intros; f_equal; lia]).
Qed.
Lemma dim_none : forall a b, dim a b = None <-> a <> b /\ a <> 1 /\ b <> 1.
Proof. intros a b. unfold dim. destruct (Nat.eqb_spec a b), (Nat.eqb_spec a 1), (Nat.eqb_spec b 1); split; try discriminate; try lia; auto. Qed.
Lemma bshape_nil_r : forall s, bshape s [] = Some s.
Proof. destruct s; reflexivity. Qed.
Lemma bshape_len : forall s t u, bshape s t = Some u -> List.length u = Nat.max (List.length s) (List.length t).
Proof.
  induction s as [|a s IH]; intros [|b t] u E; try (inversion E; subst; cbn; lia). rewrite bshape_cons in E. destruct (dim a b); [|discriminate]. destruct (bshape s t) eqn:B; [|discriminate]. inversion E; subst. cbn. rewrite (IH _ _ B). lia.
Qed.
Lemma bshape_nth : forall s t u, bshape s t = Some u -> forall i, dim (nth i s 1) (nth i t 1) = Some (nth i u 1).
Proof.
  induction s as [|a s IH]; intros t u E i.
  - inversion E; subst. destruct i; cbn [nth]; apply dim_some; lia.
  - destruct t as [|b t]; [inversion E; subst; rewrite (proj2 (dim_some _ _ (nth i (a :: s) 1))); [reflexivity|destruct i; cbn [nth]; lia]|].
    rewrite bshape_cons in E. destruct (dim a b) eqn:D; [|discriminate]. destruct (bshape s t) eqn:B; [|discriminate]. inversion E; subst. destruct i; cbn [nth]; [exact D|now apply IH].
Qed.
Lemma bshape_none : forall s t, bshape s t = None -> exists i, dim (nth i s 1) (nth i t 1) = None.
Proof.
  induction s as [|a s IH]; intros [|b t] E; try discriminate. rewrite bshape_cons in E. destruct (dim a b) eqn:D; [|exists 0; exact D]. destruct (bshape s t) eqn:B; [discriminate|]. destruct (IH _ B) as [i Hi]. exists (S i). exact Hi.
Qed.

(** ** several shapes *)
Lemma bshapes_some : forall l u, bshapes l = Some u -> common_shape l u.
Proof.
  induction l as [|s l IH]; intros u E.
  - inversion E; subst. repeat split; try (intros s []); auto. left. destruct i; reflexivity.
  - cbn [bshapes] in E. destruct (bshapes l) as [v|] eqn:B; [|discriminate]. destruct (IH v eq_refl) as (L1 & L2 & N). pose proof (bshape_len _ _ _ E) as L. pose proof (bshape_nth _ _ _ E) as D.
    split; [|split].
    + intros t [<-|Ht]; [lia|]. specialize (L1 t Ht). lia.
    + destruct (Nat.le_gt_cases (List.length v) (List.length s)).
      * right. exists s. split; [now left|lia].
      * destruct L2 as [->|(t & Ht & E2)]; [cbn in *; lia|]. right. exists t. split; [now right|lia].
    + intros i. specialize (D i). apply dim_some in D. destruct D as (D0 & D1 & D2 & D3). destruct (N i) as [N1 N2]. split.
      * intros t [<-|Ht]; [lia|]. destruct (N1 t Ht) as [H|H]; [now left|]. lia.
      * destruct D3 as [D3|D3]; [right; exists s; split; [now left|congruence]|]. destruct N2 as [N2|(t & Ht & N2)]; [left; lia|right; exists t; split; [now right|lia]].
Qed.
Lemma bshapes_compatible : forall l, (exists u, bshapes l = Some u) <-> compatible l.
Proof.
  intros l. split.
  - intros [u E]. destruct (bshapes_some _ _ E) as (_ & _ & N). intros s t i Hs Ht. destruct (N i) as [N1 _]. destruct (N1 s Hs), (N1 t Ht); lia.
  - induction l as [|s l IH]; intros C; [now exists []|]. destruct IH as [v B]; [intros a b i Ha Hb; apply C; now right|].
    cbn [bshapes]. rewrite B. destruct (bshape s v) as [u|] eqn:E; [now exists u|]. exfalso. destruct (bshape_none _ _ E) as [i D]. apply dim_none in D.
    destruct (bshapes_some _ _ B) as (_ & _ & N). destruct (N i) as [_ [H|(t & Ht & H)]]; [lia|]. destruct (C s t i (or_introl eq_refl) (or_intror Ht)) as [X|[X|X]]; lia.
Qed.
Lemma common_unique : forall l u v, common_shape l u -> common_shape l v -> u = v.
Proof.
  intros l u v (A1 & A2 & A3) (B1 & B2 & B3). assert (L : List.length u = List.length v).
  { destruct A2 as [->|(s & Hs & E)]; destruct B2 as [->|(t & Ht & F)]; cbn; auto.
    - specialize (A1 t Ht). cbn in A1. lia.
    - specialize (B1 s Hs). cbn in B1. lia.
    - specialize (A1 t Ht). specialize (B1 s Hs). lia. }
  apply (nth_ext u v 1 1 L). intros i _. destruct (A3 i) as [a1 a2], (B3 i) as [b1 b2].
  destruct a2 as [a2|(s & Hs & a2)]; destruct b2 as [b2|(t & Ht & b2)]; try lia.
  - destruct (a1 t Ht); lia.
  - destruct (b1 s Hs); lia.
  - destruct (b1 s Hs), (a1 t Ht); lia.
Qed.
Lemma bshapes_iff : forall l u, bshapes l = Some u <-> compatible l /\ common_shape l u.
Proof.
  intros l u. split.
  - intros E. split; [apply bshapes_compatible; eauto|now apply bshapes_some].
  - intros [C S]. apply bshapes_compatible in C. destruct C as [v E]. rewrite E. f_equal. apply (common_unique l); [now apply bshapes_some|exact S].
Qed.
Lemma bshapes_app : forall l m, bshapes (l ++ m)%list = match bshapes l, bshapes m with Some a, Some b => bshape a b | _, _ => None end.
Proof.
  intros l m. destruct (bshapes l) as [a|] eqn:A, (bshapes m) as [b|] eqn:B.
  - destruct (bshape a b) as [c|] eqn:C.
    + apply bshapes_iff. destruct (bshapes_some _ _ A) as (L1 & L2 & LN), (bshapes_some _ _ B) as (M1 & M2 & MN). pose proof (bshape_len _ _ _ C) as L. pose proof (bshape_nth _ _ _ C) as D. split.
      * intros s t i Hs Ht. specialize (D i). apply dim_some in D. destruct (LN i) as [l1 _], (MN i) as [m1 _]. apply in_app_or in Hs. apply in_app_or in Ht.
        destruct Hs as [Hs|Hs], Ht as [Ht|Ht]; [pose proof (l1 s Hs); pose proof (l1 t Ht)|pose proof (l1 s Hs); pose proof (m1 t Ht)|pose proof (m1 s Hs); pose proof (l1 t Ht)|pose proof (m1 s Hs); pose proof (m1 t Ht)]; lia.
      * split; [|split].
        { intros s Hs. apply in_app_or in Hs. destruct Hs as [Hs|Hs]; [specialize (L1 s Hs)|specialize (M1 s Hs)]; lia. }
        { destruct (Nat.le_gt_cases (List.length b) (List.length a)).
          - destruct L2 as [->|(s & Hs & E)].
            + left. destruct c; [reflexivity|cbn in *; lia].
            + right. exists s. split; [apply in_or_app; now left|lia].
          - destruct M2 as [->|(s & Hs & E)]; [cbn in *; lia|]. right. exists s. split; [apply in_or_app; now right|lia]. }
        intros i. specialize (D i). apply dim_some in D. destruct (LN i) as [l1 l2], (MN i) as [m1 m2]. split.
        { intros s Hs. apply in_app_or in Hs. destruct Hs as [Hs|Hs]; [specialize (l1 s Hs)|specialize (m1 s Hs)]; lia. }
        { destruct D as (_ & _ & _ & [D|D]).
          - destruct l2 as [l2|(s & Hs & E)]; [left; lia|right; exists s; split; [apply in_or_app; now left|lia]].
          - destruct m2 as [m2|(s & Hs & E)]; [left; lia|right; exists s; split; [apply in_or_app; now right|lia]]. }
    + destruct (bshapes (l ++ m)) as [c|] eqn:E; [|reflexivity]. exfalso. destruct (bshape_none _ _ C) as [i D]. apply dim_none in D.
      assert (K : compatible (l ++ m)) by (apply bshapes_compatible; eauto). destruct (bshapes_some _ _ A) as (_ & _ & LN), (bshapes_some _ _ B) as (_ & _ & MN).
      destruct (LN i) as [_ [l2|(s & Hs & l2)]]; [lia|]. destruct (MN i) as [_ [m2|(t & Ht & m2)]]; [lia|].
      destruct (K s t i) as [X|[X|X]]; try (apply in_or_app; auto); lia.
  - destruct (bshapes (l ++ m)) as [c|] eqn:E; [|reflexivity]. assert (K : compatible (l ++ m)) by (apply bshapes_compatible; eauto).
    assert (K2 : compatible m) by (intros s t i Hs Ht; apply K; apply in_or_app; auto). apply bshapes_compatible in K2. destruct K2; congruence.
  - destruct (bshapes (l ++ m)) as [c|] eqn:E; [|reflexivity]. assert (K : compatible (l ++ m)) by (apply bshapes_compatible; eauto).
    assert (K2 : compatible l) by (intros s t i Hs Ht; apply K; apply in_or_app; auto). apply bshapes_compatible in K2. destruct K2; congruence.
  - destruct (bshapes (l ++ m)) as [c|] eqn:E; [|reflexivity]. assert (K : compatible (l ++ m)) by (apply bshapes_compatible; eauto).
    assert (K2 : compatible l) by (intros s t i Hs Ht; apply K; apply in_or_app; auto). apply bshapes_compatible in K2. destruct K2; congruence.
Qed.

(** ** elements *)
Lemma pull_combine : forall s ix, pull s ix = map (fun q => if Nat.eqb (fst q) 1 then 0 else snd q) (combine s ix).
Proof. induction s as [|d s IH]; intros [|i ix]; cbn; try reflexivity. now rewrite IH. Qed.
Lemma at_element : forall A (a : arr A) ix, at_ a ix = element a ix.
Proof. intros. unfold at_, element. now rewrite pull_combine. Qed.
(** [s] fits into [u]: no longer, and where [u] is 1, [s] is 1 *)
Definition fits (s u : list nat) : Prop := List.length s <= List.length u /\ forall i, nth i u 1 = 1 -> nth i s 1 = 1.
Lemma pull_pull : forall s u ix, fits s u -> List.length u <= List.length ix -> pull s (pull u ix) = pull s ix.
Proof.
  induction s as [|d s IH]; intros u ix [L H] LU; [destruct (pull u ix), ix; reflexivity|]. destruct u as [|e u]; [cbn in L; lia|]. destruct ix as [|i ix]; [cbn in LU; lia|]. cbn [pull].
  rewrite IH; [| |cbn in LU; lia].
  - f_equal. destruct (Nat.eqb_spec d 1); [reflexivity|]. destruct (Nat.eqb_spec e 1); [|reflexivity]. specialize (H 0 e0). cbn in H. lia.
  - split; [cbn in L; lia|]. intros j. exact (H (S j)).
Qed.
Lemma pull_same : forall s ix, index_in ix s -> pull s ix = ix.
Proof. intros s ix H. induction H as [|i d ix s Hi H IH]; [reflexivity|]. cbn. rewrite IH. destruct (Nat.eqb_spec d 1); [f_equal; lia|reflexivity]. Qed.
Lemma bshape_fits : forall s t u, bshape s t = Some u -> fits s u /\ fits t u.
Proof.
  intros s t u E. pose proof (bshape_len _ _ _ E) as L. pose proof (bshape_nth _ _ _ E) as D. split; (split; [lia|]); intros i H; specialize (D i); apply dim_some in D; lia.
Qed.
Lemma at_op2 : forall A B C (f : A -> B -> C) a b c ix, op2 f a b = Ok c -> List.length (shape c) <= List.length ix -> at_ c ix = f (at_ a ix) (at_ b ix).
Proof.
  intros A B C f a b c ix E L. unfold op2 in E. destruct (bshape (shape a) (shape b)) as [u|] eqn:B0; [|discriminate]. inversion E; subst c. cbn [shape] in L. destruct (bshape_fits _ _ _ B0) as [F1 F2].
  unfold at_ at 1. cbn [data shape]. unfold at_. now rewrite !pull_pull by assumption.
Qed.
Lemma at_op1 : forall A B (f : A -> B) a ix, at_ (op1 f a) ix = f (at_ a ix).
Proof. reflexivity. Qed.
Lemma op2_shape : forall A B C (f : A -> B -> C) a b c, op2 f a b = Ok c -> bshape (shape a) (shape b) = Some (shape c).
Proof. intros A B C f a b c E. unfold op2 in E. destruct (bshape (shape a) (shape b)); [|discriminate]. now inversion E. Qed.
Lemma op2_ok : forall A B C (f : A -> B -> C) a b u, bshape (shape a) (shape b) = Some u -> exists c, op2 f a b = Ok c /\ shape c = u.
Proof. intros A B C f a b u E. unfold op2. rewrite E. eexists. split; reflexivity. Qed.
Lemma data_at : forall A (a : arr A) ix, index_in ix (shape a) -> data a ix = at_ a ix.
Proof. intros A a ix H. unfold at_. now rewrite pull_same. Qed.
Lemma index_len : forall ix s, index_in ix s -> List.length ix = List.length s.
Proof. intros ix s H. induction H; cbn; congruence. Qed.

Lemma in_fits : forall l u s, bshapes l = Some u -> In s l -> fits s u.
Proof.
  intros l u s E Hs. destruct (bshapes_some _ _ E) as (L & _ & N). split; [now apply L|]. intros i H. destruct (N i) as [N1 _]. destruct (N1 s Hs); lia.
Qed.
Local Open Scope R_scope.
Lemma at_call : forall f args c ix, call f args = Ok c -> (List.length (shape c) <= List.length ix)%nat -> at_ c ix = f_val f (mask (f_uses f) (map (fun a => at_ a ix) args)).
Proof.
  intros f args c ix E L. unfold call in E. destruct (bshapes (map shape (used (f_uses f) args))) as [u|] eqn:B; [|discriminate]. inversion E; subst c. cbn [shape] in L.
  unfold at_ at 1. cbn [data shape]. f_equal.
  assert (H : forall a, In a (used (f_uses f) args) -> at_ a (pull u ix) = at_ a ix).
  { intros a Ha. unfold at_. rewrite pull_pull; [reflexivity| |exact L]. apply (in_fits _ _ _ B). now apply in_map. }
  clear E B L. revert H. generalize (f_uses f) as us. induction args as [|a args IH]; intros us H; [destruct us; reflexivity|]. destruct us as [|b us]; [reflexivity|]. unfold mask. cbn [map combine fst snd].
  f_equal.
  - destruct b; [|reflexivity]. apply H. cbn. now left.
  - apply (IH us). intros x Hx. apply H. unfold used. cbn [combine filter fst]. destruct b; [now right|exact Hx].
Qed.
Lemma call_shape : forall f args c, call f args = Ok c -> bshapes (map shape (used (f_uses f) args)) = Some (shape c).
Proof. intros f args c E. unfold call in E. destruct (bshapes _); [|discriminate]. now inversion E. Qed.

(** ** expressions *)
Fixpoint leaves (e : ex) : list (list nat) :=
  match e with Leaf a => [shape a] | Ap1 _ e => leaves e | Ap2 _ a b => (leaves a ++ leaves b)%list | Call f args => map shape (used (f_uses f) args) end.
Fixpoint den (e : ex) (ix : list nat) : R :=
  match e with Leaf a => at_ a ix | Ap1 f e => f (den e ix) | Ap2 f a b => f (den a ix) (den b ix) | Call f args => f_val f (mask (f_uses f) (map (fun a => at_ a ix) args)) end.
Lemma eval_some : forall e c, eval e = Ok c -> bshapes (leaves e) = Some (shape c) /\ forall ix, (List.length (shape c) <= List.length ix)%nat -> at_ c ix = den e ix.
Proof.
  induction e as [a|f e IH|f e1 IH1 e2 IH2|f args]; intros c E; cbn [eval leaves den] in *.
  - inversion E; subst. cbn. rewrite bshape_nil_r. auto.
  - destruct (eval e) as [a|]; [|discriminate]. cbn [bind] in E. inversion E; subst. destruct (IH a eq_refl) as [H1 H2]. split; [exact H1|]. intros ix L. rewrite at_op1, H2; auto.
  - destruct (eval e1) as [a|]; [|discriminate]. destruct (eval e2) as [b|]; [|discriminate]. cbn [bind] in E. destruct (IH1 a eq_refl) as [A1 A2], (IH2 b eq_refl) as [B1 B2].
    pose proof (op2_shape _ _ _ _ _ _ _ E) as S. pose proof (bshape_len _ _ _ S) as L0. split; [rewrite bshapes_app, A1, B1; exact S|]. intros ix L. rewrite (at_op2 _ _ _ _ _ _ _ _ E L), A2, B2 by lia. reflexivity.
  - split; [now apply call_shape|]. intros ix L. now apply at_call.
Qed.
Lemma eval_ok : forall e u, bshapes (leaves e) = Some u -> exists c, eval e = Ok c.
Proof.
  induction e as [a|f e IH|f e1 IH1 e2 IH2|f args]; intros u E; cbn [eval leaves] in *.
  - eauto.
  - destruct (IH _ E) as [c ->]. cbn. eauto.
  - rewrite bshapes_app in E. destruct (bshapes (leaves e1)) as [a|] eqn:A; [|discriminate]. destruct (bshapes (leaves e2)) as [b|] eqn:B; [|discriminate].
    destruct (IH1 _ eq_refl) as [x Ex], (IH2 _ eq_refl) as [y Ey]. rewrite Ex, Ey. cbn [bind]. destruct (eval_some _ _ Ex) as [X _], (eval_some _ _ Ey) as [Y _]. rewrite A in X. rewrite B in Y. inversion X; inversion Y; subst.
    destruct (op2_ok _ _ _ f _ _ _ E) as (c & Ec & _). eauto.
  - unfold call. rewrite E. eauto.
Qed.
(** the order and repetition of shapes does not matter *)
Lemma bshapes_incl : forall l m, incl l m -> incl m l -> bshapes l = bshapes m.
Proof.
  intros l m H1 H2. destruct (bshapes l) as [u|] eqn:E.
  - symmetry. apply bshapes_iff. apply bshapes_iff in E. destruct E as [C (S1 & S2 & S3)]. split; [intros s t i Hs Ht; apply C; auto|]. split; [auto|split].
    + destruct S2 as [->|(s & Hs & E)]; [now left|right; exists s; auto].
    + intros i. destruct (S3 i) as [a b]. split; [auto|]. destruct b as [b|(s & Hs & b)]; [now left|right; exists s; auto].
  - destruct (bshapes m) as [v|] eqn:F; [|reflexivity]. assert (K : compatible m) by (apply bshapes_compatible; eauto). assert (K2 : compatible l) by (intros s t i Hs Ht; apply K; auto). apply bshapes_compatible in K2. destruct K2; congruence.
Qed.
Lemma eval_iff : forall e l, incl l (leaves e) -> incl (leaves e) l -> (exists x, eval e = Ok x) <-> compatible l.
Proof.
  intros e l H1 H2. rewrite <- bshapes_compatible. split.
  - intros [x E]. destruct (eval_some _ _ E) as [S _]. exists (shape x). rewrite <- S. now apply bshapes_incl.
  - intros [u E]. apply (eval_ok e u). rewrite <- E. now apply bshapes_incl.
Qed.
Lemma eval_err : forall e x, eval e = Err x -> x = ValueError.
Proof.
  induction e as [a|f e IH|f e1 IH1 e2 IH2|f args]; intros x E; cbn [eval] in E.
  - discriminate.
  - destruct (eval e) as [a|]; cbn [bind] in E; [discriminate|]. apply IH. congruence.
  - destruct (eval e1) as [a|]; cbn [bind] in E; [|apply IH1; congruence]. destruct (eval e2) as [b|]; cbn [bind] in E; [|apply IH2; congruence]. unfold op2 in E. destruct (bshape _ _); congruence.
  - unfold call in E. destruct (bshapes _); congruence.
Qed.

(** ** an additional first axis *)
Local Open Scope nat_scope.
Lemma pull_app : forall s ix t j, List.length s = List.length ix -> pull (s ++ t) (ix ++ j) = pull s ix ++ pull t j.
Proof. induction s as [|d s IH]; intros [|i ix] t j L; try discriminate; [reflexivity|]. cbn. rewrite IH; [reflexivity|now inversion L]. Qed.
Lemma pull_long : forall s ix j, List.length s <= List.length ix -> pull s (ix ++ j) = pull s ix.
Proof. induction s as [|d s IH]; intros [|i ix] j L; cbn in *; try reflexivity; try lia. rewrite IH; [reflexivity|lia]. Qed.
Lemma pull_len : forall s ix, List.length s <= List.length ix -> List.length (pull s ix) = List.length s.
Proof. induction s as [|d s IH]; intros [|i ix] L; cbn in *; try reflexivity; try lia. rewrite IH; lia. Qed.
Lemma at_stack : forall A n s (f : nat -> list nat -> A) ix k, List.length s = List.length ix -> k < n -> at_ (stack n s f) (ix ++ [k]) = f k (pull s ix).
Proof.
  intros A n s f ix k L K. unfold at_, stack. cbn [shape data]. rewrite pull_app by exact L. cbn [pull]. rewrite last_last, removelast_last. f_equal. destruct (Nat.eqb_spec n 1); lia.
Qed.
Lemma at_long : forall A (a : arr A) ix j, List.length (shape a) <= List.length ix -> at_ a (ix ++ j) = at_ a ix.
Proof. intros. unfold at_. now rewrite pull_long. Qed.
Lemma bshape_app : forall s t n, List.length s = List.length t -> bshape (s ++ [n]) (t ++ [n]) = option_map (fun u => u ++ [n]) (bshape s t).
Proof.
  induction s as [|a s IH]; intros [|b t] n L; try discriminate.
  - cbn [app]. rewrite bshape_cons. unfold dim. rewrite Nat.eqb_refl. reflexivity.
  - cbn [app]. rewrite !bshape_cons, IH by (now inversion L). destruct (dim a b); [|reflexivity]. destruct (bshape s t); reflexivity.
Qed.
Lemma bshape_app_l : forall s t n, List.length t <= List.length s -> bshape (s ++ [n]) t = option_map (fun u => u ++ [n]) (bshape s t).
Proof.
  induction s as [|a s IH]; intros [|b t] n L; cbn [List.length] in L; try lia.
  - reflexivity.
  - reflexivity.
  - cbn [app]. rewrite !bshape_cons, IH by lia. destruct (dim a b); [|reflexivity]. destruct (bshape s t); reflexivity.
Qed.

Lemma bshape_absorb : forall s t u, bshape s t = Some u -> bshape s u = Some u /\ bshape t u = Some u.
Proof.
  intros s t u E. assert (E1 : bshapes [s; t] = Some u) by (cbn; rewrite bshape_nil_r; exact E). split.
  - assert (H : bshapes [s; s; t] = Some u) by (rewrite <- E1; apply bshapes_incl; intros x; cbn; tauto). cbn [bshapes] in H. now rewrite bshape_nil_r, E in H.
  - assert (H : bshapes [t; s; t] = Some u) by (rewrite <- E1; apply bshapes_incl; intros x; cbn; tauto). cbn [bshapes] in H. now rewrite bshape_nil_r, E in H.
Qed.
Lemma bshape_self : forall s, bshape s s = Some s.
Proof. induction s as [|a s IH]; [reflexivity|]. rewrite bshape_cons, IH. unfold dim. now rewrite Nat.eqb_refl. Qed.
Lemma bshapes_const : forall s l, l <> [] -> (forall t, In t l -> t = s) -> bshapes l = Some s.
Proof.
  intros s l N H. destruct l as [|t l]; [congruence|]. assert (E : bshapes [s] = Some s) by (cbn; apply bshape_nil_r). rewrite <- E. apply bshapes_incl; intros x Hx.
  - rewrite (H x Hx). now left.
  - destruct Hx as [<-|[]]. left. apply H. now left.
Qed.
Lemma common_rank : forall l u s, bshapes l = Some u -> In s l -> (forall t, In t l -> List.length t <= List.length s) -> List.length u = List.length s.
Proof.
  intros l u s E Hs H. destruct (bshapes_some _ _ E) as (L1 & L2 & _). specialize (L1 s Hs). destruct L2 as [->|(t & Ht & L2)]; [cbn in *; lia|]. specialize (H t Ht). lia.
Qed.

Lemma mapM_ok : forall A B (f : A -> res B) (g : A -> B) l, (forall x, In x l -> f x = Ok (g x)) -> mapM f l = Ok (map g l).
Proof. intros A B f g. induction l as [|x l IH]; intros H; [reflexivity|]. cbn. rewrite H by (now left). cbn. rewrite IH by (intros; apply H; now right). reflexivity. Qed.
Lemma used_in : forall A u (l : list A) x, In x (used u l) -> In x l.
Proof. intros A u l x H. unfold used in H. apply in_map_iff in H. destruct H as ([b y] & <- & H). apply filter_In in H. destruct H as [H _]. now apply in_combine_r in H. Qed.
Lemma used_map : forall A B (g : A -> B) u l, used u (map g l) = map g (used u l).
Proof. intros A B g. induction u as [|b u IH]; intros [|x l]; try reflexivity. unfold used in *. cbn. destruct b; cbn; now rewrite IH. Qed.
(** the coefficients: all arguments were broadcast to the shape [s] before *)
Lemma fn_array_spec : forall fn args0 s, bshapes (map shape args0) = Some s -> (exists f, In f fn /\ used (f_uses f) args0 <> []) ->
  exists c, fn_array fn (map (fun a => mkarr s (at_ a)) args0) = Ok c /\ shape c = s ++ [List.length fn] /\
  forall ix k d, List.length ix = List.length s -> k < List.length fn -> at_ c (ix ++ [k]) = f_val (nth k fn d) (mask (f_uses (nth k fn d)) (map (fun a => at_ a ix) args0)).
Proof.
  intros fn args0 s E U. set (args := map (fun a => mkarr s (at_ a)) args0).
  set (g := fun f => mkarr (match used (f_uses f) args with [] => [] | _ => s end) (fun ix => f_val f (mask (f_uses f) (map (fun a => at_ a ix) args)))).
  assert (SH : forall f t, In t (map shape (used (f_uses f) args)) -> t = s).
  { intros f t H. apply in_map_iff in H. destruct H as (a & <- & H). apply used_in in H. unfold args in H. apply in_map_iff in H. destruct H as (b & <- & _). reflexivity. }
  assert (C : forall f, call f args = Ok (g f)).
  { intros f. unfold call, g. destruct (used (f_uses f) args) as [|x r] eqn:EU; [reflexivity|]. rewrite (bshapes_const s); [reflexivity|discriminate|]. rewrite <- EU. apply SH. }
  assert (B : bshapes (map shape (map g fn)) = Some s).
  { assert (E1 : bshapes [[]; s] = Some s) by (cbn; now rewrite bshape_nil_r). destruct U as (f & Hf & Uf).
    assert (Sf : shape (g f) = s). { unfold g. cbn [shape]. unfold args. rewrite used_map. destruct (used (f_uses f) args0); [congruence|reflexivity]. }
    assert (All : forall t, In t (map shape (map g fn)) -> t = [] \/ t = s). { intros t H. apply in_map_iff in H. destruct H as (a & <- & H). apply in_map_iff in H. destruct H as (f' & <- & _). unfold g. cbn [shape]. destruct (used (f_uses f') args); auto. }
    assert (In1 : In s (map shape (map g fn))). { rewrite <- Sf. apply in_map, in_map, Hf. }
    apply bshapes_iff. split; [|split; [|split]].
    - intros a b i Ha Hb. destruct (All a Ha) as [->| ->], (All b Hb) as [->| ->]; destruct i; cbn; auto.
    - intros t Ht. destruct (All t Ht) as [->| ->]; cbn; lia.
    - right. exists s. auto.
    - intros i. split; [intros t Ht; destruct (All t Ht) as [->| ->]; [left; destruct i; reflexivity|now right]|right; exists s; auto]. }
  unfold fn_array. rewrite (mapM_ok _ _ _ g) by (intros; apply C). cbn [bind]. rewrite B. eexists. split; [reflexivity|]. split; [cbn [shape stack]; now rewrite map_length|].
  intros ix k d L K. rewrite at_stack by (rewrite ?map_length; lia). rewrite (nth_indep _ _ (g d)) by (rewrite map_length; lia). rewrite map_nth.
  set (f := nth k fn d). assert (L2 : List.length (pull s ix) = List.length s) by (apply pull_len; lia).
  rewrite (at_call f args) with (1 := C f) by (unfold g; cbn [shape]; destruct (used (f_uses f) args); cbn; lia). f_equal. f_equal. unfold args. rewrite map_map. apply map_ext_in. intros a Ha.
  unfold at_. cbn [shape data]. unfold at_. assert (F : fits (shape a) s) by (apply (in_fits _ _ _ E); now apply in_map).
  assert (FS : fits s s) by (split; auto). rewrite (pull_pull s s) by (auto; lia). now rewrite pull_pull by (auto; lia).
Qed.

Section I.
Variables (expi : R -> R) (expn : nat -> R -> R).
Lemma aS2_spec : forall n mu tau B, bshape (shape mu) (shape tau) = Some B ->
  exists c, aS2 expi expn n mu tau = Ok c /\ shape c = B ++ [n] /\
  forall ix k, List.length ix = List.length B -> k < n ->
    at_ c (ix ++ [k]) = nadd (Fin (fold_left Rplus (map (innerfunc expn (at_ mu ix) (at_ tau ix)) (seq 1 (k + 1))) 0%R)) (hlp1 expi (at_ mu ix) (at_ tau ix)).
Proof.
  intros n mu tau B E. destruct (op2_ok _ _ _ (hlp1 expi) _ _ _ E) as (h & Eh & Sh). unfold aS2. rewrite Eh. cbn [bind]. rewrite Sh.
  match goal with |- context [op2 nadd ?st h] => destruct (op2_ok _ _ _ nadd st h (B ++ [n])) as (c & Ec & Sc) end.
  { cbn [shape stack]. rewrite Sh, bshape_app_l, bshape_self by lia. reflexivity. }
  exists c. split; [exact Ec|]. split; [exact Sc|]. intros ix k L K. destruct (bshape_fits _ _ _ E) as [F1 F2].
  rewrite (at_op2 _ _ _ _ _ _ _ _ Ec) by (rewrite Sc, !app_length, L; cbn; lia). rewrite at_stack by lia. rewrite at_long by (rewrite Sh; lia). rewrite (at_op2 _ _ _ _ _ _ _ _ Eh) by (rewrite Sh; lia).
  unfold at_. now rewrite !pull_pull by (auto; lia).
Qed.
Lemma combine_map : forall A B C (f : A -> B) (g : A -> C) l, combine (map f l) (map g l) = map (fun x => (f x, g x)) l.
Proof. intros. induction l; cbn; congruence. Qed.
Lemma map_nth_seq : forall A B (f : A -> B) l d, map f l = map (fun k => f (nth k l d)) (seq 0 (List.length l)).
Proof.
  intros A B f l d. induction l as [|x l IH]; [reflexivity|]. cbn [List.length seq map]. f_equal. rewrite IH, <- seq_shift, map_map. reflexivity.
Qed.
Lemma aFint_spec : forall nmax fn tau t1 p1 t2 p2 params, List.length fn = nmax -> (exists f, In f fn /\ used (f_uses f) (t1 :: p1 :: t2 :: p2 :: params) <> []) ->
  (forall a, In a (tau :: p1 :: t2 :: p2 :: params) -> List.length (shape a) <= List.length (shape t1)) ->
  forall U, bshapes (map shape (tau :: t1 :: p1 :: t2 :: p2 :: params)) = Some U ->
  exists F, aFint expi expn nmax fn tau t1 p1 t2 p2 params = Ok F /\ shape F = U /\
  forall ix, index_in ix U -> exists terms,
    bcast (map (fun f => f_val f (mask (f_uses f) (map (fun a => at_ a ix) (t1 :: p1 :: t2 :: p2 :: params)))) fn)
          (map (fun q => nscale (fst q) (snd q)) (combine (mu_x nmax (cos (at_ t1 ix))) (S2_mu expi expn nmax (cos (at_ t1 ix)) (at_ tau ix)))) = Ok terms /\
    data F ix = fold_left nadd terms (Fin 0).
Proof.
  intros nmax fn tau t1 p1 t2 p2 params LN UF RK U EU. set (args0 := t1 :: p1 :: t2 :: p2 :: params) in *.
  assert (EU' := EU). change (map shape (tau :: args0)) with (shape tau :: map shape args0) in EU'. cbn [bshapes] in EU'. destruct (bshapes (map shape args0)) as [s|] eqn:Es; [|discriminate].
  assert (Ls : List.length s = List.length (shape t1)).
  { apply (common_rank _ _ _ Es); [now left|]. intros t Ht. apply in_map_iff in Ht. destruct Ht as (a & <- & Ha). destruct Ha as [<-|Ha]; [lia|]. apply RK. now right. }
  destruct (bshape (shape t1) (shape tau)) as [B|] eqn:EB.
  2: { exfalso. assert (K : compatible [shape t1; shape tau]). { assert (K : compatible (map shape (tau :: args0))) by (apply bshapes_compatible; eauto). intros a b i Ha Hb. apply K; [destruct Ha as [<-|[<-|[]]]|destruct Hb as [<-|[<-|[]]]]; cbn; auto. }
       apply bshapes_compatible in K. destruct K as [v K]. cbn in K. rewrite bshape_nil_r, EB in K. discriminate. }
  assert (LB : List.length B = List.length (shape t1)) by (rewrite (bshape_len _ _ _ EB); specialize (RK tau (or_introl eq_refl)); lia).
  assert (EsB : bshape s B = Some U).
  { assert (E2 : bshapes (map shape args0 ++ [shape t1; shape tau]) = Some U) by (rewrite <- EU; apply bshapes_incl; intros x; cbn; rewrite ?in_app_iff; cbn; tauto).
    rewrite bshapes_app, Es in E2. cbn [bshapes] in E2. now rewrite bshape_nil_r, EB in E2. }
  destruct (fn_array_spec fn args0 s Es UF) as (f & Ef & Sf & Vf). destruct (aS2_spec nmax (op1 cos t1) tau B EB) as (S2 & E2 & Ss2 & V2).
  destruct (op2_ok _ _ _ nscale (amu_x nmax (op1 cos t1)) S2 (B ++ [nmax])) as (mp & Em & Sm).
  { rewrite Ss2. cbn [amu_x stack shape op1]. rewrite bshape_app by lia. now rewrite (proj1 (bshape_absorb _ _ _ EB)). }
  destruct (op2_ok _ _ _ nscale f mp (U ++ [nmax])) as (tm & Et & St). { rewrite Sf, Sm, LN, bshape_app by lia. now rewrite EsB. }
  exists (sum0 tm). split; [|split].
  - unfold aFint. fold args0. rewrite Es. cbv zeta. rewrite Ef. cbn [bind]. rewrite E2. cbn [bind]. rewrite Em. cbn [bind]. rewrite Et. reflexivity.
  - unfold sum0. cbn [shape]. rewrite St. apply removelast_last.
  - intros ix HI. pose proof (index_len _ _ HI) as LI. assert (LU : List.length U = List.length (shape t1)) by (rewrite (bshape_len _ _ _ EsB); lia).
    unfold bcast. assert (E1 : List.length (mu_x nmax (cos (at_ t1 ix))) = nmax) by (unfold mu_x; now rewrite map_length, seq_length). assert (E3 : List.length (S2_mu expi expn nmax (cos (at_ t1 ix)) (at_ tau ix)) = nmax) by (unfold S2_mu; now rewrite map_length, seq_length).
    rewrite !map_length, combine_length, E1, E3, Nat.min_id, LN, Nat.eqb_refl. eexists. split; [reflexivity|]. unfold sum0. cbn [data]. rewrite St, last_last. f_equal.
    rewrite (map_nth_seq _ _ _ fn (mkfunc (fun _ => 0%R) [])). rewrite LN. unfold mu_x, S2_mu. rewrite !combine_map, !map_map, combine_map, map_map. apply map_ext_in. intros k Hk. apply in_seq in Hk. cbn [fst snd].
    rewrite data_at. 2: { rewrite St. apply Forall2_app; [exact HI|]. constructor; [lia|constructor]. }
    assert (LK : List.length (ix ++ [k]) = S (List.length (shape t1))) by (rewrite app_length; cbn; lia).
    rewrite (at_op2 _ _ _ _ _ _ _ _ Et) by (rewrite St, app_length; cbn; lia). rewrite (at_op2 _ _ _ _ _ _ _ _ Em) by (rewrite Sm, app_length; cbn; lia).
    rewrite (Vf ix k (mkfunc (fun _ => 0%R) [])) by lia. rewrite V2 by lia. unfold amu_x. rewrite at_stack by (cbn [shape op1]; lia). reflexivity.
Qed.
End I.
