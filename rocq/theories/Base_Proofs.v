(** Facts about the common vocabulary. *)
From Coq Require Import List Arith Bool Lia Permutation.
From Verif Require Import Base.
Import ListNotations.

Section DictFacts.
  Context {K V : Type} (keq : forall x y : K, {x = y} + {x <> y}).

  Lemma dget_dset_same k (v : V) d : dget keq k (dset keq k v d) = Some v.
  Proof.
    induction d as [|[k' v'] r IH]; simpl.
    - destruct (keq k k); congruence.
    - destruct (keq k k') as [->|Hn]; simpl.
      + destruct (keq k' k'); congruence.
      + destruct (keq k k'); [congruence|exact IH].
  Qed.

  Lemma dget_dset_other k k2 (v : V) d : k2 <> k -> dget keq k2 (dset keq k v d) = dget keq k2 d.
  Proof.
    intros Hn. induction d as [|[k' v'] r IH]; simpl.
    - destruct (keq k2 k); congruence.
    - destruct (keq k k') as [->|H1]; simpl.
      + destruct (keq k2 k'); congruence.
      + destruct (keq k2 k'); [reflexivity|exact IH].
  Qed.

  Lemma dget_some_in k (v : V) d : dget keq k d = Some v -> In (k, v) d.
  Proof.
    induction d as [|[k' v'] r IH]; simpl; [discriminate|].
    destruct (keq k k') as [->|Hn]; intros H.
    - inversion H; subst; auto.
    - auto.
  Qed.

  Lemma dget_in_keys k (d : dict K V) : In k (keys d) <-> dget keq k d <> None.
  Proof.
    induction d as [|[k' v'] r IH]; simpl.
    - split; [tauto|congruence].
    - destruct (keq k k') as [->|Hn].
      + split; [congruence|auto].
      + rewrite <- IH. split; [intros [->|]; [congruence|auto]|auto].
  Qed.

  Lemma dget_none k (d : dict K V) : ~ In k (keys d) <-> dget keq k d = None.
  Proof.
    rewrite dget_in_keys. destruct (dget keq k d).
    - split; [intros H; exfalso; apply H; congruence|discriminate].
    - split; [reflexivity|intros _ H; congruence].
  Qed.

  Lemma keys_dset k (v : V) d :
    keys (dset keq k v d) = if in_dec keq k (keys d) then keys d else keys d ++ [k].
  Proof.
    induction d as [|[k' v'] r IH]; simpl; [reflexivity|].
    unfold keys in *. simpl.
    destruct (keq k k') as [->|Hn]; simpl.
    - destruct (keq k' k'); [|congruence]. reflexivity.
    - rewrite IH. destruct (keq k' k); [congruence|].
      destruct (in_dec keq k (map fst r)); reflexivity.
  Qed.

  Lemma in_keys_dset k k2 (v : V) d : In k2 (keys (dset keq k v d)) <-> k2 = k \/ In k2 (keys d).
  Proof.
    rewrite keys_dset. destruct (in_dec keq k (keys d)).
    - split; [auto|intros [->|]; auto].
    - rewrite in_app_iff; simpl. split; [intros [|[]]; auto|intros [->|]; auto]. tauto.
  Qed.

  Lemma NoDup_app_single {A} (l : list A) x : NoDup l -> ~ In x l -> NoDup (l ++ [x]).
  Proof.
    intros H Hn. apply NoDup_Add with (a := x) (l := l).
    - rewrite <- (app_nil_r l) at 1. apply Add_app.
    - auto.
  Qed.

  Lemma NoDup_keys_dset k (v : V) d : NoDup (keys d) -> NoDup (keys (dset keq k v d)).
  Proof.
    intros H. rewrite keys_dset. destruct (in_dec keq k (keys d)); [auto|].
    apply NoDup_app_single; auto.
  Qed.

  Lemma dget_in_nodup k (v : V) d : NoDup (keys d) -> In (k, v) d -> dget keq k d = Some v.
  Proof.
    induction d as [|[k' v'] r IH]; simpl; [tauto|].
    intros Hnd [H|H].
    - inversion H; subst. destruct (keq k k); congruence.
    - inversion Hnd; subst. destruct (keq k k') as [->|Hn]; auto.
      exfalso. apply H2. change k' with (fst (k', v)). apply in_map; auto.
  Qed.

  Lemma keys_ddel k (d : dict K V) : NoDup (keys d) -> keys (ddel keq k d) = remove keq k (keys d).
  Proof.
    induction d as [|[k' v'] r IH]; simpl; [reflexivity|].
    intros Hnd; inversion Hnd; subst.
    destruct (keq k k') as [->|Hn].
    - symmetry. apply notin_remove; auto.
    - simpl. f_equal. auto.
  Qed.

  Lemma dget_ddel_same k (d : dict K V) : NoDup (keys d) -> dget keq k (ddel keq k d) = None.
  Proof.
    intros H. apply dget_none. rewrite keys_ddel by auto. apply remove_In.
  Qed.

  Lemma dget_ddel_other k k2 (d : dict K V) : k2 <> k -> dget keq k2 (ddel keq k d) = dget keq k2 d.
  Proof.
    intros Hn. induction d as [|[k' v'] r IH]; simpl; [reflexivity|].
    destruct (keq k k') as [->|H1]; simpl.
    - destruct (keq k2 k'); congruence.
    - destruct (keq k2 k'); auto.
  Qed.

  Lemma dupdate_cons d k (v : V) e : dupdate keq d ((k, v) :: e) = dupdate keq (dset keq k v d) e.
  Proof. reflexivity. Qed.

  Lemma dget_dupdate k (e d : dict K V) : NoDup (keys e) ->
    dget keq k (dupdate keq d e) = match dget keq k e with Some v => Some v | None => dget keq k d end.
  Proof.
    revert d. induction e as [|[k' v'] r IH]; intros d Hnd; [reflexivity|].
    rewrite dupdate_cons. inversion Hnd; subst. rewrite IH by auto. simpl.
    destruct (keq k k') as [->|Hn].
    - assert (dget keq k' r = None) as -> by (apply dget_none; auto).
      apply dget_dset_same.
    - destruct (dget keq k r); [reflexivity|]. apply dget_dset_other; auto.
  Qed.

  Lemma NoDup_keys_dupdate (e d : dict K V) : NoDup (keys d) -> NoDup (keys (dupdate keq d e)).
  Proof.
    revert d. induction e as [|[k' v'] r IH]; intros d Hnd; [exact Hnd|].
    rewrite dupdate_cons. apply IH. apply NoDup_keys_dset; auto.
  Qed.

  Lemma inb_iff {A} (eqd : forall x y : A, {x = y} + {x <> y}) x l : inb eqd x l = true <-> In x l.
  Proof. unfold inb. destruct (in_dec eqd x l); split; auto; discriminate. Qed.

  Lemma inb_false {A} (eqd : forall x y : A, {x = y} + {x <> y}) x l : inb eqd x l = false <-> ~ In x l.
  Proof. unfold inb. destruct (in_dec eqd x l); split; auto; [discriminate|tauto]. Qed.
End DictFacts.

Lemma skipn_skipn {A} (x y : nat) (l : list A) : skipn x (skipn y l) = skipn (x + y) l.
Proof.
  revert l. induction y as [|y IH]; intros l.
  - rewrite Nat.add_0_r. reflexivity.
  - destruct l as [|a l]; [rewrite !skipn_nil; reflexivity|].
    rewrite <- plus_n_Sm. simpl. apply IH.
Qed.
