(** A reflexive tactic for permutations of appended lists. *)
From Coq Require Import List Permutation Arith.
Import ListNotations.

Section S.
Context {A : Type}.
Definition env_get (env : list (list A)) (i : nat) : list A := nth i env [].
Definition pden (env : list (list A)) (l : list nat) : list A := flat_map (env_get env) l.

Lemma pden_perm env l m : Permutation l m -> Permutation (pden env l) (pden env m).
Proof. intros H. unfold pden. induction H; simpl; [reflexivity| | |etransitivity; eassumption].
  - apply Permutation_app_head. assumption.
  - rewrite !app_assoc. apply Permutation_app_tail. apply Permutation_app_comm.
Qed.

Fixpoint ins (x : nat) (l : list nat) : list nat :=
  match l with [] => [x] | y :: r => if Nat.leb x y then x :: l else y :: ins x r end.
Definition isort (l : list nat) : list nat := fold_right ins [] l.
Lemma ins_perm x l : Permutation (ins x l) (x :: l).
Proof. induction l as [|y r IH]; simpl; [reflexivity|]. destruct (Nat.leb x y); [reflexivity|]. rewrite IH. apply perm_swap. Qed.
Lemma isort_perm l : Permutation (isort l) l.
Proof. induction l as [|x l IH]; simpl; [reflexivity|]. rewrite ins_perm. constructor. exact IH. Qed.

(** expression trees *)
Inductive ptree := PNil | PAtom (i : nat) | PApp (a b : ptree) | PCons (i : nat) (a : ptree).
Fixpoint peval (env : list (list A)) (t : ptree) : list A :=
  match t with
  | PNil => [] | PAtom i => env_get env i | PApp a b => peval env a ++ peval env b
  | PCons i a => env_get env i ++ peval env a
  end.
Fixpoint pflat (t : ptree) : list nat :=
  match t with PNil => [] | PAtom i => [i] | PApp a b => pflat a ++ pflat b | PCons i a => i :: pflat a end.
Lemma pflat_ok env t : peval env t = pden env (pflat t).
Proof.
  induction t; simpl; [reflexivity|rewrite app_nil_r; reflexivity| |rewrite IHt; reflexivity].
  unfold pden in *. rewrite IHt1, IHt2, flat_map_app. reflexivity.
Qed.
Lemma perm_reflect env t u : isort (pflat t) = isort (pflat u) -> Permutation (peval env t) (peval env u).
Proof.
  intros H. rewrite !pflat_ok. apply pden_perm.
  rewrite <- (isort_perm (pflat t)), <- (isort_perm (pflat u)), H. reflexivity.
Qed.
End S.

Ltac pmem x env :=
  match env with
  | @nil _ => constr:(false)
  | x :: _ => constr:(true)
  | _ :: ?r => pmem x r
  end.
Ltac padd x env := match pmem x env with true => env | false => constr:(x :: env) end.
Ltac pcollect t env :=
  match t with
  | @nil _ => env
  | ?a ++ ?b => let e := pcollect a env in pcollect b e
  | ?x :: ?b => let e := padd ([x]) env in pcollect b e
  | ?a => padd a env
  end.
Ltac pidx x env :=
  match env with
  | x :: _ => constr:(O)
  | _ :: ?r => let n := pidx x r in constr:(S n)
  end.
Ltac preify t env :=
  match t with
  | @nil _ => constr:(PNil)
  | ?a ++ ?b => let x := preify a env in let y := preify b env in constr:(PApp x y)
  | ?x :: ?b => let i := pidx ([x]) env in let y := preify b env in constr:(PCons i y)
  | ?a => let i := pidx a env in constr:(PAtom i)
  end.
(** solves [Permutation l m] when both sides have the same segments *)
Ltac perm :=
  match goal with
  | |- @Permutation ?A ?l ?m =>
      let e := pcollect l (@nil (list A)) in
      let e := pcollect m e in
      let t := preify l e in let u := preify m e in
      change (Permutation (peval e t) (peval e u)); apply perm_reflect; reflexivity
  end.

Example perm_test (A : Type) (x : A) (l m n : list A) : Permutation (x :: l ++ (m ++ n)) (n ++ [x] ++ m ++ l).
Proof. perm. Qed.
