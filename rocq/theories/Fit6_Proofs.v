(** Derivative of one residual with respect to one value of the fit vector *)
From Coq Require Import ZArith Reals Bool Lia Lra Arith List.
From Coquelicot Require Import Coquelicot.
From Verif Require Import Fit_Spec Fit2_Spec.
Import ListNotations.
Local Open Scope list_scope.
Local Open Scope R_scope.

Lemma theta_upd dyns x p g i v : forall q,
  theta dyns (upd2 x p g v) i q =
  if Nat.eqb q p && Nat.eqb (rank (nth q dyns []) (nth i (nth q dyns []) 0%Z)) g then v else theta dyns x i q.
Proof. intros q. reflexivity. Qed.

Section Deriv.
Variables (dyns : list (list Z)) (f : nat -> (nat -> R) -> R) (w d : nat -> R) (x : nat -> nat -> R).
(** the model depends on the parameter values only *)
Hypothesis f_ext : forall i a b, (forall q, a q = b q) -> f i a = f i b.
Variable D : nat -> nat -> R.
(** [D p i]: derivative of the model for observation [i] with respect to parameter [p] *)
Hypothesis D_ok : forall p i, is_derive (fun v => f i (upd1 (theta dyns x i) p v)) (theta dyns x i p) (D p i).

Lemma residual_derive p g i :
  is_derive (fun v => w i * (f i (theta dyns (upd2 x p g v) i) - d i)) (x p g)
    (w i * (if Nat.eqb (rank (nth p dyns []) (nth i (nth p dyns []) 0%Z)) g then D p i else 0)).
Proof using f_ext D_ok.
  destruct (Nat.eqb_spec (rank (nth p dyns []) (nth i (nth p dyns []) 0%Z)) g) as [E|N].
  - assert (H : is_derive (fun v => f i (theta dyns (upd2 x p g v) i)) (x p g) (D p i)).
    { apply (is_derive_ext (fun v => f i (upd1 (theta dyns x i) p v))).
      - intros v. apply f_ext. intros q. rewrite theta_upd. unfold upd1.
        destruct (Nat.eqb_spec q p) as [->|]; [|reflexivity]. rewrite E, Nat.eqb_refl. reflexivity.
      - assert (Ex : x p g = theta dyns x i p) by (unfold theta; rewrite E; reflexivity). rewrite Ex. apply D_ok. }
    assert (H1 : is_derive (fun v => f i (theta dyns (upd2 x p g v) i) - d i) (x p g) (D p i)).
    { replace (D p i) with (minus (D p i) (zero : R)) by (unfold minus, plus, opp, zero; simpl; ring).
      apply (is_derive_minus (V := R_NormedModule)); [exact H|apply (is_derive_const (V := R_NormedModule))]. }
    apply (is_derive_scal _ _ (w i)), H1.
  - apply (is_derive_ext (fun _ => w i * (f i (theta dyns x i) - d i))).
    + intros v. f_equal. f_equal. apply f_ext. intros q. rewrite theta_upd.
      destruct (Nat.eqb_spec q p) as [->|]; [|reflexivity]. rewrite (proj2 (Nat.eqb_neq _ _) N). reflexivity.
    + rewrite Rmult_0_r. apply (is_derive_const (V := R_NormedModule)).
Qed.
End Deriv.
