(** The jacobian handed to the optimiser and the derivative of the residuals (C94, C95) *)
From Coq Require Import ZArith Reals Bool Lia Lra Permutation Sorted Arith List.
From Coquelicot Require Import Coquelicot.
From Verif Require Import Base GF_Model Fit_Model Fit_Spec Fit_Proofs Fit2_Proofs Fit3_Proofs Fit4_Proofs Fit5_Proofs Fit2_Spec Fit6_Proofs Fit_Props.
Import ListNotations.
Local Open Scope list_scope.
Local Open Scope R_scope.

(** Without data weights (all 1) and with contiguous groups, the entry of the
    jacobian for residual [k] and group [g] of parameter [p] is the derivative
    of residual [k] with respect to that value. *)
Theorem C94_jacobian_is_derivative : forall gi index idx mask dyns f d x D, gi <> [] -> length index = length gi ->
  idx_assigns gi = Ok idx -> get_mask gi index = Ok mask ->
  (forall c, In c dyns -> refines gi c /\ contiguous (group_values gi c)) ->
  (forall i a b, (forall q, a q = b q) -> f i a = f i b) ->
  (forall p i, is_derive (fun v => f i (upd1 (theta dyns x i) p v)) (theta dyns x i p) (D p i)) ->
  let res y := residuals Rmult Rminus (map (map (fun _ => 1)) idx) (map (map (fun i => f i (theta dyns y i))) idx) (map (map d) idx) mask in
  exists blocks, jac_lsq 0 Rplus gi mask (map (fun p => (nth p dyns [], map (map (D p)) idx)) (seq 0 (length dyns))) = Ok (concat blocks) /\
    length blocks = length dyns /\
    forall p g k, (p < length dyns)%nat -> (g < length (uniq (nth p dyns [])))%nat -> (k < length gi)%nat ->
      is_derive (fun v => nth k (res (upd2 x p g v)) 0) (x p g) (nth k (nth g (nth p blocks []) []) 0).
Proof.
  intros gi index idx mask dyns f d x D Hg L Hi Hm Hc Hf HD res.
  pose proof (C60_jacobian_columns R 0 Rplus Rplus_0_r gi index idx mask (map (fun p => (nth p dyns [], D p)) (seq 0 (length dyns))) Hg L Hi Hm) as J.
  rewrite !map_map in J. cbn [fst snd] in J. eexists. split.
  - apply J. intros q Hq. apply in_map_iff in Hq. destruct Hq as (p & <- & Hp). apply in_seq in Hp. cbn [fst]. apply Hc, nth_In. lia.
  - split; [rewrite map_length, seq_length; reflexivity|].
    intros p g k Hp Hgl Hk. rewrite (nth_map_lt _ (seq 0 (length dyns)) p 0%nat) by (rewrite seq_length; auto).
    rewrite seq_nth by auto. cbn [Nat.add]. rewrite (nth_map_lt _ (seq 0 (length (uniq (nth p dyns [])))) g 0%nat) by (rewrite seq_length; auto).
    rewrite seq_nth by auto. cbn [Nat.add].
    assert (Lp : length (processing_order gi) = length gi).
    { rewrite (Permutation_length (processing_order_perm gi)), seq_length. reflexivity. }
    rewrite (nth_map_lt _ (processing_order gi) k 0%nat) by lia. set (i := nth k (processing_order gi) 0%nat).
    pose proof (residual_derive dyns f (fun _ => 1) d x Hf D HD p g i) as R. rewrite Rmult_1_l in R.
    apply (is_derive_ext (fun v => 1 * (f i (theta dyns (upd2 x p g v) i) - d i))); [|exact R].
    intros v. unfold res. rewrite idx_assigns_ok in Hi by auto. injection Hi as <-.
    rewrite (residuals_ok Rmult Rminus (fun _ => 1) _ d gi index mask Hg L Hm).
    rewrite (nth_map_lt _ (processing_order gi) k 0%nat) by lia. reflexivity.
Qed.
Print Assumptions C94_jacobian_is_derivative.

(** two observations, one parameter with one group: f_i(t) = t^2, at t = 3 *)
Example C94_example : exists idx mask, idx_assigns [1; 1]%Z = Ok idx /\ get_mask [1; 1]%Z [5; 6]%Z = Ok mask /\
  (forall c, In c [[1; 1]%Z] -> refines [1; 1]%Z c /\ contiguous (group_values [1; 1]%Z c)) /\
  (forall p i, is_derive (fun v => (fun (_ : nat) (a : nat -> R) => a 0%nat * a 0%nat) i (upd1 (theta [[1; 1]%Z] (fun _ _ => 3) i) p v))
     (theta [[1; 1]%Z] (fun _ _ => 3) i p) ((fun p _ => if Nat.eqb p 0 then 6 else 0) p i)) /\
  jac_lsq 0 Rplus [1; 1]%Z mask (map (fun p => (nth p [[1; 1]%Z] [], map (map ((fun p (_ : nat) => if Nat.eqb p 0 then 6 else 0) p)) idx)) (seq 0 1)) = Ok [[6; 6]].
Proof.
  eexists. eexists. split; [reflexivity|]. split; [reflexivity|]. split; [|split; [|reflexivity]].
  - intros c [<-|[]]. split; [split; [reflexivity|intros; auto]|]. intros i j k Hij Hk. unfold group_values in Hk. simpl in Hk. lia.
  - intros p i. unfold theta, upd1. destruct p as [|p]; simpl.
    + auto_derive; [exact I|]. ring.
    + apply (is_derive_const (V := R_NormedModule)).
Qed.

(** With data weights the jacobian is not the derivative of the residuals. *)
Theorem C94_refuted : exists gi index idx mask dyns f w d x D, gi <> [] /\ length index = length gi /\
  idx_assigns gi = Ok idx /\ get_mask gi index = Ok mask /\
  (forall c, In c dyns -> refines gi c /\ contiguous (group_values gi c)) /\
  (forall p i, is_derive (fun v => f i (upd1 (theta dyns x i) p v)) (theta dyns x i p) (D p i)) /\
  (forall i, 0 < w i) /\
  exists rows, jac_lsq 0 Rplus gi mask (map (fun p => (nth p dyns [], map (map (D p)) idx)) (seq 0 (length dyns))) = Ok rows /\
    ~ is_derive (fun v => nth 0 (residuals Rmult Rminus (map (map w) idx) (map (map (fun i => f i (theta dyns (upd2 x 0 0 v) i))) idx) (map (map d) idx) mask) 0)
        (x 0%nat 0%nat) (nth 0 (nth 0 rows []) 0).
Proof.
  exists [1]%Z, [5]%Z. eexists. eexists. exists [[1]%Z], (fun _ a => a 0%nat), (fun _ => 2), (fun _ => 0), (fun _ _ => 3),
    (fun p _ => if Nat.eqb p 0 then 1 else 0).
  split; [discriminate|]. split; [reflexivity|]. split; [reflexivity|]. split; [reflexivity|]. split; [|split; [|split; [intros; lra|]]].
  - intros c [<-|[]]. split; [split; [reflexivity|]|].
    + simpl. intros [|i] [|j]; simpl; intros; try lia; auto.
    + intros i j k Hij Hk. unfold group_values in Hk. simpl in Hk. lia.
  - intros p i. unfold theta, upd1. destruct p as [|p]; simpl.
    + apply (is_derive_id (K := R_AbsRing)).
    + apply (is_derive_const (V := R_NormedModule)).
  - eexists. split; [reflexivity|]. simpl. intros H.
    assert (H2 : is_derive (fun v : R => 2 * (theta [[1]%Z] (upd2 (fun _ _ => 3) 0 0 v) 0 0 - 0)) 3 2).
    { apply (is_derive_ext (fun v => 2 * v)).
      - intros v. unfold theta, upd2. simpl. ring.
      - auto_derive; [exact I|ring]. }
    apply is_derive_unique in H, H2. rewrite H in H2. lra.
Qed.
Print Assumptions C94_refuted.

(** Interpolated parameters: the value of observation [i] is a linear
    combination [sum_g L i g * x g] of the fitted values; the jacobian uses
    the step rule all the same.  Its entries are the derivatives of the
    residuals exactly where the interpolation is the step assignment (or the
    model does not depend on the parameter). *)
Theorem C95_interpolation_exact : forall (dyn : list Z) (L : nat -> nat -> R) (h : nat -> R -> R) (D : nat -> R) (x : nat -> R) i g n,
  (g < n)%nat ->
  let value (y : nat -> R) : R := sum_n (fun q => L i q * y q) n in
  is_derive (h i) (value x) (D i) ->
  (is_derive (fun v => h i (value (fun q => if Nat.eqb q g then v else x q))) (x g)
     (if Nat.eqb (rank dyn (nth i dyn 0%Z)) g then D i else 0)
   <-> D i = 0 \/ L i g = (if Nat.eqb (rank dyn (nth i dyn 0%Z)) g then 1 else 0)).
Proof.
  intros dyn L h D x i g n Hg value HD.
  assert (Hv : forall v, value (fun q => if Nat.eqb q g then v else x q) = value x + L i g * (v - x g)).
  { intros v. unfold value. assert (G : forall m, sum_n (fun q => L i q * (if Nat.eqb q g then v else x q)) m =
        sum_n (fun q => L i q * x q) m + (if Nat.leb g m then L i g * (v - x g) else 0)).
    { induction m as [|m IH].
      - rewrite !sum_O. destruct g as [|g]; simpl; ring.
      - rewrite !sum_Sn, IH. unfold plus; cbn -[Nat.eqb Nat.leb].
        destruct (Nat.eqb_spec (S m) g) as [E|N]; destruct (Nat.leb_spec g (S m)); destruct (Nat.leb_spec g m); try lia; try ring.
        rewrite E. ring. }
    rewrite G. destruct (Nat.leb_spec g n); [reflexivity|lia]. }
  assert (True' : is_derive (fun v => h i (value (fun q => if Nat.eqb q g then v else x q))) (x g) (L i g * D i)).
  { apply (is_derive_ext (fun v => h i (value x + L i g * (v - x g)))); [intros v; rewrite Hv; reflexivity|].
    assert (Hx : value x = value x + L i g * (x g - x g)) by ring.
    apply (is_derive_comp (h i) (fun v => value x + L i g * (v - x g)) (x g) (D i) (L i g)).
    - rewrite <- Hx. exact HD.
    - auto_derive; [exact I|ring]. }
  split.
  - intros H. apply is_derive_unique in H, True'. rewrite H in True'.
    destruct (Nat.eqb (rank dyn (nth i dyn 0%Z)) g).
    + destruct (Req_dec (D i) 0); [left; auto|right]. apply (Rmult_eq_reg_r (D i)); auto. lra.
    + destruct (Req_dec (D i) 0); [left; auto|right]. apply (Rmult_eq_reg_r (D i)); auto. lra.
  - intros H. assert (E : (if Nat.eqb (rank dyn (nth i dyn 0%Z)) g then D i else 0) = L i g * D i).
    { destruct H as [-> | ->]; destruct (Nat.eqb (rank dyn (nth i dyn 0%Z)) g); ring. }
    exact (eq_ind_r (fun z : R => is_derive (fun v => h i (value (fun q => if Nat.eqb q g then v else x q))) (x g) z) True' E).
Qed.
Print Assumptions C95_interpolation_exact.

(** an observation half way between two fitted values *)
Theorem C95_refuted : exists (dyn : list Z) (L : nat -> nat -> R) (h : nat -> R -> R) (D : nat -> R) (x : nat -> R) i g n,
  (forall y, sum_n (fun q => L i q * y q) n = (y 0%nat + y 1%nat) / 2) /\
  is_derive (h i) (sum_n (fun q => L i q * x q) n) (D i) /\
  ~ is_derive (fun v => h i (sum_n (fun q => L i q * (if Nat.eqb q g then v else x q)) n)) (x g)
      (if Nat.eqb (rank dyn (nth i dyn 0%Z)) g then D i else 0).
Proof.
  exists [1; 1; 2; 2]%Z, (fun _ q => if Nat.ltb q 2 then 1 / 2 else 0), (fun _ v => v), (fun _ => 1), (fun _ => 3), 1%nat, 0%nat, 1%nat.
  assert (E : forall y : nat -> R, sum_n (fun q => (if Nat.ltb q 2 then 1 / 2 else 0) * y q) 1 = (y 0%nat + y 1%nat) / 2).
  { intros y. rewrite sum_Sn, sum_O. unfold plus; simpl. lra. }
  split; [exact E|]. split; [apply (is_derive_id (K := R_AbsRing))|].
  intros H. simpl in H.
  assert (H2 : is_derive (fun v : R => sum_n (fun q => (if Nat.ltb q 2 then 1 / 2 else 0) * (if Nat.eqb q 0 then v else 3)) 1) 3 (1 / 2)).
  { apply (is_derive_ext (fun v => (v + 3) / 2)); [intros v; rewrite (E (fun q => if Nat.eqb q 0 then v else 3)); reflexivity|].
    auto_derive; [exact I|lra]. }
  apply is_derive_unique in H, H2. rewrite H in H2. lra.
Qed.
Print Assumptions C95_refuted.

Example C95_example : let L := fun _ q : nat => if Nat.eqb q 1 then 1 else 0 in
  (1 < 2)%nat /\ is_derive (fun v : R => v) (sum_n (fun q => L 2%nat q * 3) 2) 1 /\ rank [1; 1; 2; 2]%Z (nth 2 [1; 1; 2; 2]%Z 0%Z) = 1%nat.
Proof. simpl. split; [lia|]. split; [apply (is_derive_id (K := R_AbsRing))|reflexivity]. Qed.
