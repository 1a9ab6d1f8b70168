(** C94: the jacobian with data weights. *)
From Coq Require Import ZArith Reals Bool Lia Lra Permutation Arith List.
From Coquelicot Require Import Coquelicot.
From Verif Require Import Base GF_Model Fit_Model Fit_Spec Fit_Proofs Fit2_Proofs Fit3_Proofs Fit4_Proofs Fit5_Proofs Fit2_Spec Fit6_Proofs Fit_Props Fit2_Props.
Import ListNotations.
Local Open Scope list_scope.
Local Open Scope R_scope.

(** With any data weights (and contiguous groups), the derivative of residual [k] is the entry of the jacobian times the
    weight of its observation; so the entry is right exactly if the weight is 1 or the entry is 0. *)
Theorem C94_exactly : forall gi index idx mask dyns f w d x D, gi <> [] -> length index = length gi ->
  idx_assigns gi = Ok idx -> get_mask gi index = Ok mask ->
  (forall c, In c dyns -> refines gi c /\ contiguous (group_values gi c)) ->
  (forall i a b, (forall q, a q = b q) -> f i a = f i b) ->
  (forall p i, is_derive (fun v => f i (upd1 (theta dyns x i) p v)) (theta dyns x i p) (D p i)) ->
  let res y := residuals Rmult Rminus (map (map w) idx) (map (map (fun i => f i (theta dyns y i))) idx) (map (map d) idx) mask in
  exists blocks, jac_lsq 0 Rplus gi mask (map (fun p => (nth p dyns [], map (map (D p)) idx)) (seq 0 (length dyns))) = Ok (concat blocks) /\
    length blocks = length dyns /\
    forall p g k, (p < length dyns)%nat -> (g < length (uniq (nth p dyns [])))%nat -> (k < length gi)%nat ->
      let entry := nth k (nth g (nth p blocks []) []) 0 in let weight := w (nth k (processing_order gi) 0%nat) in
      is_derive (fun v => nth k (res (upd2 x p g v)) 0) (x p g) (weight * entry) /\
      (is_derive (fun v => nth k (res (upd2 x p g v)) 0) (x p g) entry <-> weight = 1 \/ entry = 0).
Proof.
  intros gi index idx mask dyns f w d x D Hg L Hi Hm Hc Hf HD res.
  pose proof (C60_jacobian_columns R 0 Rplus Rplus_0_r gi index idx mask (map (fun p => (nth p dyns [], D p)) (seq 0 (length dyns))) Hg L Hi Hm) as J.
  rewrite !map_map in J. cbn [fst snd] in J. eexists. split.
  - apply J. intros q Hq. apply in_map_iff in Hq. destruct Hq as (p & <- & Hp). apply in_seq in Hp. cbn [fst]. apply Hc, nth_In. lia.
  - split; [rewrite map_length, seq_length; reflexivity|].
    intros p g k Hp Hgl Hk. rewrite (nth_map_lt _ (seq 0 (length dyns)) p 0%nat) by (rewrite seq_length; auto).
    rewrite seq_nth by auto. cbn [Nat.add]. rewrite (nth_map_lt _ (seq 0 (length (uniq (nth p dyns [])))) g 0%nat) by (rewrite seq_length; auto).
    rewrite seq_nth by auto. cbn [Nat.add].
    assert (Lp : length (processing_order gi) = length gi).
    { rewrite (Permutation_length (processing_order_perm gi)), seq_length. reflexivity. }
    rewrite (nth_map_lt _ (processing_order gi) k 0%nat) by lia. set (i := nth k (processing_order gi) 0%nat). cbv zeta. match goal with |- is_derive _ _ (_ * ?a) /\ _ => set (e := a) end.
    assert (R : is_derive (fun v => nth k (res (upd2 x p g v)) 0) (x p g) (w i * e)).
    { pose proof (residual_derive dyns f w d x Hf D HD p g i) as R.
      apply (is_derive_ext (fun v => w i * (f i (theta dyns (upd2 x p g v) i) - d i))); [|exact R].
      intros v. unfold res. rewrite idx_assigns_ok in Hi by auto. injection Hi as <-.
      rewrite (residuals_ok Rmult Rminus w _ d gi index mask Hg L Hm).
      rewrite (nth_map_lt _ (processing_order gi) k 0%nat) by lia. reflexivity. }
    split; [exact R|]. split.
    + intros R'. apply is_derive_unique in R, R'. rewrite R' in R. destruct (Req_dec e 0) as [Z|Z]; [now right|left]. apply (Rmult_eq_reg_r e); lra.
    + intros [E|E]; [rewrite E, Rmult_1_l in R; exact R|]. rewrite E in *. rewrite Rmult_0_r in R. exact R.
Qed.
Print Assumptions C94_exactly.
(** the hypotheses are those of C94_jacobian_is_derivative; two observations with the weights 1 and 2, f_i(t) = t^2 at t = 3 *)
Example C94_exactly_example : exists idx mask, idx_assigns [1; 1]%Z = Ok idx /\ get_mask [1; 1]%Z [5; 6]%Z = Ok mask /\
  (forall c, In c [[1; 1]%Z] -> refines [1; 1]%Z c /\ contiguous (group_values [1; 1]%Z c)) /\
  (forall p i, is_derive (fun v => (fun (_ : nat) (a : nat -> R) => a 0%nat * a 0%nat) i (upd1 (theta [[1; 1]%Z] (fun _ _ => 3) i) p v))
     (theta [[1; 1]%Z] (fun _ _ => 3) i p) ((fun p _ => if Nat.eqb p 0 then 6 else 0) p i)) /\
  residuals Rmult Rminus (map (map (fun i => INR i + 1)) idx) (map (map (fun _ => 9)) idx) (map (map (fun _ => 8)) idx) mask = [(0 + 1) * (9 - 8); (1 + 1) * (9 - 8)].
Proof.
  destruct C94_example as (idx & mask & A & B & C & D & _). exists idx, mask. split; [exact A|]. split; [exact B|]. split; [exact C|]. split; [exact D|].
  cbv in A, B. injection A as <-. injection B as <-. reflexivity.
Qed.
