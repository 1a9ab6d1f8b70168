(** Proofs about the cosine lobe coefficients and linear combinations. *)
From Coq Require Import Reals List Lra Lia Arith Psatz ZArith Permutation Bool.
From Coquelicot Require Import Coquelicot.
From Verif Require Import Base Sca_Model Leg_Proofs Sca_Proofs.
Import ListNotations.
Local Open Scope R_scope.

(** ** half-integer Gamma *)
Lemma gam2_SS m : (1 <= m)%nat -> gam2 (S (S m)) = INR m / 2 * gam2 m.
Proof. destruct m; [lia|]. reflexivity. Qed.
Lemma gam2_pos k : (1 <= k)%nat -> 0 < gam2 k.
Proof.
  assert (H : forall k, ((1 <= k)%nat -> 0 < gam2 k) /\ ((1 <= S k)%nat -> 0 < gam2 (S k))).
  { induction k0 as [|n [A B]].
    - split; [lia|]. intros _. simpl. apply sqrt_lt_R0, PI_pos.
    - split; [exact B|]. intros _. destruct n as [|n]; [simpl; lra|].
      rewrite gam2_SS by lia. apply Rmult_lt_0_compat; [|apply A; lia].
      apply Rdiv_lt_0_compat; [apply lt_0_INR; lia|lra]. }
  apply H.
Qed.

Lemma rgam2_up_pos f z : (1 <= z)%Z -> rgam2_up f z = / gam2 (Z.to_nat z).
Proof. intros H. destruct f; simpl; replace (1 <=? z)%Z with true by (symmetry; apply Z.leb_le; lia); reflexivity. Qed.
Lemma rgam2_up_neg f z : (z <= 0)%Z -> rgam2_up (S f) z = IZR z / 2 * rgam2_up f (z + 2).
Proof. intros H. simpl; replace (1 <=? z)%Z with false by (symmetry; apply Z.leb_gt; lia); reflexivity. Qed.
Lemma rgam2_fuel f : forall g z, (1 <= 2 * Z.of_nat f + z)%Z -> (1 <= 2 * Z.of_nat g + z)%Z ->
  rgam2_up f z = rgam2_up g z.
Proof.
  induction f as [|f IH]; intros g z H1 H2.
  - rewrite !rgam2_up_pos by lia. reflexivity.
  - destruct (Z_le_dec 1 z); [rewrite !rgam2_up_pos by lia; reflexivity|].
    destruct g as [|g]; [lia|]. rewrite !rgam2_up_neg by lia. f_equal. apply IH; lia.
Qed.
Lemma rgam2_pos z : (1 <= z)%Z -> rgam2 z = / gam2 (Z.to_nat z).
Proof. apply rgam2_up_pos. Qed.
Lemma rgam2_feq z : rgam2 z = IZR z / 2 * rgam2 (z + 2).
Proof.
  destruct (Z_le_dec 1 z).
  - rewrite !rgam2_pos by lia. replace (Z.to_nat (z + 2)) with (S (S (Z.to_nat z))) by lia.
    rewrite gam2_SS by lia. rewrite INR_IZR_INZ, Z2Nat.id by lia.
    assert (0 < gam2 (Z.to_nat z)) by (apply gam2_pos; lia). assert (0 < IZR z) by (apply IZR_lt; lia).
    field. split; lra.
  - unfold rgam2 at 1. rewrite rgam2_up_neg by lia. f_equal. apply rgam2_fuel; lia.
Qed.

(** duplication formula *)
Lemma gam2_dup i : gam2 (2 + i) * gam2 (3 + i) = / 2 ^ (1 + i) * sqrt PI * gam2 (4 + 2 * i).
Proof.
  induction i as [|i IH].
  - simpl. field.
  - replace (2 + S i)%nat with (3 + i)%nat by lia. replace (3 + S i)%nat with (S (S (2 + i))) by lia.
    replace (4 + 2 * S i)%nat with (S (S (4 + 2 * i))) by lia. rewrite !gam2_SS by lia.
    replace (gam2 (3 + i) * (INR (2 + i) / 2 * gam2 (2 + i))) with (INR (2 + i) / 2 * (gam2 (2 + i) * gam2 (3 + i))) by ring.
    rewrite IH. replace (INR (4 + 2 * i)) with (2 * INR (2 + i)) by (rewrite !plus_INR, mult_INR; simpl; ring).
    simpl pow. field. apply pow_nonzero; lra.
Qed.

Definition clv (i n : nat) : R :=
  / 2 ^ (1 + i) * sqrt PI * gam2 (2 + 2 * i) * (rgam2 (2 - Z.of_nat n + Z.of_nat i) * rgam2 (3 + Z.of_nat n + Z.of_nat i)).

Lemma clv_0 i : clv i 0 = / INR (S i).
Proof.
  unfold clv. rewrite !rgam2_pos by lia.
  replace (Z.to_nat (2 - Z.of_nat 0 + Z.of_nat i)) with (2 + i)%nat by lia.
  replace (Z.to_nat (3 + Z.of_nat 0 + Z.of_nat i)) with (3 + i)%nat by lia.
  pose proof (gam2_dup i) as D. replace (4 + 2 * i)%nat with (S (S (2 + 2 * i))) in D by lia.
  rewrite gam2_SS in D by lia.
  pose proof (gam2_pos (2 + i) ltac:(lia)). pose proof (gam2_pos (3 + i) ltac:(lia)). pose proof (gam2_pos (2 + 2 * i) ltac:(lia)) as P3.
  replace (INR (2 + 2 * i)) with (2 * INR (S i)) in D by (rewrite plus_INR, mult_INR, S_INR; simpl; ring).
  rewrite <- Rinv_mult by lra. rewrite D.
  assert (0 < 2 ^ (1 + i)) by (apply pow_lt; lra). assert (0 < sqrt PI) by (apply sqrt_lt_R0, PI_pos).
  assert (0 < INR (S i)) by (apply lt_0_INR; lia).
  field. repeat split; lra.
Qed.
Lemma clv_1 i : clv i 1 = / INR (S (S i)).
Proof.
  unfold clv. rewrite !rgam2_pos by lia.
  replace (Z.to_nat (2 - Z.of_nat 1 + Z.of_nat i)) with (1 + i)%nat by lia.
  replace (Z.to_nat (3 + Z.of_nat 1 + Z.of_nat i)) with (S (S (2 + i)))%nat by lia.
  pose proof (gam2_dup i) as D. replace (4 + 2 * i)%nat with (S (S (2 + 2 * i))) in D by lia.
  replace (3 + i)%nat with (S (S (1 + i))) in D by lia.
  rewrite !gam2_SS in D by lia. rewrite gam2_SS by lia.
  pose proof (gam2_pos (2 + i) ltac:(lia)). pose proof (gam2_pos (1 + i) ltac:(lia)). pose proof (gam2_pos (2 + 2 * i) ltac:(lia)) as P3.
  replace (INR (2 + 2 * i)) with (2 * INR (1 + i)) in D by (rewrite !plus_INR, mult_INR; simpl; ring).
  assert (0 < 2 ^ (1 + i)) by (apply pow_lt; lra). assert (0 < sqrt PI) by (apply sqrt_lt_R0, PI_pos).
  assert (0 < INR (1 + i)) by (apply lt_0_INR; lia). assert (0 < INR (2 + i)) by (apply lt_0_INR; lia).
  change (S (S i)) with (2 + i)%nat.
  assert (E : gam2 (2 + i) * gam2 (1 + i) = / 2 ^ (1 + i) * sqrt PI * 2 * gam2 (2 + 2 * i)).
  { apply (Rmult_eq_reg_l (INR (1 + i) / 2)); [|lra]. 
    replace (INR (1 + i) / 2 * (gam2 (2 + i) * gam2 (1 + i))) with (gam2 (2 + i) * (INR (1 + i) / 2 * gam2 (1 + i))) by ring.
    rewrite D. field. lra. }
  replace (/ gam2 (1 + i) * / (INR (2 + i) / 2 * gam2 (2 + i))) with (2 / INR (2 + i) * / (gam2 (2 + i) * gam2 (1 + i))) by (field; repeat split; lra).
  rewrite E. field. repeat split; lra.
Qed.
Lemma clv_rec i n : INR (S (S n)) * clv i (S (S n)) = (2 * INR (S n) + 1) * clv (S i) (S n) - INR (S n) * clv i n.
Proof.
  unfold clv.
  replace (2 + 2 * S i)%nat with (S (S (2 + 2 * i))) by lia. rewrite gam2_SS by lia.
  replace (2 - Z.of_nat (S (S n)) + Z.of_nat i)%Z with (Z.of_nat i - Z.of_nat n)%Z by lia.
  replace (2 - Z.of_nat (S n) + Z.of_nat (S i))%Z with (Z.of_nat i - Z.of_nat n + 2)%Z by lia.
  replace (2 - Z.of_nat n + Z.of_nat i)%Z with (Z.of_nat i - Z.of_nat n + 2)%Z by lia.
  replace (3 + Z.of_nat (S (S n)) + Z.of_nat i)%Z with (3 + Z.of_nat n + Z.of_nat i + 2)%Z by lia.
  replace (3 + Z.of_nat (S n) + Z.of_nat (S i))%Z with (3 + Z.of_nat n + Z.of_nat i + 2)%Z by lia.
  rewrite (rgam2_feq (Z.of_nat i - Z.of_nat n)), (rgam2_feq (3 + Z.of_nat n + Z.of_nat i)).
  rewrite minus_IZR, !plus_IZR, <- !INR_IZR_INZ, !S_INR, plus_INR, mult_INR.
  generalize (rgam2 (Z.of_nat i - Z.of_nat n + 2)) as X. generalize (rgam2 (3 + Z.of_nat n + Z.of_nat i + 2)) as Y.
  intros Y X. replace (1 + S i)%nat with (S (1 + i)) by lia. simpl pow. simpl (INR 2).
  assert (2 ^ i <> 0) by (apply pow_nonzero; lra). field. exact H.
Qed.

(** moments of the Legendre polynomials on [0,1] *)
Lemma leg_continuous n x : continuous (leg n) x.
Proof.
  assert (H : continuous (leg n) x /\ continuous (leg (S n)) x); [|tauto].
  induction n as [|n [A B]].
  - split.
    + apply continuous_ext with (fun _ => 1). intros; symmetry; apply leg_0. apply continuous_const.
    + apply continuous_ext with (fun y => y). intros; symmetry; apply leg_1. apply continuous_id.
  - split; [exact B|].
    apply continuous_ext with (fun y => / INR (S (S n)) * ((2 * INR (S n) + 1) * (y * leg (S n) y) - INR (S n) * leg n y)).
    { intros y. apply (Rmult_eq_reg_l (INR (S (S n)))); [|apply not_0_INR; lia]. rewrite leg_rec. field. apply not_0_INR; lia. }
    apply contM; [apply contC|]. apply contB; (apply contM; [apply contC|]).
    + apply contM; [apply contI|exact B].
    + exact A.
Qed.

Lemma is_RInt_minusR (f g : R -> R) (a b l m : R) : is_RInt f a b l -> is_RInt g a b m ->
  is_RInt (fun x => f x - g x) a b (l - m).
Proof. intros H K. exact (is_RInt_minus f g a b l m H K). Qed.
Lemma is_RInt_plusR (f g : R -> R) (a b l m : R) : is_RInt f a b l -> is_RInt g a b m ->
  is_RInt (fun x => f x + g x) a b (l + m).
Proof. intros H K. exact (is_RInt_plus f g a b l m H K). Qed.

Lemma moment_0 i : is_RInt (fun x => x ^ i) 0 1 (/ INR (S i)).
Proof.
  set (F := fun x => / INR (S i) * x ^ (S i)).
  assert (Hi : INR (S i) <> 0) by (apply not_0_INR; lia).
  apply is_RInt_replace with (l := F 1 - F 0).
  { unfold F. rewrite pow1, pow_i by lia. ring. }
  apply is_RInt_FTC; [lra| |].
  - intros x _. unfold F. auto_derive. exact I. 
    change (match i with 0%nat => 1 | S _ => INR i + 1 end) with (INR (S i)). field. exact Hi.
  - intros x _. apply ex_derive_cont. auto_derive. exact I.
Qed.

Lemma moment i n : is_RInt (fun x => x ^ i * leg n x) 0 1 (clv i n).
Proof.
  assert (H : forall i, is_RInt (fun x => x ^ i * leg n x) 0 1 (clv i n) /\ is_RInt (fun x => x ^ i * leg (S n) x) 0 1 (clv i (S n))); [|apply H].
  clear i. induction n as [|n IH]; intros i.
  - split.
    + rewrite clv_0. eapply is_RInt_extR; [lra| |apply moment_0]. intros x _; cbv beta; rewrite leg_0; ring.
    + rewrite clv_1. eapply is_RInt_extR; [lra| |apply (moment_0 (S i))]. intros x _; cbv beta; rewrite leg_1; simpl; ring.
  - destruct (IH i) as [A B]. destruct (IH (S i)) as [_ C]. split; [exact B|].
    assert (Hn : INR (S (S n)) <> 0) by (apply not_0_INR; lia).
    apply is_RInt_replace with (l := / INR (S (S n)) * ((2 * INR (S n) + 1) * clv (S i) (S n) - INR (S n) * clv i n)).
    { rewrite <- clv_rec. field. exact Hn. }
    pose proof (is_RInt_scalR _ _ _ (/ INR (S (S n))) _ (is_RInt_minusR _ _ _ _ _ _
       (is_RInt_scalR _ _ _ (2 * INR (S n) + 1) _ C) (is_RInt_scalR _ _ _ (INR (S n)) _ A))) as Q.
    eapply is_RInt_extR; [lra| |exact Q].
    intros x _. cbv beta. apply (Rmult_eq_reg_l (INR (S (S n)))); [|exact Hn].
    replace (INR (S (S n)) * (x ^ i * leg (S (S n)) x)) with (x ^ i * (INR (S (S n)) * leg (S (S n)) x)) by ring.
    rewrite leg_rec. simpl pow. field. exact Hn.
Qed.

Lemma coslobe_coefs_clv i n : coslobe_coefs i n = (2 * INR n + 1) / 2 * (1 / PI * clv i n).
Proof.
  unfold coslobe_coefs, clv. replace (2 + i)%nat with (S (1 + i)) by lia.
  replace (2 ^ S (1 + i)) with (2 * 2 ^ (1 + i)) by reflexivity.
  pose proof PI_pos. assert (K : 2 ^ (1 + i) <> 0) by (apply pow_nonzero; lra).
  generalize dependent (2 ^ (1 + i)). intros k K. field. split; try assumption; lra.
Qed.

Lemma coslobe_pos i x : 0 < x -> coslobe_func i x = 1 / PI * x ^ i.
Proof. intros H. unfold coslobe_func, sgn. destruct (Rlt_dec 0 x); [|lra]. do 2 f_equal. field. Qed.
Lemma coslobe_neg i x : (1 <= i)%nat -> x < 0 -> coslobe_func i x = 0.
Proof.
  intros Hi H. unfold coslobe_func, sgn. destruct (Rlt_dec 0 x); [lra|]. destruct (Rlt_dec x 0); [|lra].
  replace (x * (1 + -1) / 2) with 0 by field. rewrite pow_i by lia. ring.
Qed.

Lemma coslobe_int i n : (1 <= i)%nat ->
  is_RInt (fun x => coslobe_func i x * leg n x) (-1) 1 (1 / PI * clv i n).
Proof.
  intros Hi. eapply is_RInt_replace with (l := 0 + 1 / PI * clv i n); [ring|].
  apply (is_RInt_Chasles (fun x => coslobe_func i x * leg n x) (-1) 0 1).
  - eapply is_RInt_replace; [|eapply is_RInt_extR; [lra| |apply (is_RInt_constR (-1) 0 0)]]. ring.
    intros x Hx. cbv beta. rewrite coslobe_neg by (assumption || lra). ring.
  - eapply is_RInt_extR; [lra| |exact (is_RInt_scalR _ _ _ (1 / PI) _ (moment i n))].
    intros x Hx. cbv beta. rewrite coslobe_pos by lra. ring.
Qed.

(** ** linear combinations *)
Definition sumR (l : list R) : R := fold_right Rplus 0 l.
Lemma sumR_app a b : sumR (a ++ b) = sumR a + sumR b.
Proof. induction a; simpl; [ring|rewrite IHa; ring]. Qed.
Lemma sumR_perm a b : Permutation a b -> sumR a = sumR b.
Proof. induction 1; simpl; lra. Qed.
Lemma fold_left_sum {A} (f : A -> R) l acc : fold_left (fun acc c => acc + f c) l acc = acc + sumR (map f l).
Proof. revert acc. induction l; intros; simpl; [ring|]. rewrite IHl. ring. Qed.

Lemma avec_eqb_iff x y : avec_eqb x y = true <-> x = y.
Proof.
  unfold avec_eqb. destruct x as [x0 x1 x2], y as [y0 y1 y2]; simpl.
  destruct (Req_EM_T x0 y0), (Req_EM_T x1 y1), (Req_EM_T x2 y2); split; intros H; try discriminate; try reflexivity; try congruence.
Qed.

Definition same_a (cs : list choice) (a : avec) : list choice := filter (fun c => avec_eqb (ch_a c) a) cs.

(** position-based rows take exactly the choices with that [a] *)
Lemma take_row_gen cs a pre :
  take_choices (pre ++ cs) (filter (fun i => match nth_error (pre ++ cs) i with Some c => avec_eqb (ch_a c) a | None => false end) (seq (length pre) (length cs)))
  = same_a cs a.
Proof.
  revert pre. induction cs as [|c cs IH]; intros pre; [reflexivity|].
  specialize (IH (pre ++ [c])). rewrite <- app_assoc in IH. cbn [app] in IH.
  rewrite app_length in IH. cbn [length] in IH. replace (length pre + 1)%nat with (S (length pre)) in IH by lia.
  cbn [length seq]. cbn [filter].
  assert (N : nth_error (pre ++ c :: cs) (length pre) = Some c).
  { rewrite nth_error_app2 by lia. rewrite Nat.sub_diag. reflexivity. }
  rewrite N. unfold same_a. cbn [filter].
  destruct (avec_eqb (ch_a c) a).
  - unfold take_choices. cbn [flat_map]. rewrite N. cbn [app]. f_equal. exact IH.
  - exact IH.
Qed.
Lemma take_row cs a : take_choices cs (equals_row cs a) = same_a cs a.
Proof. exact (take_row_gen cs a []). Qed.

Lemma in_row cs a i : In i (equals_row cs a) <-> exists c, nth_error cs i = Some c /\ ch_a c = a.
Proof.
  unfold equals_row. rewrite filter_In, in_seq. split.
  - intros [_ H]. destruct (nth_error cs i) as [c|] eqn:E; [|discriminate]. exists c. split; [reflexivity|]. apply avec_eqb_iff, H.
  - intros [c [E Ha]]. split; [|rewrite E; apply avec_eqb_iff, Ha].
    assert (i < length cs)%nat by (apply nth_error_Some; congruence). lia.
Qed.

(** the distinct rows partition the positions *)
Lemma rows_perm cs : Permutation (concat (equal_a cs)) (seq 0 (length cs)).
Proof.
  apply NoDup_Permutation.
  - (* NoDup *)
    unfold equal_a.
    assert (Hin : forall r, In r (nodup (list_eq_dec Nat.eq_dec) (equals cs)) -> exists a, r = equals_row cs a).
    { intros r H. apply nodup_In in H. unfold equals in H. apply in_map_iff in H. destruct H as [c [<- _]]. eauto. }
    assert (Hnd : NoDup (nodup (list_eq_dec Nat.eq_dec) (equals cs))) by apply NoDup_nodup.
    revert Hin Hnd. generalize (nodup (list_eq_dec Nat.eq_dec) (equals cs)). induction l as [|r l IH]; intros Hin Hnd; simpl; [constructor|].
    apply NoDup_cons_iff in Hnd. destruct Hnd as [Hr Hl].
    assert (K : forall (l1 l2 : list nat), NoDup l1 -> NoDup l2 -> (forall x, In x l1 -> ~ In x l2) -> NoDup (l1 ++ l2)).
    { induction l1; simpl; intros l2 N1 N2 D; [exact N2|]. apply NoDup_cons_iff in N1. destruct N1. constructor.
      - rewrite in_app_iff. intros [?|?]; [tauto|]. apply (D a); auto.
      - apply IHl1; auto. }
    apply K.
    + destruct (Hin r) as [a ->]; [left; reflexivity|]. apply NoDup_filter, seq_NoDup.
    + apply IH; [|exact Hl]. intros; apply Hin; right; assumption.
    + intros x Hx Hc. apply in_concat in Hc. destruct Hc as [r' [Hr' Hx']].
      destruct (Hin r) as [a Ea]; [left; reflexivity|]. destruct (Hin r') as [a' Ea']; [right; exact Hr'|].
      subst r r'. apply in_row in Hx. apply in_row in Hx'. destruct Hx as [c [E1 E2]], Hx' as [c' [E1' E2']].
      assert (Q : a = a') by congruence. rewrite Q in Hr. exact (Hr Hr').
  - apply seq_NoDup.
  - intros i. rewrite in_concat, in_seq. split.
    + intros [r [Hr Hi]]. unfold equal_a in Hr. apply nodup_In, in_map_iff in Hr. destruct Hr as [c [<- _]].
      apply in_row in Hi. destruct Hi as [c' [E _]]. assert (i < length cs)%nat by (apply nth_error_Some; congruence). lia.
    + intros Hi. destruct (nth_error cs i) as [c|] eqn:E.
      * exists (equals_row cs (ch_a c)). split.
        -- unfold equal_a. apply nodup_In, in_map_iff. exists c. split; [reflexivity|]. eapply nth_error_In, E.
        -- apply in_row. eauto.
      * apply nth_error_None in E. lia.
Qed.

Lemma take_seq cs : take_choices cs (seq 0 (length cs)) = cs.
Proof.
  assert (H : forall cs pre, take_choices (pre ++ cs) (seq (length pre) (length cs)) = cs).
  { clear cs. induction cs as [|c cs IH]; intros pre; [reflexivity|]. cbn [length seq]. unfold take_choices. cbn [flat_map].
    rewrite nth_error_app2 by lia. rewrite Nat.sub_diag. cbn [nth_error app]. f_equal.
    specialize (IH (pre ++ [c])). rewrite <- app_assoc in IH. cbn [app] in IH. rewrite app_length in IH. cbn [length] in IH.
    replace (length pre + 1)%nat with (S (length pre)) in IH by lia. exact IH. }
  exact (H cs []).
Qed.

Lemma flat_map_perm {A B} (f : A -> list B) l l' : Permutation l l' -> Permutation (flat_map f l) (flat_map f l').
Proof.
  induction 1; simpl; auto.
  - apply Permutation_app_head; assumption.
  - rewrite !app_assoc. apply Permutation_app_tail, Permutation_app_comm.
  - etransitivity; eassumption.
Qed.
Lemma take_perm cs l l' : Permutation l l' -> Permutation (take_choices cs l) (take_choices cs l').
Proof. apply flat_map_perm. Qed.
Lemma take_concat cs ls : take_choices cs (concat ls) = concat (map (take_choices cs) ls).
Proof. induction ls; simpl; [reflexivity|]. unfold take_choices in *. rewrite flat_map_app. f_equal. exact IHls. Qed.

Lemma leg_sum_lin (g : list choice) M x :
  leg_sum (group_coefs g) M x = sumR (map (fun c => ch_frac c * leg_sum (ch_coefs c) M x) g).
Proof.
  induction M.
  - unfold leg_sum. simpl. induction g; simpl; [reflexivity|rewrite <- IHg; ring].
  - rewrite leg_sum_S, IHM. unfold group_coefs. rewrite fold_left_sum, Rplus_0_l.
    clear. induction g; simpl; [ring|]. rewrite leg_sum_S. rewrite Rmult_plus_distr_r. 
    rewrite Rplus_assoc. rewrite (Rplus_comm _ (_ * _ * _ + _)). 
    replace (ch_frac a * (leg_sum (ch_coefs a) M x + ch_coefs a M * leg M x)) with
      (ch_frac a * leg_sum (ch_coefs a) M x + ch_coefs a M * ch_frac a * leg M x) by ring.
    rewrite <- IHg. ring.
Qed.

Lemma group_a_same cs a d : same_a cs a <> [] -> group_a (same_a cs a) d = a.
Proof.
  intros H. unfold group_a. assert (K : forall l d, l <> [] -> (forall c, In c l -> ch_a c = a) -> fold_left (fun _ c => ch_a c) l d = a).
  { induction l as [|c l IH]; intros d' Hl Hc; [congruence|]. cbn [fold_left]. destruct l; [simpl; apply Hc; left; reflexivity|].
    apply IH; [discriminate|]. intros; apply Hc; right; assumption. }
  apply K; [exact H|]. intros c Hc. apply filter_In in Hc. apply avec_eqb_iff, Hc.
Qed.

Lemma comb_leg_sum cs d x :
  comb_leg cs d x
  = sumR (map (fun c => ch_frac c * leg_sum (ch_coefs c) (max_ncoefs (same_a cs (ch_a c))) (x (ch_a c))) cs).
Proof.
  set (h := fun c => ch_frac c * leg_sum (ch_coefs c) (max_ncoefs (same_a cs (ch_a c))) (x (ch_a c))).
  rewrite (sumR_perm (map h cs) (map h (concat (map (take_choices cs) (equal_a cs))))).
  2:{ apply Permutation_map. rewrite <- take_concat. rewrite <- (take_seq cs) at 1. apply take_perm. symmetry. apply rows_perm. }
  unfold comb_leg. fold (sumR (map (fun idx => let g := take_choices cs idx in leg_sum (group_coefs g) (max_ncoefs g) (x (group_a g d))) (equal_a cs))).
  assert (Hin : forall r, In r (equal_a cs) -> exists c, In c cs /\ r = equals_row cs (ch_a c)).
  { intros r H. unfold equal_a in H. apply nodup_In in H. unfold equals in H. apply in_map_iff in H. destruct H as [c [<- Hc]]. eauto. }
  revert Hin. generalize (equal_a cs). induction l as [|r l IH]; intros Hin; [reflexivity|].
  cbn [map concat]. rewrite map_app, sumR_app. cbn [sumR fold_right]. fold sumR.
  change (fold_right Rplus 0 ?l) with (sumR l). f_equal.
  2:{ apply IH. intros; apply Hin; right; assumption. }
  destruct (Hin r) as [c [Hc ->]]; [left; reflexivity|]. cbv zeta. rewrite take_row.
  assert (Hne : same_a cs (ch_a c) <> []).
  { assert (In c (same_a cs (ch_a c))) as Q by (apply filter_In; split; [exact Hc|apply avec_eqb_iff; reflexivity]).
    intros E. rewrite E in Q. destruct Q. }
  rewrite group_a_same by exact Hne. rewrite leg_sum_lin. f_equal. apply map_ext_in.
  intros c' Hc'. apply filter_In in Hc'. destruct Hc' as [_ Ha]. apply avec_eqb_iff in Ha. unfold h. rewrite Ha. reflexivity.
Qed.

Lemma max_ncoefs_perm l l' : Permutation l l' -> max_ncoefs l = max_ncoefs l'.
Proof. induction 1; simpl; lia. Qed.
Lemma filter_perm {A} (f : A -> bool) l l' : Permutation l l' -> Permutation (filter f l) (filter f l').
Proof.
  induction 1; simpl; auto.
  - destruct (f x); [constructor|]; assumption.
  - destruct (f x), (f y); try reflexivity. constructor.
  - etransitivity; eassumption.
Qed.
