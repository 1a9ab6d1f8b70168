(** C106: assigning to a position of the property list of a variable. *)
From Coq Require Import List ZArith QArith Arith Bool String Lia.
From Verif Require Import Base Base_Proofs Con_Model Con_Spec Con_Proofs.
Import ListNotations.
Open Scope nat_scope.
Open Scope string_scope.

(** the list with another element at position [k] *)
Definition replaced {A} (k : nat) (v : A) (l : list A) : list A := (firstn k l ++ v :: skipn (S k) l)%list.

(** d[x][i] = v replaces what stands at position i of the documented list
    [fitQ, val, freq, ([min], [max]), interpQ], also for negative i *)
Theorem C106_set_position : forall d x p i v items,
  reachable d -> has_props x p d -> prop_list p = VList items ->
  let k := Z.to_nat (if (i <? 0)%Z then 5 + i else i) in
  (-5 <= i < 5)%Z -> (k = 3 -> exists a b, v = VTup [VList [a]; VList [b]]) ->
  exists d' p', step (SetItem x i v) d = (d', None) /\ has_props x p' d' /\
    prop_list p' = VList (replaced k v items).
Proof.
  intros d x p i v items R H E k Hi Hk. apply reachable_wf in R.
  destruct H as (P1 & P2 & P3 & P4 & P5 & P6). unfold property in *.
  destruct (getitem x d) as [y|] eqn:Ey; [|discriminate].
  cbn in P1, P2, P3, P4, P5, P6. injection P1 as P1; injection P2 as P2; injection P3 as P3.
  injection P4 as P4; injection P5 as P5; injection P6 as P6.
  unfold prop_list in E. injection E as <-.
  assert (Hc : In (i, k) [((0)%Z, 0); ((1)%Z, 1); ((2)%Z, 2); ((3)%Z, 3); ((4)%Z, 4); ((-5)%Z, 0); ((-4)%Z, 1); ((-3)%Z, 2); ((-2)%Z, 3); ((-1)%Z, 4)]).
  { assert (C : (i = 0 \/ i = 1 \/ i = 2 \/ i = 3 \/ i = 4 \/ i = -5 \/ i = -4 \/ i = -3 \/ i = -2 \/ i = -1)%Z) by lia.
    unfold k. clear - C. cbn [In].
    repeat (destruct C as [C|C]; [subst i; cbn; tauto|]). subst i; cbn; tauto. }
  clearbody k. clear Hi.
  assert (Done : forall y' p', setitem_int i v y = Ok y' ->
     (v_fitQ y' = p_fitQ p' /\ v_val y' = p_val p' /\ v_freq y' = p_freq p' /\ v_minval y' = p_minval p' /\
      v_maxval y' = p_maxval p' /\ v_interpQ y' = p_interpQ p') ->
     exists d', step (SetItem x i v) d = (d', None) /\ has_props x p' d').
  { intros y' p' Hs (Q1 & Q2 & Q3 & Q4 & Q5 & Q6). exists (put_var x y' d). cbn [step]. unfold modify.
    rewrite Ey, Hs. split; [reflexivity|]. unfold has_props, property. rewrite getitem_put_same. cbn.
    rewrite Q1, Q2, Q3, Q4, Q5, Q6. repeat split. }
  cbn [In] in Hc.
  assert (B : k = 3 \/ k <> 3) by lia. destruct B as [B|B].
  - destruct (Hk B) as (a & b & ->). clear Hk.
    repeat (destruct Hc as [Q|Hc]; [inversion Q; subst; (discriminate ||
      (destruct (Done (mkvar (v_name y) (v_fitQ y) (v_val y) (v_freq y) a b (v_interpQ y) (v_extra y))
                     (mkprops (p_fitQ p) (p_val p) (p_freq p) a b (p_interpQ p))) as (d' & A1 & A2);
      [reflexivity|cbn; repeat split; assumption|]; eexists; eexists; split; [exact A1|]; split; [exact A2|reflexivity]))|]).
    destruct Hc.
  - clear Hk. repeat (destruct Hc as [Q|Hc]; [inversion Q; subst; ((exfalso; apply B; reflexivity) ||
      (match goal with
      | |- exists d' p', step (SetItem _ ?z _) _ = _ /\ _ /\ prop_list _ = VList (replaced 0 _ _) =>
          destruct (Done (mkvar (v_name y) v (v_val y) (v_freq y) (v_minval y) (v_maxval y) (v_interpQ y) (v_extra y))
                     (mkprops v (p_val p) (p_freq p) (p_minval p) (p_maxval p) (p_interpQ p))) as (d' & A1 & A2)
      | |- exists d' p', step (SetItem _ ?z _) _ = _ /\ _ /\ prop_list _ = VList (replaced 1 _ _) =>
          destruct (Done (mkvar (v_name y) (v_fitQ y) v (v_freq y) (v_minval y) (v_maxval y) (v_interpQ y) (v_extra y))
                     (mkprops (p_fitQ p) v (p_freq p) (p_minval p) (p_maxval p) (p_interpQ p))) as (d' & A1 & A2)
      | |- exists d' p', step (SetItem _ ?z _) _ = _ /\ _ /\ prop_list _ = VList (replaced 2 _ _) =>
          destruct (Done (mkvar (v_name y) (v_fitQ y) (v_val y) v (v_minval y) (v_maxval y) (v_interpQ y) (v_extra y))
                     (mkprops (p_fitQ p) (p_val p) v (p_minval p) (p_maxval p) (p_interpQ p))) as (d' & A1 & A2)
      | |- exists d' p', step (SetItem _ ?z _) _ = _ /\ _ /\ prop_list _ = VList (replaced 4 _ _) =>
          destruct (Done (mkvar (v_name y) (v_fitQ y) (v_val y) (v_freq y) (v_minval y) (v_maxval y) v (v_extra y))
                     (mkprops (p_fitQ p) (p_val p) (p_freq p) (p_minval p) (p_maxval p) v)) as (d' & A1 & A2)
      end; [reflexivity|cbn; repeat split; assumption|];
      eexists; eexists; split; [exact A1|]; split; [exact A2|reflexivity]))|]).
    destruct Hc.
Qed.
Print Assumptions C106_set_position.

(** any other position raises, and nothing changes *)
Theorem C106_bad_position : forall d x p i v,
  has_props x p d -> (i < -5 \/ 5 <= i)%Z -> step (SetItem x i v) d = (d, Some IndexError).
Proof.
  intros d x p i v (P1 & _) Hi. unfold property in P1. destruct (getitem x d) as [y|] eqn:Ey; [|discriminate].
  cbn [step]. unfold modify. rewrite Ey. unfold setitem_int, py_index. cbn [List.length index_names Z.of_nat].
  destruct (Z.leb_spec 0 i), (Z.ltb_spec i (Z.pos (Pos.of_succ_nat 4))); cbn [andb];
    destruct (Z.leb_spec (- Z.pos (Pos.of_succ_nat 4)) i), (Z.ltb_spec i 0); cbn [andb]; try reflexivity; exfalso; cbn in *; lia.
Qed.
Print Assumptions C106_bad_position.

Example C106_example :
  let d := fst (run [Add "omega" [VBool true; VNum (1#2)] []] new_defdict) in
  let p := mkprops (VBool true) (VNum (1#2)) VNone (VNum 0) (VNum 1) (VBool false) in
  reachable d /\ has_props "omega" p d /\
  has_props "omega" (mkprops (VBool true) (VNum (1#2)) VNone (VNum 2) (VNum 3) (VBool false))
    (fst (step (SetItem "omega" (-2) (VTup [VList [VNum 2]; VList [VNum 3]])) d)) /\
  replaced 1 7 [5; 6; 8] = [5; 7; 8].
Proof.
  split; [|repeat split].
  cbn [run]. apply (R_step new_defdict (Add "omega" [VBool true; VNum (1#2)] [])). constructor.
Qed.
