(** Properties C79 and C136: definitions of a variable by a list
    (rt1/_containers.py:323-343) and the argument init_kwargs
    (rt1/rtprocess.py:279-295).
    Only property theorems, examples and assumption listings. *)
From Coq Require Import List Arith QArith Bool String Lia.
From Verif Require Import Base Base_Proofs Con_Model Con_Spec Con_Proofs Con_Props Exa15_Spec.
From Verif Require Run_Model Run_Props Prc_Props.
Import ListNotations.
Local Open Scope string_scope.

(** a list gives its items to the properties in order, and None to the others;
    the omitted properties have their defaults exactly if nothing is omitted *)
Theorem C79_list_exactly : forall x l d, from_dict [(x, VList l)] = Ok d ->
  (List.length l <= 5)%nat /\
  property x "fitQ" d = Some (nth 0 l VNone) /\ property x "val" d = Some (nth 1 l VNone) /\
  property x "freq" d = Some (nth 2 l VNone) /\ property x "interpQ" d = Some (nth 4 l VNone) /\
  ((forall k i, item_of k = Some i -> (List.length l <= i)%nat -> property x k d = documented_default k) <-> List.length l = 5%nat).
Proof.
  intros x l d E.
  assert (Q := from_dict_single x (VList l)). destruct (entry_var x (VList l)) as [y|] eqn:Ey; [|congruence].
  destruct Q as (d' & Q1 & Q2 & _). assert (d' = d) by congruence; subst.
  assert (R : forall k, property x k d = get_param k y) by (intros k; unfold property; rewrite Q2; reflexivity).
  assert (N : (List.length l < 5)%nat ->
    ~ (forall k i, item_of k = Some i -> (List.length l <= i)%nat -> property x k d = documented_default k)).
  { intros Hl H. assert (X := H "interpQ" 4%nat eq_refl ltac:(lia)).
    destruct (C79_omitted_in_list_refuted x l d Hl E) as [Y _]. rewrite Y in X. discriminate X. }
  assert (L : (List.length l <= 5)%nat /\ get_param "fitQ" y = Some (nth 0 l VNone) /\ get_param "val" y = Some (nth 1 l VNone) /\
    get_param "freq" y = Some (nth 2 l VNone) /\ get_param "interpQ" y = Some (nth 4 l VNone)).
  { cbn [entry_var] in Ey. unfold from_list in Ey.
    destruct l as [|a [|b [|c [|m [|i [|j l]]]]]]; cbn in Ey; try discriminate Ey;
      try (destruct (unpack_minmax m) as [[u w]|]; cbn in Ey; [|discriminate]); inversion Ey; subst; cbn;
      (split; [lia|repeat split; reflexivity]). }
  rewrite !R. destruct L as (L0 & L1 & L2 & L3 & L4). split; [exact L0|]. split; [exact L1|]. split; [exact L2|].
  split; [exact L3|]. split; [exact L4|]. split.
  - intros H. destruct (Nat.eq_dec (List.length l) 5) as [e|e]; [exact e|]. exfalso. apply (N ltac:(lia)). exact H.
  - intros e k i I Hi. rewrite e in Hi. exfalso. unfold item_of in I.
    repeat (destruct (string_dec k _); [injection I as <-; lia|]). discriminate I.
Qed.
Print Assumptions C79_list_exactly.

Example C79_list_exactly_example :
  exists d, from_dict [("tau", VList [VBool true; VNum (1#4)])] = Ok d /\ property "tau" "freq" d = Some VNone.
Proof. eexists. split; reflexivity. Qed.

(** a run can be set up exactly if there is no setting in init_kwargs *)
Theorem C136_exactly : forall ini arg,
  (exists c, (do kw <- Run_Model.init_init_kwargs arg; Run_Model.setup_init_kwargs ini kw) = Ok c) <-> arg = None \/ arg = Some [].
Proof.
  intros ini arg. split.
  - intros [c H]. destruct arg as [kw|]; [right|left; reflexivity].
    assert (K : kw = [] \/ kw <> []) by (destruct kw; [left; reflexivity|right; discriminate]).
    destruct K as [->|K]; [reflexivity|exfalso].
    destruct (Run_Props.C136_refuted ini kw K) as [X|(kw' & e & X & Y)];
      unfold dict in *; rewrite X in H; cbn [bind] in H; [discriminate H|congruence].
  - intros [-> | ->]; exists ini; reflexivity.
Qed.
Print Assumptions C136_exactly.

Example C136_exactly_example :
  (do kw <- Run_Model.init_init_kwargs (Some [("defdict", Run_Model.KStr "0.5")]); Run_Model.setup_init_kwargs Prc_Props.ini0 kw) = Err AttributeError.
Proof. apply Run_Props.C136_example. Qed.
