(** Properties C36 and C183: exact conditions (rt1/_containers.py:170-194,
    rt1/rtresults.py:919-931).
    Only property theorems, examples and assumption listings. *)
From Coq Require Import String List ZArith Bool.
From Verif Require Import Base Base_Proofs Sel_Model Sel_Spec Sel_Props.
From Verif Require Con_Model Con_Spec Con_Props.
Import ListNotations.

(** the dict representation exists exactly for a defdict without variables *)
Theorem C36_exactly : forall d, Con_Spec.reachable d ->
  ((exists r, Con_Model.to_dict "dict" d = Ok r) <-> Con_Model.dd_keys d = []).
Proof.
  intros d R. split.
  - intros [r H]. assert (K : Con_Model.dd_keys d = [] \/ Con_Model.dd_keys d <> []) by (destruct (Con_Model.dd_keys d); [left; reflexivity|right; discriminate]).
    destruct K as [K|K]; [exact K|]. rewrite (Con_Props.C36_dict_representation_refuted d R K) in H. discriminate H.
  - intros K. exists []. unfold Con_Model.to_dict. cbn [String.eqb Ascii.eqb Bool.eqb].
    change (Con_Model.d_variables d = []) in K. rewrite K. reflexivity.
Qed.
Print Assumptions C36_exactly.

Example C36_exactly_example :
  Con_Spec.reachable Con_Model.new_defdict /\ Con_Model.dd_keys Con_Model.new_defdict = [] /\
  Con_Model.to_dict "dict" Con_Model.new_defdict = Ok [].
Proof. split; [exact Con_Spec.R_new|split; reflexivity]. Qed.

(** rows can be selected with the names of their IDs exactly if every ID of
    these rows has a name and, for tables with MultiIndex, no two have the same *)
Theorem C183_exactly : forall (V : Type) multi names (tbl : list (Z * V)) where_, NoDup (map fst names) ->
  ((exists out, select multi true (Some names) tbl where_ = Ok out) <->
   (forall n, occurs (filter where_ tbl) n -> exists s, stands_for names n s) /\
   (multi = true -> told_apart names (filter where_ tbl))).
Proof.
  intros V multi names tbl where_ ND. split.
  - intros [out H]. assert (A : forall n, occurs (filter where_ tbl) n -> exists s, stands_for names n s).
    { intros n O. destruct (in_dec Z.eq_dec n (map fst names)) as [I|I].
      - apply in_map_iff in I. destruct I as ([n' s] & E & I). cbn in E. subst n'. exists s. exact I.
      - exfalso. rewrite (C183_missing multi names tbl where_ n ND O) in H; [discriminate H|].
        intros s S. apply I. apply in_map_iff. exists (n, s). auto. }
    split; [exact A|]. intros -> n m s On Om Sn Sm. destruct (Z.eq_dec n m) as [e|e]; [exact e|exfalso].
    rewrite (C183_same_refuted names tbl where_ n m s ND A On Om e Sn Sm) in H. discriminate H.
  - intros [A B]. destruct (C183_names multi names tbl where_ ND A B) as (out & H & _). exists out. exact H.
Qed.
Print Assumptions C183_exactly.

Example C183_exactly_example :
  select true true (Some [(0%Z, "RT1_7"%string); (1%Z, "RT1_7"%string)]) [(0%Z, tt); (1%Z, tt)] (fun _ => true) = Err ValueError /\
  select false true (Some [(0%Z, "RT1_7"%string); (1%Z, "RT1_7"%string)]) [(0%Z, tt); (1%Z, tt)] (fun _ => true) =
    Ok [(Name "RT1_7", tt); (Name "RT1_7", tt)].
Proof. split; reflexivity. Qed.
