(** Properties C163 and C168: exact conditions (rt1/rtfits.py:1337-1366 and
    rt1/rtplots.py printsig0analysis, as modelled in Pos_Model and Aln_Model).
    Only property theorems, lemmas, examples and assumption listings. *)
From Coq Require Import String List ZArith Bool Sorted Permutation Lia.
From Verif Require Import Base Base_Proofs Ini_Model Par_Model Par_Spec Pos_Model Pos_Spec Pos_Props.
From Verif Require Import GF_Model Fit_Model Fit_Spec Aln_Model Aln_Spec Aln_Props.
Import ListNotations.
Local Open Scope nat_scope.
Local Open Scope list_scope.

(** with different values, the interaction term uses every parameter's own
    value exactly if the dicts list the parameters in the order of the definitions *)
Theorem C163_exactly : forall Val (m : model Val) frame cols d old r fixed names env, NoDup (keys d) -> fit_dicts frame d r fixed ->
  param_R_names Val m frame cols d = Ok names -> interaction_values Val m frame cols d old r fixed = Ok env ->
  NoDup (map snd (r ++ fixed)) -> (own_values m frame d r fixed env <-> given_order m r fixed = names).
Proof.
  intros Val m frame cols d old r fixed names env N F HN HE D. split.
  - intros O. destruct (list_eq_dec string_dec (given_order m r fixed) names) as [e|e]; [exact e|exfalso].
    destruct (C163_other_order_refuted Val m frame cols d old r fixed names env N F HN HE D e) as (s & v & P & R & E & X).
    destruct (O s P R) as [_ Y]. congruence.
  - intros e. exact (C163_same_order Val m frame cols d old r fixed names env N F HN HE e).
Qed.
Print Assumptions C163_exactly.

Example C163_exactly_example :
  let d := [("t1", Fitted); ("t2", Fitted)]%string in
  fit_dicts true d [("t2", 2); ("t1", 1)]%string [] /\
  param_R_names nat (two_model nat "t1" "t2") true [] d = Ok ["t1"; "t2"]%string /\
  interaction_values nat (two_model nat "t1" "t2") true [] d (mkvalues 0 0 0 0 []) [("t2", 2); ("t1", 1)]%string [] = Ok [("t1", 2); ("t2", 1)]%string.
Proof.
  cbv zeta. split; [|split; reflexivity]. unfold fit_dicts. cbn [keys map fst].
  split; [repeat constructor; cbn; intuition discriminate|]. split; [constructor|]. split; intros s; cbn [In]; split.
  - intros [<-|[<-|[]]]; auto.
  - intros [H|[H|[]]]; injection H as <-; auto.
  - intros [].
  - intros [_ [H|[H|[]]]]; discriminate H.
Qed.

Lemma sorted_dec l : {sorted l} + {~ sorted l}.
Proof.
  induction l as [|a l IH]; [left; constructor|].
  destruct IH as [S|S]; [|right; intros H; inversion H; auto].
  destruct (Forall_dec (Z.le a) (fun x => Z_le_dec a x) l) as [F|F]; [left; constructor; assumption|].
  right; intros H; inversion H; auto.
Qed.
Lemma date_once_stable index gi : ~ ~ date_once index gi -> date_once index gi.
Proof.
  intros H i j Hi Hj E. destruct (Z.eq_dec (nth i gi 0%Z) (nth j gi 0%Z)) as [e|e]; [exact e|]. exfalso. apply H. intros D. exact (e (D i j Hi Hj E)).
Qed.

(** the analysis shows each date with its own measurements and calculation
    exactly if no date is in two groups and the dates of the fit ascend *)
Theorem C168_exactly : forall index gi p, gi <> [] -> length index = length gi -> sorts (fit_index index gi) p ->
  ((exists l, analysis_dataset index gi p true = Ok l /\ Permutation (map fst l) (uniq index) /\
     forall t rows f, In (t, (rows, f)) l -> Permutation rows (rows_with index t) /\ f = t) <->
   date_once index gi /\ sorted (fit_index index gi)).
Proof.
  intros index gi p G L S. split.
  - intros (l & E & _ & H). assert (D : date_once index gi).
    { apply date_once_stable. intros D. rewrite (C168_twice_refuted index gi p true G L D S) in E. discriminate E. }
    split; [exact D|]. destruct (sorted_dec (fit_index index gi)) as [X|X]; [exact X|exfalso].
    destruct (C168_unsorted_refuted index gi p G L D X S) as (l' & t & rows & f & E' & I & N & _).
    assert (l' = l) by congruence. subst l'. apply N. apply (H t rows f I).
  - intros [D X]. exact (C168_dates index gi p G L D X S).
Qed.
Print Assumptions C168_exactly.

Example C168_exactly_example :
  date_once [1; 1; 2]%Z [0; 0; 1]%Z /\ analysis_dataset [1; 1; 2]%Z [0; 0; 1]%Z [0; 1] true = Ok [(1%Z, ([0; 1], 1%Z)); (2%Z, ([2], 2%Z))].
Proof.
  split; [|reflexivity]. intros i j Hi Hj. cbn in Hi, Hj.
  destruct i as [|[|[|i]]]; [| | |lia]; (destruct j as [|[|[|j]]]; [| | |lia]); cbn; intros E; first [reflexivity|discriminate E].
Qed.
