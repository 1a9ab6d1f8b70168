(** Proofs for Ord_Model.v *)
From Coq Require Import Bool Arith String List Lia.
From Verif Require Import Base Base_Proofs Ord_Model Ord_Spec.
Import ListNotations.
Local Open Scope list_scope.

Section P.
Context {T : Type}.
Implicit Types (f : fit T) (p x d : dict string T).

Lemma keys_filter ex d : keys (select ex d) = filter (fun k => negb (inb string_dec k ex)) (keys d).
Proof. unfold keys, select. induction d as [|[k v] d IH]; cbn; [reflexivity|]. destruct (negb _); cbn; rewrite ?IH; reflexivity. Qed.
Lemma dget_select ex d k : dget string_dec k (select ex d) = if in_dec string_dec k ex then None else dget string_dec k d.
Proof.
  unfold select. induction d as [|[k' v] d IH]; cbn; [now destruct in_dec|].
  unfold inb at 1. destruct (in_dec string_dec k' ex) as [i|i]; cbn.
  - rewrite IH. destruct (in_dec string_dec k ex) as [j|j]; [reflexivity|].
    destruct (string_dec k k') as [->|]; [contradiction|reflexivity].
  - rewrite IH. destruct (string_dec k k') as [->|]; [|reflexivity]. now destruct (in_dec string_dec k' ex).
Qed.

(** the names of an updated dict *)
Lemma keys_update p x : NoDup (keys x) ->
  keys (dupdate string_dec p x) = keys p ++ filter (fun k => negb (inb string_dec k (keys p))) (keys x).
Proof.
  revert p. induction x as [|[k v] x IH]; intros p Hx; [cbn; now rewrite app_nil_r|].
  rewrite dupdate_cons. inversion Hx as [|? ? Hk Hx']; subst. rewrite IH by exact Hx'. rewrite keys_dset. cbn [keys map fst filter].
  unfold inb at 2. destruct (in_dec string_dec k (keys p)) as [i|i]; cbn.
  - unfold inb at 1. reflexivity.
  - rewrite <- app_assoc. cbn. do 2 f_equal. apply filter_ext_in. intros a Ha. f_equal.
    destruct (inb string_dec a (keys p)) eqn:E.
    + apply inb_iff in E. apply inb_iff. apply in_or_app. now left.
    + apply inb_false in E. apply inb_false. intros C. apply in_app_or in C. destruct C as [C|[<-|[]]]; [contradiction|]. contradiction.
Qed.
Lemma keys_values ex p x : NoDup (keys x) -> keys (select ex (dupdate string_dec p x)) = order ex p x.
Proof. intros Hx. now rewrite keys_filter, keys_update. Qed.
Lemma dget_values ex p x k : NoDup (keys x) -> dget string_dec k (select ex (dupdate string_dec p x)) = given ex p x k.
Proof. intros Hx. rewrite dget_select. unfold given. destruct in_dec; [reflexivity|]. now apply dget_dupdate. Qed.

Lemma nodup_app_l {A} (a b : list A) : NoDup (a ++ b) -> NoDup a.
Proof. induction a as [|x a IH]; intros H; [constructor|]. inversion H; subst. constructor; [|auto]. intros C; apply H2, in_or_app; now left. Qed.
Lemma nodup_app_r {A} (a b : list A) : NoDup (a ++ b) -> NoDup b.
Proof. induction a as [|x a IH]; intros H; [exact H|]. inversion H; subst; auto. Qed.
Lemma nodup_app_dis {A} (a b : list A) y : NoDup (a ++ b) -> In y b -> ~ In y a.
Proof.
  induction a as [|x a IH]; intros H Hy; [tauto|]. inversion H; subst. intros [->|C]; [|now apply (IH H3 Hy)].
  apply H2, in_or_app; now right.
Qed.
Lemma filter_all {A} (q : A -> bool) l : (forall a, In a l -> q a = true) -> filter q l = l.
Proof. induction l as [|a l IH]; intros H; cbn; [reflexivity|]. rewrite (H a (or_introl eq_refl)). f_equal. apply IH. intros b Hb. apply H. now right. Qed.
Lemma keys_own f : fit_dicts f -> keys (param_R_dict f) = order (excl f) (starts f) (fixed f).
Proof.
  intros Hd. unfold param_R_dict, order. rewrite keys_filter. f_equal. unfold keys at 1. rewrite map_app. f_equal.
  symmetry. fold (@keys string T (fixed f)). apply filter_all. intros k Hk. apply negb_true_iff, inb_false. exact (nodup_app_dis _ _ _ Hd Hk).
Qed.

Lemma by_keyword_ok (c : part T) d : complete d (syms c) -> by_keyword c d = Ok (value c d).
Proof.
  intros H. unfold by_keyword. replace (forallb _ _) with true; [reflexivity|]. symmetry. apply forallb_forall. intros k Hk.
  specialize (H k Hk). unfold dmem. destruct dget; congruence.
Qed.
Lemma by_keyword_err (c : part T) d : ~ complete d (syms c) -> by_keyword c d = Err NameError.
Proof.
  intros H. unfold by_keyword. destruct (forallb _ _) eqn:E; [|reflexivity]. exfalso. apply H. rewrite forallb_forall in E. intros k Hk.
  specialize (E k Hk). unfold dmem in E. destruct dget; congruence.
Qed.
Lemma complete_dec d l : {complete d l} + {~ complete d l}.
Proof.
  induction l as [|k l [IH|IH]].
  - left. intros k [].
  - destruct (dget string_dec k d) eqn:E.
    + left. intros k' [<-|Hk]; [congruence|auto].
    + right. intros H. exact (H k (or_introl eq_refl) E).
  - right. intros H. apply IH. intros k' Hk. apply H. now right.
Qed.
Lemma complete_app d a b : complete d (a ++ b) <-> complete d a /\ complete d b.
Proof.
  unfold complete. split.
  - intros H. split; intros k Hk; apply H, in_or_app; auto.
  - intros [H1 H2] k Hk. apply in_app_or in Hk. destruct Hk; auto.
Qed.
Lemma combine_items d : combine (keys d) (map snd d) = d.
Proof. unfold keys. induction d as [|[k v] d IH]; cbn; [reflexivity|]. now rewrite IH. Qed.
Lemma keys_combine (l : list string) (v : list T) : length l = length v -> keys (combine l v) = l.
Proof. unfold keys. revert v. induction l as [|k l IH]; intros [|y v] H; cbn in *; try discriminate; [reflexivity|]. f_equal. apply IH. lia. Qed.

(** the functions that are used by the next calculation *)
Definition functions f : fns T := match f_input f with Some g => g | None => mkfns (f_inter f) (keys (param_R_dict f)) end.

(** one calculation in full *)
Lemma calc_eq f p x : let d := select (excl f) (dupdate string_dec p x) in
  fst (fit_calc f p x) =
    match by_keyword (f_surf f) d with Err e => Err e | Ok s =>
    match by_keyword (f_vol f) d with Err e => Err e | Ok v =>
    if f_intQ f then match by_position (functions f) (map snd d) with Ok i => Ok (s, v, Some i) | Err e => Err e end
    else Ok (s, v, None) end end.
Proof.
  unfold fit_calc, get_R, set_calc_values, set_param_dict, rt_calc, functions, get_fnevals. cbv zeta.
  destruct (f_intQ f) eqn:Q; [destruct (f_input f) eqn:I|];
    cbn [fst snd r_surf r_vol r_inter int_Q param_dict fnevals fnevals_input];
    (destruct (by_keyword (f_surf f) _); [|reflexivity]; destruct (by_keyword (f_vol f) _); reflexivity).
Qed.
Lemma calc_next f p x : let f' := snd (fit_calc f p x) in
  starts f' = starts f /\ fixed f' = fixed f /\ excl f' = excl f /\ f_surf f' = f_surf f /\ f_vol f' = f_vol f /\ f_inter f' = f_inter f /\
  f_intQ f' = f_intQ f /\ (f_input f' = f_input f \/ f_input f' = Some (functions f)).
Proof.
  unfold fit_calc, get_R, functions. cbn [snd]. destruct (f_intQ f) eqn:Q; [destruct (f_input f) eqn:I|]; cbn; rewrite ?Q, ?I; repeat split; auto.
Qed.

(** the same fit up to the functions *)
Definition alike f f' : Prop :=
  starts f' = starts f /\ fixed f' = fixed f /\ excl f' = excl f /\ f_surf f' = f_surf f /\ f_vol f' = f_vol f /\ f_inter f' = f_inter f /\ f_intQ f' = f_intQ f.
Lemma run_own f l : fit_dicts f -> own_input f -> own_shares f l -> let f' := snd (run f l) in alike f f' /\ own_input f'.
Proof.
  revert f. induction l as [|[p x|g] l IH]; intros f Hd Hi Hs; cbn [run fst snd]; cbv zeta.
  - split; [repeat split|exact Hi].
  - destruct (calc_next f p x) as (A & B & C & D & E & F & G & H). set (f1 := snd (fit_calc f p x)) in *. clearbody f1.
    destruct (IH f1) as [K L].
    + unfold fit_dicts. now rewrite A, B.
    + intros g Hg. unfold own. rewrite A, B, C, F. destruct H as [H|H]; rewrite H in Hg; [exact (Hi g Hg)|].
      injection Hg as <-. unfold functions. destruct (f_input f) as [g|] eqn:I; [exact (Hi g I)|].
      split; [reflexivity|]. cbn. now apply keys_own.
    + intros g Hg. unfold own. rewrite A, B, C, F. apply (Hs g). now right.
    + split; [|exact L]. destruct K as (K1 & K2 & K3 & K4 & K5 & K6 & K7). repeat split; congruence.
  - destruct (IH (share f g)) as [K L]; [exact Hd| |intros g' Hg'; apply (Hs g'); now right|].
    + intros g' Hg'. cbn in Hg'. injection Hg' as <-. apply (Hs g). now left.
    + split; [exact K|exact L].
Qed.
Lemma functions_own f : fit_dicts f -> own_input f -> own f (functions f).
Proof. intros Hd Hi. unfold functions. destruct (f_input f) as [g|] eqn:I; [exact (Hi g I)|]. split; [reflexivity|]. now apply keys_own. Qed.

(** in the order of the model the names and the values belong together *)
Lemma calc_right f p x : NoDup (keys x) ->
  (f_intQ f = true -> own f (functions f) /\ order (excl f) p x = order (excl f) (starts f) (fixed f)) ->
  right f p x (fst (fit_calc f p x)).
Proof.
  intros Hx Hq. rewrite calc_eq. cbv zeta. set (d := select (excl f) (dupdate string_dec p x)).
  exists d. split; [intros k; now apply dget_values|].
  unfold result_for. cbv zeta.
  destruct (complete_dec d (syms (f_surf f))) as [S|S].
  2:{ right. split; [intros C; apply complete_app in C; tauto|]. now rewrite by_keyword_err. }
  rewrite (by_keyword_ok _ _ S).
  destruct (complete_dec d (syms (f_vol f))) as [V|V].
  2:{ right. split; [intros C; apply complete_app in C; destruct C as [_ C]; apply complete_app in C; tauto|]. now rewrite by_keyword_err. }
  rewrite (by_keyword_ok _ _ V).
  destruct (f_intQ f) eqn:Q.
  - destruct (Hq eq_refl) as [[Ho1 Ho2] Heq]. assert (Hk : keys d = f_names (functions f)) by (rewrite Ho2, <- Heq; now apply keys_values).
    unfold by_position. rewrite <- Hk, Ho1. replace (length (keys d) =? length (map snd d)) with true by (symmetry; apply Nat.eqb_eq; unfold keys; now rewrite !map_length). rewrite combine_items.
    destruct (complete_dec d (syms (f_inter f))) as [I|I].
    + left. split; [rewrite !complete_app; auto|]. now rewrite by_keyword_ok.
    + right. split; [intros C; rewrite !complete_app in C; tauto|]. now rewrite by_keyword_err.
  - left. split; [rewrite !complete_app; repeat split; auto; intros k []|reflexivity].
Qed.
End P.
