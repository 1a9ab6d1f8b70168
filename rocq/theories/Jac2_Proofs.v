(** The order of the derivatives, the whole jacobian, expressions that fail. *)
From Coq Require Import ZArith Reals Lra Lia Bool Arith String FunctionalExtensionality List.
From Coquelicot Require Import Coquelicot.
From Verif Require Import Base Jac_Model Jac_Spec Jac_Proofs.
Import ListNotations.
Local Open Scope list_scope.
Local Open Scope R_scope.

Lemma dget_none {V} s (d : list (string * V)) : dget string_dec s d = None <-> ~ In s (map fst d).
Proof.
  induction d as [|[k w] d IH]; cbn; [split; auto|]. destruct (string_dec s k) as [->|N].
  - split; [discriminate|intros H; exfalso; apply H; auto].
  - rewrite IH. intuition congruence.
Qed.
Lemma dget_some {V} s (d : list (string * V)) : In s (map fst d) -> exists v, dget string_dec s d = Some v.
Proof. intros H. destruct (dget string_dec s d) eqn:E; [eauto|]. apply dget_none in E. contradiction. Qed.

(** ** expressions of auxiliary data only *)
Lemma data_harmless fitted aux e :
  (forall s, In s (symbols e) -> ~ In s (map fst fitted) /\ In s (map fst aux)) -> harmless fitted aux e.
Proof.
  unfold harmless. induction e as [z|r|s|a IHa b IHb|a IHa b IHb|a IHa b IHb|a IHa b IHb|a IHa|a IHa p|f a IHa]; intros H; cbn [kind_of symbols] in *; auto.
  - right. unfold classify. destruct (H s (or_introl eq_refl)) as [H1 H2]. rewrite (proj2 (dget_none s fitted) H1).
    destruct (dget_some s aux H2) as [v ->]. reflexivity.
  - destruct IHa as [-> | ->]; [intros s Hs; apply H, in_or_app; auto| |]; (destruct IHb as [-> | ->]; [intros s Hs; apply H, in_or_app; auto| |]); cbn; auto.
  - destruct IHa as [-> | ->]; [intros s Hs; apply H, in_or_app; auto| |]; (destruct IHb as [-> | ->]; [intros s Hs; apply H, in_or_app; auto| |]); cbn; auto.
  - destruct IHa as [-> | ->]; [intros s Hs; apply H, in_or_app; auto| |]; (destruct IHb as [-> | ->]; [intros s Hs; apply H, in_or_app; auto| |]); cbn; auto.
  - destruct IHa as [-> | ->]; [intros s Hs; apply H, in_or_app; auto| |]; (destruct IHb as [-> | ->]; [intros s Hs; apply H, in_or_app; auto| |]); cbn; auto.
  - destruct (IHa H) as [-> | ->]; auto.
  - destruct (IHa H) as [-> | ->]; auto.
  - destruct (IHa H) as [-> | ->]; auto.
Qed.

(** ** expressions of fitted parameters only *)
Definition numeric (v : pv) : Prop := match v with Int _ | Flt _ => True | _ => False end.
Definition flat (v : pv) : Prop := match v with Lst _ | Ar1 _ => True | _ => False end.
Definition fits (l : list string) (v : pv) : Prop := match l with [] => numeric v | _ => flat v end.

Lemma fits_app l1 l2 v : (match l1, l2 with [], [] => numeric v | _, _ => flat v end) -> fits (l1 ++ l2) v.
Proof. destruct l1, l2; auto. Qed.

Lemma arith_flat op v1 v2 v l1 l2 : fits l1 v1 -> fits l2 v2 -> arith op v1 v2 = Ok v -> fits (l1 ++ l2) v.
Proof.
  intros H1 H2 E. apply fits_app. destruct l1, l2, v1, v2; cbn in *; try contradiction; try discriminate E;
    try (injection E as <-; exact I); match type of E with bind ?c _ = _ => destruct c; cbn in E; [injection E as <-; exact I|discriminate E] end.
Qed.

Lemma run_fitted ufunc fitted aux e v : (forall s, In s (symbols e) -> In s (map fst fitted)) ->
  run ufunc (call_env fitted aux) e = Ok v -> fits (symbols e) v.
Proof.
  revert v. induction e as [z|r|s|a IHa b IHb|a IHa b IHb|a IHa b IHb|a IHa b IHb|a IHa|a IHa p|f a IHa]; intros v H E; cbn [run symbols] in *.
  - injection E as <-. exact I.
  - injection E as <-. exact I.
  - unfold call_env in E. destruct (dget_some s fitted (H s (or_introl eq_refl))) as [l El]. rewrite El in E. injection E as <-. exact I.
  - destruct (run _ _ a) as [va|]; [|discriminate E]. destruct (run _ _ b) as [vb|]; [|discriminate E]. cbn [bind] in E.
    assert (Fa : fits (symbols a) va) by (apply IHa; [intros s Hs; apply H, in_or_app; auto|reflexivity]).
    assert (Fb : fits (symbols b) vb) by (apply IHb; [intros s Hs; apply H, in_or_app; auto|reflexivity]).
    destruct va, vb; try (apply (arith_flat Rplus _ _ _ _ _ Fa Fb E)); cbn in E; injection E as <-; apply fits_app;
      destruct (symbols a), (symbols b); try contradiction; exact I.
  - destruct (run _ _ a) as [va|]; [|discriminate E]. destruct (run _ _ b) as [vb|]; [|discriminate E]. cbn [bind] in E.
    assert (Fa : fits (symbols a) va) by (apply IHa; [intros s Hs; apply H, in_or_app; auto|reflexivity]).
    assert (Fb : fits (symbols b) vb) by (apply IHb; [intros s Hs; apply H, in_or_app; auto|reflexivity]).
    destruct va, vb; try (apply (arith_flat Rminus _ _ _ _ _ Fa Fb E)); cbn in E; injection E as <-; apply fits_app;
      destruct (symbols a), (symbols b); try contradiction; exact I.
  - destruct (run _ _ a) as [va|]; [|discriminate E]. destruct (run _ _ b) as [vb|]; [|discriminate E]. cbn [bind] in E.
    assert (Fa : fits (symbols a) va) by (apply IHa; [intros s Hs; apply H, in_or_app; auto|reflexivity]).
    assert (Fb : fits (symbols b) vb) by (apply IHb; [intros s Hs; apply H, in_or_app; auto|reflexivity]).
    destruct va, vb; try (apply (arith_flat Rmult _ _ _ _ _ Fa Fb E)); cbn in E; injection E as <-; apply fits_app;
      destruct (symbols a), (symbols b); try contradiction; exact I.
  - destruct (run _ _ a) as [va|]; [|discriminate E]. destruct (run _ _ b) as [vb|]; [|discriminate E]. cbn [bind] in E.
    assert (Fa : fits (symbols a) va) by (apply IHa; [intros s Hs; apply H, in_or_app; auto|reflexivity]).
    assert (Fb : fits (symbols b) vb) by (apply IHb; [intros s Hs; apply H, in_or_app; auto|reflexivity]).
    apply (arith_flat Rdiv _ _ _ _ _ Fa Fb E).
  - destruct (run _ _ a) as [va|]; [|discriminate E]. cbn [bind] in E. specialize (IHa va H eq_refl).
    destruct (symbols a), va; cbn in *; try contradiction; try discriminate E; injection E as <-; exact I.
  - destruct (run _ _ a) as [va|]; [|discriminate E]. cbn [bind] in E. specialize (IHa va H eq_refl).
    destruct (symbols a), va; cbn in *; try contradiction; try discriminate E; injection E as <-; exact I.
  - destruct (run _ _ a) as [va|]; [|discriminate E]. cbn [bind] in E. specialize (IHa va H eq_refl).
    destruct (symbols a), va; cbn in *; try contradiction; try discriminate E; injection E as <-; exact I.
Qed.

Lemma fitted_fails ufunc fitted aux d outer : outer <> [] -> symbols d <> [] ->
  (forall s, In s (symbols d) -> In s (map fst fitted)) ->
  exists e, times_inner ufunc fitted aux d outer = Err e.
Proof.
  intros Ho Hs H. unfold times_inner. destruct (run _ _ d) as [v|e] eqn:E; [|exists e; reflexivity].
  apply run_fitted in E; [|exact H]. cbn [bind].
  destruct (symbols d) as [|s l]; [contradiction|]. destruct outer as [|o outer]; [contradiction|].
  destruct v as [z|r|[|x l']|[|x l']|l']; try contradiction; cbn; eexists; reflexivity.
Qed.

(** ** the replaced symbols *)
Lemma replace_none i slot l : ~ In i l -> replace_first i slot l = Err ValueError.
Proof.
  induction l as [|x l IH]; intros H; [reflexivity|]. cbn. destruct (String.eqb_spec x i) as [->|N].
  - exfalso; apply H; left; reflexivity.
  - rewrite IH by (intros Hi; apply H; right; exact Hi). reflexivity.
Qed.
Lemma replace_id i l : In i l -> replace_first i i l = Ok l.
Proof.
  induction l as [|x l IH]; intros H; [destruct H|]. cbn. destruct (String.eqb_spec x i) as [->|N]; [reflexivity|].
  destruct H as [->|H]; [contradiction|]. rewrite IH by exact H. reflexivity.
Qed.
(** [sub]: the replacements so far *)
Lemma replace_sub i slot (sub : string -> string) order : NoDup order -> In i order -> sub i = i ->
  (i = slot \/ forall k, In k order -> sub k = i -> k = i) ->
  replace_first i slot (map sub order) = Ok (map (fun k => if String.eqb k i then slot else sub k) order).
Proof.
  intros ND Hi Hs [->|U].
  - rewrite replace_id.
    + f_equal. apply map_ext. intros k. destruct (String.eqb_spec k slot) as [->|N]; [exact Hs|reflexivity].
    + apply in_map_iff. exists slot. auto.
  - induction order as [|x l IH]; [destruct Hi|]. cbn [map replace_first]. inversion ND as [|? ? Nx ND']; subst.
    destruct (String.eqb_spec (sub x) i) as [E|N].
    + assert (x = i) by (apply U; [left; reflexivity|exact E]). subst x. rewrite String.eqb_refl. f_equal. f_equal.
      apply map_ext_in. intros k Hk. destruct (String.eqb_spec k i) as [->|]; [contradiction|reflexivity].
    + destruct Hi as [->|Hi]; [contradiction|]. rewrite IH; auto.
      * cbn [bind]. f_equal. f_equal. destruct (String.eqb_spec x i) as [->|]; [contradiction|reflexivity].
      * intros k Hk. apply U. right; exact Hk.
Qed.

Fixpoint slot_of (defs : list (string * list string)) (k : string) : string :=
  match defs with
  | [] => k
  | (slot, symbs) :: r => if in_dec string_dec k symbs then slot else slot_of r k
  end.

Lemma neworder_ok names defs (sub : string -> string) order : NoDup order ->
  NoDup (flat_map snd defs) ->
  (forall slot symbs i, In (slot, symbs) defs -> In i symbs -> In i order /\ sub i = i /\ In slot names /\ (In i names -> i = slot)) ->
  (forall k, In k order -> sub k = k \/ In (sub k) names) ->
  neworder defs (map sub order) =
  Ok (map (fun k => if in_dec string_dec k (flat_map snd defs) then slot_of defs k else sub k) order).
Proof.
  intros NDo. revert sub. induction defs as [|[slot symbs] defs IH]; intros sub ND H S; [reflexivity|].
  cbn [neworder flat_map snd slot_of] in *.
  assert (L : forall l done, symbs = done ++ l ->
     fold_left (fun acc i => do o <- acc; replace_first i slot o) l
       (Ok (map (fun k => if in_dec string_dec k done then slot else sub k) order)) =
     Ok (map (fun k => if in_dec string_dec k symbs then slot else sub k) order)).
  { induction l as [|i l IHl]; intros done E.
    - rewrite app_nil_r in E. subst done. reflexivity.
    - cbn [fold_left bind].
      assert (Hi : In i symbs) by (rewrite E; apply in_or_app; right; left; reflexivity).
      destruct (H slot symbs i (or_introl eq_refl) Hi) as (H1 & H2 & H3 & H4).
      assert (NDs : NoDup symbs) by (clear -ND; induction symbs as [|x s IHs]; [constructor|]; inversion ND; subst; constructor; [intros Hx; apply H1, in_or_app; auto|auto]).
      assert (Nd : ~ In i done) by (rewrite E in NDs; apply NoDup_remove_2 in NDs; intros Hd; apply NDs, in_or_app; auto).
      rewrite replace_sub; auto.
      + rewrite <- (IHl (done ++ [i])) by (rewrite <- app_assoc; exact E). f_equal. f_equal. apply map_ext. intros k.
        destruct (String.eqb_spec k i) as [->|N].
        * destruct (in_dec string_dec i (done ++ [i])) as [_|C]; [reflexivity|]. exfalso. apply C, in_or_app. right; left; reflexivity.
        * destruct (in_dec string_dec k done) as [D|D]; destruct (in_dec string_dec k (done ++ [i])) as [C|C]; auto.
          -- exfalso. apply C, in_or_app; auto.
          -- exfalso. apply in_app_or in C. destruct C as [C|[C|[]]]; [contradiction|congruence].
      + destruct (in_dec string_dec i done) as [C|_]; [contradiction|exact H2].
      + destruct (string_dec i slot) as [->|Ns]; [left; reflexivity|right]. intros k Hk Ek.
        assert (Nn : ~ In i names) by (intros C; apply Ns, H4, C).
        destruct (in_dec string_dec k done) as [D|D].
        * subst i. contradiction.
        * destruct (S k Hk) as [E1|E1]; [congruence|]. rewrite Ek in E1. contradiction. }
  assert (E0 : map sub order = map (fun k => if in_dec string_dec k [] then slot else sub k) order) by reflexivity.
  rewrite E0, (L symbs []) by reflexivity. cbn [bind].
  assert (ND2 : NoDup (flat_map snd defs)) by (clear -ND; induction symbs as [|x s IHs]; [exact ND|]; inversion ND; auto).
  assert (Dj : forall k, In k symbs -> ~ In k (flat_map snd defs)).
  { intros k Hk C. clear -ND Hk C. induction symbs as [|x s IHs]; [destruct Hk|]. inversion ND as [|? ? N N']; subst.
    destruct Hk as [->|Hk]; [apply N, in_or_app; auto|auto]. }
  rewrite IH.
  - f_equal. apply map_ext. intros k.
    destruct (in_dec string_dec k symbs) as [D|D]; destruct (in_dec string_dec k (flat_map snd defs)) as [C|C];
      destruct (in_dec string_dec k (symbs ++ flat_map snd defs)) as [B|B]; auto; try (exfalso; apply B, in_or_app; auto; fail).
    + exfalso. apply (Dj k D C).
    + exfalso. apply in_app_or in B. destruct B; contradiction.
  - exact ND2.
  - intros slot' symbs' i Hin Hi. destruct (H slot' symbs' i (or_intror Hin) Hi) as (H1 & H2 & H3 & H4). repeat split; auto.
    destruct (in_dec string_dec i symbs) as [D|D]; [|exact H2]. exfalso. apply (Dj i D). apply in_flat_map. exists (slot', symbs'). auto.
  - intros k Hk. destruct (in_dec string_dec k symbs) as [D|D]; [right|apply S, Hk].
    apply (H slot symbs k (or_introl eq_refl) D).
Qed.

(** ** the whole jacobian *)
Lemma value_ext ufunc e1 e2 e : (forall s, In s (symbols e) -> e1 s = e2 s) -> value ufunc e1 e = value ufunc e2 e.
Proof.
  induction e as [z|r|s|a IHa b IHb|a IHa b IHb|a IHa b IHb|a IHa b IHb|a IHa|a IHa p|f a IHa]; intros H; cbn [value symbols] in *;
    try reflexivity; try (apply H; left; reflexivity);
    try (rewrite IHa, IHb by (intros s Hs; apply H, in_or_app; auto); reflexivity);
    rewrite IHa by exact H; reflexivity.
Qed.

Section Whole.
Variable ufunc : string -> R -> R.
Variables (fitted : list (string * list R)) (aux : list (string * list (list R))) (grp : string -> nat -> nat).
Variables n m : nat.
Hypothesis Hrect : rectangular n m aux.
Hypothesis Hgrp : forall s l c, In (s, l) fitted -> (grp s c < List.length l)%nat.

(** the derivatives of a parameter that occurs in at most one definition *)
Lemma fold_none (diffs : list (string * list (string * expr))) k data :
  (forall d, In d diffs -> ~ In k (map fst (snd d))) ->
  fold_left (fun acc d => do data <- acc;
     match dget string_dec k (snd d) with Some e => times_inner ufunc fitted aux e data | None => Ok data end) diffs (Ok data) = Ok data.
Proof.
  induction diffs as [|d diffs IH]; intros H; [reflexivity|]. cbn [fold_left bind].
  assert (E := proj2 (dget_none k (snd d)) (H d (or_introl eq_refl))).
  unfold dict in *. rewrite E. apply IH. intros d' Hd; apply H; right; exact Hd.
Qed.
Lemma fold_one (diffs : list (string * list (string * expr))) k slot ds e data :
  NoDup (flat_map (fun d => map fst (snd d)) diffs) -> In (slot, ds) diffs -> dget string_dec k ds = Some e ->
  fold_left (fun acc d => do data <- acc;
     match dget string_dec k (snd d) with Some e => times_inner ufunc fitted aux e data | None => Ok data end) diffs (Ok data) =
  times_inner ufunc fitted aux e data.
Proof.
  induction diffs as [|[s' ds'] diffs IH]; intros ND Hin He; [destruct Hin|]. cbn [fold_left bind snd flat_map] in *.
  assert (Hk : In k (map fst ds)) by (apply dget_In in He; apply (in_map fst) in He; exact He).
  destruct Hin as [E|Hin].
  - injection E as -> ->. rewrite He.
    assert (R : forall d, In d diffs -> ~ In k (map fst (snd d))).
    { intros d Hd C. clear -ND Hk Hd C. induction (map fst ds) as [|x s IHs]; [destruct Hk|]. inversion ND as [|? ? N N']; subst.
      destruct Hk as [->|Hk]; [apply N, in_or_app; right; apply in_flat_map; eauto|auto]. }
    destruct (times_inner ufunc fitted aux e data) as [x|er]; [apply fold_none, R|].
    clear. induction diffs as [|d diffs IH]; [reflexivity|]. cbn [fold_left bind]. exact IH.
  - assert (N : ~ In k (map fst ds')).
    { intros C. clear -ND Hin Hk C. induction (map fst ds') as [|x s IHs]; [destruct C|]. inversion ND as [|? ? N N']; subst.
      destruct C as [->|C]; [apply N, in_or_app; right; apply in_flat_map; exists (slot, ds); auto|auto]. }
    rewrite (proj2 (dget_none k ds') N). apply IH; [|exact Hin|exact He].
    clear -ND. induction (map fst ds') as [|x s IHs]; [exact ND|]. inversion ND; auto.
Qed.

Lemma slot_of_in (defs : list (string * list string)) k slot symbs : NoDup (flat_map snd defs) ->
  In (slot, symbs) defs -> In k symbs -> slot_of defs k = slot.
Proof.
  induction defs as [|[s' l'] defs IH]; intros ND Hin Hk; [destruct Hin|]. cbn [slot_of flat_map snd] in *.
  destruct Hin as [E|Hin].
  - injection E as -> ->. destruct (in_dec string_dec k symbs); [reflexivity|contradiction].
  - destruct (in_dec string_dec k l') as [C|C].
    + exfalso. clear -ND C Hin Hk. induction l' as [|x s IHs]; [destruct C|]. inversion ND as [|? ? N N']; subst.
      destruct C as [->|C]; [apply N, in_or_app; right; apply in_flat_map; exists (slot, symbs); auto|auto].
    + apply IH; auto. clear -ND. induction l' as [|x s IHs]; [exact ND|]. inversion ND; auto.
Qed.

Variables (jac : string -> list R) (defs : list (string * (expr * list (string * expr)))) (order : list string).
Let diffs := map (fun d => (fst d, snd (snd d))) defs.
Let definitions := map (fun d => (fst d, fst (snd d))) defs.
Let obs := at_obs fitted aux grp.
Hypothesis NDo : NoDup order.
Hypothesis NDs : NoDup (map fst defs).
Hypothesis NDd : NoDup (flat_map (fun d => map fst (snd (snd d))) defs).
Hypothesis Hsym : forall slot def ds x, In (slot, (def, ds)) defs -> (In x (map fst ds) <-> In x order /\ In x (symbols def)).
Hypothesis Hname : forall slot def ds x, In (slot, (def, ds)) defs -> In x (map fst ds) -> In x (map fst defs) -> x = slot.
Hypothesis Hslot : forall slot def ds, In (slot, (def, ds)) defs -> In slot order -> In slot (symbols def).
Hypothesis Hharm : forall slot def ds x d, In (slot, (def, ds)) defs -> In (x, d) ds -> harmless fitted aux d.
Let needed s := In s (map fst defs) \/ (In s order /\ forall slot def ds, In (slot, (def, ds)) defs -> ~ In s (map fst ds)).
Hypothesis Hlen : forall s, needed s -> List.length (jac s) = (n * m)%nat.

(** derivative data of parameter [k] *)
Lemma calc_jac_ok : exists J, calc_jac ufunc fitted aux jac diffs order = Ok J /\ map fst J = order /\
  forall k data, In (k, data) J ->
    (exists slot def ds d, In (slot, (def, ds)) defs /\ In (k, d) ds /\
       data = map (fun c => nth c (jac slot) 0 * value ufunc (obs c) d) (seq 0 (n * m))) \/
    ((forall slot def ds, In (slot, (def, ds)) defs -> ~ In k (map fst ds)) /\ data = jac k).
Proof.
  unfold calc_jac.
  set (dl := map (fun d => (fst d, map fst (snd d))) diffs).
  assert (Fm : flat_map snd dl = flat_map (fun d => map fst (snd (snd d))) defs).
  { unfold dl, diffs. rewrite map_map. clear. induction defs as [|d l IH]; [reflexivity|]. cbn [map flat_map fst snd]. f_equal. exact IH. }
  assert (Hdl : forall slot symbs, In (slot, symbs) dl <-> exists def ds, In (slot, (def, ds)) defs /\ symbs = map fst ds).
  { intros slot symbs. unfold dl, diffs. rewrite map_map, in_map_iff. split.
    - intros ([s [df ds]] & E & Hin). cbn in E. injection E as -> <-. eauto.
    - intros (df & ds & Hin & ->). exists (slot, (df, ds)). auto. }
  pose proof (neworder_ok (map fst defs) dl (fun k => k) order NDo) as NO. rewrite Fm in NO. rewrite map_id in NO.
  rewrite NO; clear NO.
  2: exact NDd.
  2: { intros slot symbs i Hin Hi. apply Hdl in Hin. destruct Hin as (df & ds & Hin & ->).
       repeat split; [apply (Hsym _ _ _ _ Hin), Hi|apply (in_map fst) in Hin; exact Hin|apply (Hname _ _ _ _ Hin Hi)]. }
  2: { intros k _. left; reflexivity. }
  cbn [bind].
  set (o := fun k => if in_dec string_dec k (flat_map (fun d => map fst (snd (snd d))) defs) then slot_of dl k else k).
  assert (St : combine order (map jac (map o order)) = map (fun k => (k, jac (o k))) order).
  { clear. induction order as [|k l IH]; [reflexivity|]. cbn [map combine]. rewrite IH. reflexivity. }
  change (map (fun k => if in_dec string_dec k (flat_map (fun d => map fst (snd (snd d))) defs) then slot_of dl k else k) order) with (map o order).
  rewrite St.
  assert (NDdiffs : NoDup (flat_map (fun d => map fst (snd d)) diffs)).
  { replace (flat_map (fun d => map fst (snd d)) diffs) with (flat_map (fun d => map fst (snd (snd d))) defs); [exact NDd|].
    unfold diffs. clear. induction defs as [|d l IH]; [reflexivity|]. cbn [map flat_map fst snd]. f_equal. exact IH. }
  assert (One : forall k, In k order -> exists data,
     (do x <- fold_left (fun acc d => do data <- acc;
        match dget string_dec k (snd d) with Some e => times_inner ufunc fitted aux e data | None => Ok data end) diffs (Ok (jac (o k)));
      Ok (k, x)) = Ok (k, data) /\
     ((exists slot def ds d, In (slot, (def, ds)) defs /\ In (k, d) ds /\
       data = map (fun c => nth c (jac slot) 0 * value ufunc (obs c) d) (seq 0 (n * m))) \/
      ((forall slot def ds, In (slot, (def, ds)) defs -> ~ In k (map fst ds)) /\ data = jac k))).
  { intros k Hk. unfold o. destruct (in_dec string_dec k (flat_map (fun d => map fst (snd (snd d))) defs)) as [C|C].
    - apply in_flat_map in C. destruct C as ([slot [df ds]] & Hin & Ck). cbn [fst snd] in Ck.
      destruct (dget_some k ds Ck) as [d Ed].
      assert (So : slot_of dl k = slot).
      { apply (slot_of_in dl k slot (map fst ds)); [rewrite Fm; exact NDd|apply Hdl; eauto|exact Ck]. }
      rewrite So.
      assert (Hin' : In (slot, ds) diffs) by (unfold diffs; apply in_map_iff; exists (slot, (df, ds)); auto).
      rewrite (fold_one diffs k slot ds d (jac slot) NDdiffs Hin' Ed).
      assert (Ls : List.length (jac slot) = (n * m)%nat) by (apply Hlen; left; apply (in_map fst) in Hin; exact Hin).
      rewrite (times_inner_ok ufunc fitted aux grp n m Hrect Hgrp d (jac slot)); [|eapply Hharm; [exact Hin|apply dget_In, Ed]|exact Ls].
      cbn [bind]. eexists. split; [reflexivity|]. left. exists slot, df, ds, d. repeat split; auto. apply dget_In, Ed.
    - rewrite fold_none.
      + cbn [bind]. eexists. split; [reflexivity|]. right. split; [|reflexivity].
        intros slot df ds Hin Ck. apply C, in_flat_map. exists (slot, (df, ds)). auto.
      + intros d Hd Ck. apply C, in_flat_map. unfold diffs in Hd. apply in_map_iff in Hd. destruct Hd as (x & <- & Hx). eauto. }
  clear -One. revert One. induction order as [|k l IH]; intros One.
  - exists []. split; [reflexivity|]. split; [reflexivity|]. intros k data [].
  - destruct IH as (J & E & Ek & H); [intros k' Hk'; apply One; right; exact Hk'|].
    destruct (One k (or_introl eq_refl)) as (data & Ed & Hd).
    exists ((k, data) :: J). cbn [map mapM fst snd]. rewrite Ed. cbn [bind]. rewrite E. cbn [bind]. split; [reflexivity|].
    split; [cbn [map fst]; rewrite Ek; reflexivity|].
    intros k' data' [E'|Hin]; [injection E' as <- <-; exact Hd|apply H, Hin].
Qed.

(** the model at observation [c] as a function of the slots *)
Variable F : nat -> (string -> R) -> R.
Hypothesis HF : forall s c, (c < n * m)%nat -> needed s ->
  is_derive (fun v => F c (upd (slots ufunc definitions (obs c)) s v)) (slots ufunc definitions (obs c) s) (nth c (jac s) 0).
Hypothesis Hd : forall slot def ds x d c, In (slot, (def, ds)) defs -> In (x, d) ds -> (c < n * m)%nat ->
  is_derive (fun v => value ufunc (upd (obs c) x v) def) (obs c x) (value ufunc (obs c) d).
Hypothesis Hin : forall slot def ds x, In (slot, (def, ds)) defs -> In x (map fst ds) -> x = slot \/
  forall c e v, F c (upd e x v) = F c e.

Lemma def_of slot def ds : In (slot, (def, ds)) defs -> dget string_dec slot definitions = Some def.
Proof.
  unfold definitions. clear -NDs. induction defs as [|[s [df' ds']] l IH]; intros H; [destruct H|]. cbn [map dget fst snd].
  inversion NDs as [|? ? N N']; subst. destruct H as [E|H].
  - injection E as -> -> ->. destruct (string_dec slot slot); [reflexivity|congruence].
  - destruct (string_dec slot s) as [->|Ns]; [|apply IH; auto]. exfalso. apply N. apply (in_map fst) in H. exact H.
Qed.
Lemma def_in s e : dget string_dec s definitions = Some e -> exists ds, In (s, (e, ds)) defs.
Proof.
  intros H. apply dget_In in H. unfold definitions in H. apply in_map_iff in H. destruct H as ([s' [df ds]] & E & H).
  cbn in E. injection E as -> ->. eauto.
Qed.
Lemma unique_def k slot def ds slot' def' ds' : In (slot, (def, ds)) defs -> In (slot', (def', ds')) defs ->
  In k (map fst ds) -> In k (map fst ds') -> slot = slot'.
Proof.
  clear -NDd. induction defs as [|[s [df dds]] l IH]; intros H1 H2 K1 K2; [destruct H1|]. cbn [flat_map snd] in NDd.
  assert (Dj : forall sl d dd, In (sl, (d, dd)) l -> In k (map fst dds) -> In k (map fst dd) -> False).
  { intros sl d dd Hl Ka Kb. clear -NDd Hl Ka Kb. induction (map fst dds) as [|x q IHq]; [destruct Ka|]. inversion NDd as [|? ? N N']; subst.
    destruct Ka as [->|Ka]; [apply N, in_or_app; right; apply in_flat_map; exists (sl, (d, dd)); auto|auto]. }
  destruct H1 as [E1|H1], H2 as [E2|H2].
  - congruence.
  - injection E1 as -> -> ->. exfalso. eapply Dj; eauto.
  - injection E2 as -> -> ->. exfalso. eapply Dj; eauto.
  - apply IH; auto. clear -NDd. induction (map fst dds) as [|x q IHq]; [exact NDd|]. inversion NDd; auto.
Qed.

Lemma upd_slots k slot def ds c v : In (slot, (def, ds)) defs -> In k (map fst ds) ->
  F c (slots ufunc definitions (upd (obs c) k v)) =
  F c (upd (slots ufunc definitions (obs c)) slot (value ufunc (upd (obs c) k v) def)).
Proof.
  intros H Hk.
  assert (G : forall s, s = slot \/ s <> k -> slots ufunc definitions (upd (obs c) k v) s =
     upd (slots ufunc definitions (obs c)) slot (value ufunc (upd (obs c) k v) def) s).
  { intros s Hs. unfold upd at 2. destruct (String.eqb_spec s slot) as [->|N].
    - unfold slots. rewrite (def_of _ _ _ H). reflexivity.
    - destruct Hs as [Hs|Hs]; [contradiction|]. unfold slots. destruct (dget string_dec s definitions) as [e|] eqn:E.
      + apply def_in in E. destruct E as [ds' E]. apply value_ext. intros x Hx. unfold upd. destruct (String.eqb_spec x k) as [->|]; [|reflexivity].
        exfalso. apply N. assert (Ko : In k order) by (apply (Hsym _ _ _ _ H), Hk).
        assert (K' : In k (map fst ds')) by (apply (Hsym _ _ _ _ E); auto). symmetry. eapply unique_def; eassumption.
      + unfold upd. destruct (String.eqb_spec s k); [contradiction|reflexivity]. }
  destruct (Hin _ _ _ _ H Hk) as [->|Hi].
  - f_equal. apply functional_extensionality. intros s. apply G. destruct (string_dec s slot); auto.
  - match goal with |- F c ?a = F c ?b => transitivity (F c (upd a k 0)); [symmetry; apply Hi|]; transitivity (F c (upd b k 0)); [|apply Hi] end.
    f_equal. apply functional_extensionality. intros s. specialize (G s). revert G.
    generalize (slots ufunc definitions (upd (obs c) k v)), (upd (slots ufunc definitions (obs c)) slot (value ufunc (upd (obs c) k v) def)).
    intros f g G. unfold upd. destruct (String.eqb_spec s k) as [->|N]; [reflexivity|]. auto.
Qed.

Lemma jacobian_derivative : exists J, calc_jac ufunc fitted aux jac diffs order = Ok J /\ map fst J = order /\
  forall k data c, In (k, data) J -> (c < n * m)%nat ->
    is_derive (fun v => F c (slots ufunc definitions (upd (obs c) k v))) (obs c k) (nth c data 0).
Proof.
  destruct calc_jac_ok as (J & E & Ek & H). exists J. split; [exact E|]. split; [exact Ek|]. intros k data c Hk Hc.
  assert (Ho : In k order) by (rewrite <- Ek; apply (in_map fst) in Hk; exact Hk).
  destruct (H k data Hk) as [(slot & def & ds & d & Hi & Hkd & ->)|[N ->]].
  - assert (Kds : In k (map fst ds)) by (apply (in_map fst) in Hkd; exact Hkd).
    eapply is_derive_ext; [intros v; symmetry; apply (upd_slots k slot def ds c v Hi Kds)|].
    rewrite (nth_map' _ _ _ 0%nat) by (rewrite seq_length; exact Hc). rewrite seq_nth by exact Hc. cbn [Nat.add].
    rewrite Rmult_comm.
    assert (HF' := HF slot c Hc (or_introl (in_map fst _ _ Hi))).
    assert (Es : slots ufunc definitions (obs c) slot = value ufunc (upd (obs c) k (obs c k)) def).
    { unfold slots. rewrite (def_of _ _ _ Hi). apply value_ext. intros s _. unfold upd. destruct (String.eqb_spec s k) as [->|]; reflexivity. }
    rewrite Es in HF'.
    apply (is_derive_comp (fun t => F c (upd (slots ufunc definitions (obs c)) slot t)) (fun v => value ufunc (upd (obs c) k v) def)
             (obs c k) _ _ HF' (Hd _ _ _ _ _ _ Hi Hkd Hc)).
  - assert (Nd : dget string_dec k definitions = None).
    { destruct (dget string_dec k definitions) as [e|] eqn:Ed; [|reflexivity]. exfalso. apply def_in in Ed. destruct Ed as [ds Ed].
      apply (N _ _ _ Ed). apply (Hsym _ _ _ _ Ed). split; [exact Ho|]. eapply Hslot; eassumption. }
    assert (Es : slots ufunc definitions (obs c) k = obs c k) by (unfold slots; rewrite Nd; reflexivity).
    rewrite <- Es. eapply is_derive_ext; [|apply (HF k c Hc (or_intror (conj Ho N)))]. intros v. cbn beta. f_equal. apply functional_extensionality. intros s.
    unfold slots at 2. destruct (dget string_dec s definitions) as [e|] eqn:Ed.
    + unfold upd at 1. destruct (String.eqb_spec s k) as [->|Ns]; [congruence|]. unfold slots. rewrite Ed.
      apply def_in in Ed. destruct Ed as [ds Ed]. apply value_ext. intros x Hx. unfold upd. destruct (String.eqb_spec x k) as [->|]; [|reflexivity].
      exfalso. apply (N _ _ _ Ed). apply (Hsym _ _ _ _ Ed). auto.
    + unfold upd. destruct (String.eqb_spec s k) as [->|Ns]; [reflexivity|]. unfold slots. rewrite Ed. reflexivity.
Qed.
End Whole.

(** ** a symbol in two definitions *)
Lemma rep_count i j slot l l' : i <> slot -> replace_first j slot l = Ok l' ->
  (count_occ string_dec l' i + count_occ string_dec [j] i = count_occ string_dec l i)%nat.
Proof.
  intros Ns. revert l'. induction l as [|x l IH]; intros l' E; [discriminate E|]. cbn [replace_first] in E.
  destruct (String.eqb_spec x j) as [->|N].
  - injection E as <-. cbn [count_occ]. destruct (string_dec slot i) as [C|_]; [congruence|].
    destruct (string_dec j i); lia.
  - destruct (replace_first j slot l) as [r|] eqn:Er; [|discriminate E]. cbn [bind] in E. injection E as <-.
    specialize (IH r eq_refl). cbn [count_occ] in *. destruct (string_dec x i), (string_dec j i); lia.
Qed.
Lemma neworder_count i defs : ~ In i (map fst defs) -> forall o o', neworder defs o = Ok o' ->
  (count_occ string_dec o' i + count_occ string_dec (flat_map snd defs) i = count_occ string_dec o i)%nat.
Proof.
  induction defs as [|[slot symbs] defs IH]; intros Ni o o' E; cbn [neworder flat_map snd] in *.
  - injection E as ->. cbn. lia.
  - destruct (fold_left _ symbs (Ok o)) as [o1|] eqn:E1; [|discriminate E]. cbn [bind] in E.
    rewrite count_occ_app. specialize (IH (fun C => Ni (or_intror C)) o1 o' E).
    assert (Ns : i <> slot) by (intros ->; apply Ni; left; reflexivity).
    assert (L : (count_occ string_dec o1 i + count_occ string_dec symbs i = count_occ string_dec o i)%nat); [|lia].
    clear -Ns E1. revert o E1. induction symbs as [|j symbs IHs]; intros o E1; cbn [fold_left] in E1.
    + injection E1 as ->. cbn. lia.
    + cbn [bind] in E1. destruct (replace_first j slot o) as [o2|e] eqn:Er.
      * specialize (IHs o2 E1). apply (rep_count i) in Er; [|exact Ns]. cbn [count_occ] in *. destruct (string_dec j i); lia.
      * exfalso. clear -E1. induction symbs as [|j symbs IH]; [discriminate E1|]. exact (IH E1).
Qed.
