(** Proofs about the modules of a run. *)
From Coq Require Import String Ascii Arith Bool Lia List.
From Verif Require Import Base Base_Proofs Str_Model Str_Proofs Imp_Model Imp_Spec.
Import ListNotations.
Local Open Scope string_scope.
Local Open Scope list_scope.

Lemma key_module m : startswith "module__" ("module__" ++ m)%string = true.
Proof. apply startswith_app. Qed.
Lemma key_drop m : drop 8 ("module__" ++ m)%string = m.
Proof. exact (drop_app "module__" m). Qed.
Lemma app_inj a b c : (a ++ b)%string = (a ++ c)%string -> b = c.
Proof. induction a; simpl; intros H; [exact H|]. injection H. auto. Qed.

Section P.
Variable Source : Type.
Variable exec : Source -> option pyerr.
Variable cfgdir : string.
Notation disc := (disc Source).
Notation mods := (list (string * path)).

(** ** copying *)
Lemma copy_keep items : forall d p s, dget path_dec p d = Some s -> dget path_dec p (fst (copy_modules Source cfgdir items d)) = Some s.
Proof.
  induction items as [|[k q] r IH]; intros d p s H; cbn [copy_modules]; [exact H|].
  destruct (negb (startswith "module__" k)); [apply IH, H|]. destruct (dget path_dec (cfgdir, snd q) d) eqn:E; [apply IH, H|].
  destruct (dget path_dec q d) as [t|]; [|exact H]. apply IH. destruct (path_dec p (cfgdir, snd q)) as [->|N]; [congruence|]. rewrite dget_dset_other by exact N. exact H.
Qed.
Lemma happens_keep d e p s : outside cfgdir e -> fst p = cfgdir -> dget path_dec p d = Some s -> dget path_dec p (happens Source exec cfgdir d e) = Some s.
Proof.
  intros O Hp H. destruct e as [q t|copy sec]; cbn [happens outside] in *.
  - rewrite dget_dset_other; [exact H|]. intros ->. congruence.
  - unfold setup_modules. pose proof (copy_keep sec d p s H) as K. destruct copy; [|destruct (get_all_modules _ _ _ _ _ _ _); exact H].
    destruct (copy_modules Source cfgdir sec d) as [d' [[]|e]]; cbn [fst] in *; [|exact K]. destruct (get_all_modules _ _ _ _ _ _ _); exact K.
Qed.

(** fresh folder, existing sources with distinct names *)
Lemma copy_all sec ms : lists sec ms -> forall d, distinct_files ms ->
  (forall m p, In (m, p) ms -> dget path_dec p d <> None /\ fst p <> cfgdir /\ dget path_dec (cfgdir, snd p) d = None) ->
  exists d', copy_modules Source cfgdir sec d = (d', Ok tt) /\ (forall q, fst q <> cfgdir -> dget path_dec q d' = dget path_dec q d) /\
    (forall m p, In (m, p) ms -> dget path_dec (cfgdir, snd p) d' = dget path_dec p d) /\
    (forall n, ~ In n (map (fun x => snd (snd x)) ms) -> dget path_dec (cfgdir, n) d' = dget path_dec (cfgdir, n) d).
Proof.
  induction 1 as [|m p sec ms L IH|k p sec ms K L IH]; intros d D F; cbn [copy_modules].
  - exists d. repeat split; auto. intros ? ? [].
  - rewrite key_module. cbn [negb]. destruct (F m p (or_introl eq_refl)) as (A & B & C). rewrite C.
    destruct (dget path_dec p d) as [s|] eqn:Ep; [|congruence]. unfold distinct_files in D. cbn [map snd] in D. inversion D as [|? ? D1 D2]; subst.
    assert (G : forall m' p', In (m', p') ms -> p' <> (cfgdir, snd p) /\ (cfgdir, snd p') <> (cfgdir, snd p)).
    { intros m' p' H. destruct (F m' p' (or_intror H)) as (_ & B' & _). split; [intros ->; exact (B' eq_refl)|]. intros E. injection E as E.
      apply D1. rewrite <- E. exact (in_map (fun x => snd (snd x)) ms (m', p') H). }
    destruct (IH (dset path_dec (cfgdir, snd p) s d)) as (d' & E1 & E2 & E3 & E4).
    + exact D2.
    + intros m' p' H. destruct (F m' p' (or_intror H)) as (A' & B' & C'). destruct (G m' p' H) as [G1 G2].
      rewrite !dget_dset_other by assumption. auto.
    + exists d'. split; [exact E1|]. split; [|split].
      * intros q Hq. rewrite E2 by exact Hq. apply dget_dset_other. intros ->. exact (Hq eq_refl).
      * intros m' p' [E|H].
        -- injection E as <- <-. rewrite (E4 (snd p) D1), dget_dset_same. symmetry. exact Ep.
        -- rewrite (E3 m' p' H). apply dget_dset_other, (G m' p' H).
      * intros n Hn. cbn [map snd In] in Hn. rewrite E4 by tauto. apply dget_dset_other. intros E. injection E as E. apply Hn. left. congruence.
  - unfold startswith. rewrite K. cbn [negb]. apply IH; assumption.
Qed.

(** ** importing *)
Lemma import_ok d p sys : importable exec d p -> exists s, dget path_dec p d = Some s /\
  import_file Source exec d p sys = (dset string_dec (stem (snd p)) (Loaded p s) sys, Ok (Loaded p s)).
Proof. intros (A & s & B & C). exists s. split; [exact B|]. unfold import_file. rewrite A, B, C. reflexivity. Qed.

Lemma lists_get sec ms m p : lists sec ms -> NoDup (keys sec) -> In (m, p) ms -> dget string_dec ("module__" ++ m)%string sec = Some p.
Proof.
  intros L. induction L as [|m' p' sec ms L IH|k p' sec ms K L IH]; intros N H; [destruct H| |].
  - unfold keys in N. cbn [map fst] in N. inversion N as [|? ? N1 N2]; subst. cbn [dget]. destruct H as [E|H].
    + injection E as -> ->. destruct (string_dec ("module__" ++ m) ("module__" ++ m)); [reflexivity|congruence].
    + specialize (IH N2 H). destruct (string_dec ("module__" ++ m) ("module__" ++ m')) as [e|_]; [|exact IH].
      exfalso. apply app_inj in e. subst m'. apply N1. apply (dget_in_keys string_dec). cbn [append] in IH. rewrite IH. discriminate.
  - unfold keys in N. cbn [map fst] in N. inversion N as [|? ? N1 N2]; subst. cbn [dget]. specialize (IH N2 H).
    destruct (string_dec ("module__" ++ m) k) as [e|_]; [|exact IH]. subst k. change (startswith "module__" ("module__" ++ m)%string = false) in K. rewrite key_module in K. discriminate.
Qed.
Lemma lists_keys sec ms : lists sec ms -> NoDup (keys sec) -> NoDup (map fst ms).
Proof.
  intros L. induction L as [|m p sec ms L IH|k p sec ms K L IH]; intros N; [constructor| |]; unfold keys in N; cbn [map fst] in N |- *; inversion N as [|? ? N1 N2]; subst; [|auto].
  constructor; [|auto]. intros H. apply N1. apply in_map_iff in H. destruct H as ([m' p'] & E & H). cbn [fst] in E. subst m'.
  apply (dget_in_keys string_dec). pose proof (lists_get sec ms m p' L N2 H) as X. cbn [append] in X. rewrite X. discriminate.
Qed.

(** where a module is imported from *)
Definition origin (copy : bool) (p : path) : path := if copy then (cfgdir, snd p) else p.

Lemma get_all_ok sec0 d copy sec ms : lists sec ms -> (forall m p, In (m, p) ms -> dget string_dec ("module__" ++ m)%string sec0 = Some p) ->
  NoDup (map fst ms) -> (forall m p, In (m, p) ms -> importable exec d (origin copy p)) ->
  forall acc sys, (forall m, In m (map fst ms) -> ~ In m (keys acc)) ->
  exists sys' r, get_all Source exec cfgdir sec0 sec d copy acc sys = (sys', Ok r) /\
    (forall m p, In (m, p) ms -> exists s, dget path_dec (origin copy p) d = Some s /\ dget string_dec m r = Some (Loaded (origin copy p) s)) /\
    (forall m, ~ In m (map fst ms) -> dget string_dec m r = dget string_dec m acc) /\
    (forall n, ~ In n (map (fun x => stem (snd (snd x))) ms) -> dget string_dec n sys' = dget string_dec n sys) /\
    (NoDup (map (fun x => stem (snd (snd x))) ms) -> forall m p, In (m, p) ms -> dget string_dec (stem (snd p)) sys' = dget string_dec m r).
Proof.
  induction 1 as [|m p sec ms L IH|k p sec ms K L IH]; intros G N I acc sys A; cbn [get_all].
  - exists sys, acc. split; [reflexivity|]. split; [intros ? ? []|]. split; [reflexivity|]. split; [reflexivity|]. intros _ ? ? [].
  - rewrite key_module, key_drop. cbn [negb]. cbn [map fst] in N. inversion N as [|? ? N1 N2]; subst.
    unfold get_module. rewrite (G m p (or_introl eq_refl)).
    destruct (import_ok d (origin copy p) sys (I m p (or_introl eq_refl))) as (s & Es & Ei).
    assert (Eg : (if copy then match dget path_dec (cfgdir, snd p) d with None => (sys, Err AssertionError) | Some _ => import_file Source exec d (cfgdir, snd p) sys end
             else import_file Source exec d p sys) = (dset string_dec (stem (snd p)) (Loaded (origin copy p) s) sys, Ok (Loaded (origin copy p) s))).
    { unfold origin in *. destruct copy; [rewrite Es|]; exact Ei. }
    rewrite Eg. clear Eg Ei.
    destruct (IH (fun m' p' h => G m' p' (or_intror h)) N2 (fun m' p' h => I m' p' (or_intror h)) (dset string_dec m (Loaded (origin copy p) s) acc) (dset string_dec (stem (snd p)) (Loaded (origin copy p) s) sys))
      as (sys' & r & E1 & E2 & E3 & E4 & E5).
    { intros m' Hm' C. apply in_keys_dset in C. destruct C as [->|C]; [exact (N1 Hm')|]. apply (A m'); [right; exact Hm'|exact C]. }
    exists sys', r. split; [exact E1|]. split; [|split; [|split]].
    + intros m' p' [E|H]; [|apply E2, H]. injection E as <- <-. exists s. split; [exact Es|]. rewrite E3 by exact N1. apply dget_dset_same.
    + intros m' Hm'. cbn [map fst In] in Hm'. rewrite E3 by tauto. apply dget_dset_other. intros ->. apply Hm'. left. reflexivity.
    + intros n Hn. cbn [map snd In] in Hn. rewrite E4 by tauto. apply dget_dset_other. intros ->. apply Hn. left. reflexivity.
    + intros Ns m' p' H. cbn [map snd] in Ns. inversion Ns as [|? ? Ns1 Ns2]; subst. destruct H as [E|H]; [|apply E5; assumption]. injection E as <- <-.
      rewrite E4 by exact Ns1. rewrite E3 by exact N1. rewrite !dget_dset_same. reflexivity.
  - unfold startswith. rewrite K. cbn [negb]. apply IH; assumption.
Qed.
End P.
