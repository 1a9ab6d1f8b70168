(** C218: loading dumped MultiFits objects. *)
From Coq Require Import Arith Bool String List Lia.
From Verif Require Import Base Base_Proofs Ids_Model Mf_Model Mfo_Model Mfo_Spec Mfo_Proofs.
Import ListNotations.
Local Open Scope string_scope.
Local Open Scope list_scope.

(** Loading a dump (of a current or an old version): the object has all configurations, in the same order, each with the
    dataset (sorted), the auxiliary data and the reader-arg of the MultiFits object, its name and its ID; no other fit
    changes. *)
Theorem C218_load : forall (D : Type) (sort : D -> D) (stem : string) (h : heap D) (s : state D), proper h s ->
  exists m h', load sort stem h s = Ok (m, h') /\
    m_names m = s_names s /\ m_data m = option_map sort (s_data s) /\ m_aux m = s_aux s /\ m_reader m = s_reader s /\
    config_fits h' m = Ok (s_cfg s) /\
    (forall n o, In (n, o) (s_cfg s) -> getitem m n = Ok o /\ h' o = restored sort stem h s n (h o)) /\
    (forall o, ~ In o (map snd (s_cfg s)) -> h' o = h o).
Proof.
  intros D sort stem h s P. destruct (load_ok sort stem h s P) as [h' [E [Hi Hx]]]. eexists. exists h'. split; [exact E|].
  cbn [m_names m_data m_aux m_reader]. do 4 (split; [reflexivity|]).
  pose proof (proper_dget h s P) as G. destruct P as [Hne [Hn [Hk [Ho Hc]]]].
  split; [|split; [|exact Hx]].
  - apply config_fits_ok; [now rewrite Hk| |].
    + unfold iter_names. cbn [m_parent m_names]. rewrite Hk. now destruct (s_old s).
    + intros n o H. split; [now apply G|]. now rewrite (Hi n o H).
  - intros n o H. split; [|now apply Hi]. unfold getitem, iter_names. cbn [m_parent m_names m_cfg].
    assert (In n (s_names s)) by (rewrite <- Hk; apply in_map_iff; now exists (n, o)).
    assert (I : inb string_dec n (s_names s) = true) by now apply inb_iff.
    destruct (s_old s); rewrite I, (G n o H); reflexivity.
Qed.
Print Assumptions C218_load.

(** A configuration can be added to an object that was loaded from a dump of the current version ... *)
Theorem C218_add : forall (D : Type) (sort : D -> D) (stem : string) (h : heap D) (s : state D) (n : string) (o : nat),
  proper h s -> s_old s = false -> good_name n -> n <> "_RT1_version" -> ~ In n (s_names s) -> ~ In o (map snd (s_cfg s)) ->
  exists x m h', load sort stem h s = Ok x /\ add_config sort n o x = Ok (m, h') /\
    m_names m = s_names s ++ [n] /\ getitem m n = Ok o /\ config_fits h' m = Ok (s_cfg s ++ [(n, o)]).
Proof.
  intros D sort stem h s n o P Eo Hg Hv Hnew Hobj. destruct (load_ok sort stem h s P) as [h' [E [Hi Hx]]]. eexists. eexists. eexists. split; [exact E|].
  unfold add_config. assert (V : valid_name mf_dict n = true).
  { destruct Hg as [H1 H2]. unfold valid_name. rewrite H1. cbn [andb]. apply negb_true_iff. apply inb_false. unfold mf_dict. cbn in *. intros X. apply H2.
    repeat (destruct X as [X|X]; [tauto|]). destruct X as [X|X]; [congruence|contradiction]. }
  rewrite V. cbn [m_names m_data m_aux m_reader m_cfg m_parent]. split; [reflexivity|]. cbn [m_names]. split; [reflexivity|].
  pose proof (proper_dget h s P) as G. destruct P as [Hne [Hn [Hk [Ho Hc]]]]. rewrite Eo. split.
  - unfold getitem, iter_names. cbn [m_parent m_names m_cfg]. replace (inb string_dec n (s_names s ++ [n])) with true.
    + now rewrite dget_dset_same.
    + symmetry. apply inb_iff. apply in_or_app. right. now left.
  - apply config_fits_ok.
    + rewrite map_app. cbn [map fst]. rewrite Hk. now apply NoDup_app_single.
    + unfold iter_names. cbn [m_parent m_names]. rewrite map_app. cbn [map fst]. now rewrite Hk.
    + intros a b H. cbn [m_cfg]. apply in_app_or in H. destruct H as [H|[H|[]]].
      * assert (a <> n) by (intros ->; apply Hnew; rewrite <- Hk; apply in_map_iff; now exists (n, b)).
        assert (b <> o) by (intros ->; apply Hobj; apply in_map_iff; now exists (a, o)).
        rewrite dget_dset_other by assumption. split; [now apply G|]. rewrite upd_other by assumption. now rewrite (Hi a b H).
      * inversion H; subst. rewrite dget_dset_same. split; [reflexivity|]. now rewrite upd_same.
Qed.
Print Assumptions C218_add.
(** ... but not to one from a dump of an old version: the new name is listed in config_names, the fit is not found. *)
Theorem C218_add_refuted : forall (D : Type) (sort : D -> D) (stem : string) (h : heap D) (s : state D) (n : string) (o : nat),
  proper h s -> s_old s = true -> good_name n -> n <> "_RT1_version" -> ~ In n (s_names s) -> ~ In o (map snd (s_cfg s)) ->
  exists x m h', load sort stem h s = Ok x /\ add_config sort n o x = Ok (m, h') /\
    m_names m = s_names s ++ [n] /\ getitem m n = Err AssertionError /\ config_fits h' m = Ok (s_cfg s).
Proof.
  intros D sort stem h s n o P Eo Hg Hv Hnew Hobj. destruct (load_ok sort stem h s P) as [h' [E [Hi Hx]]]. eexists. eexists. eexists. split; [exact E|].
  unfold add_config. assert (V : valid_name mf_dict n = true).
  { destruct Hg as [H1 H2]. unfold valid_name. rewrite H1. cbn [andb]. apply negb_true_iff. apply inb_false. unfold mf_dict. cbn in *. intros X. apply H2.
    repeat (destruct X as [X|X]; [tauto|]). destruct X as [X|X]; [congruence|contradiction]. }
  rewrite V. cbn [m_names m_data m_aux m_reader m_cfg m_parent]. split; [reflexivity|]. cbn [m_names]. split; [reflexivity|].
  pose proof (proper_dget h s P) as G. destruct P as [Hne [Hn [Hk [Ho Hc]]]]. rewrite Eo. split.
  - unfold getitem, iter_names. cbn [m_parent m_names m_cfg]. replace (inb string_dec n (s_names s)) with false; [reflexivity|].
    symmetry. now apply inb_false.
  - apply config_fits_ok.
    + now rewrite Hk.
    + unfold iter_names. cbn [m_parent m_names]. now rewrite Hk.
    + intros a b H. cbn [m_cfg].
      assert (a <> n) by (intros ->; apply Hnew; rewrite <- Hk; apply in_map_iff; now exists (n, b)).
      assert (b <> o) by (intros ->; apply Hobj; apply in_map_iff; now exists (a, o)).
      rewrite dget_dset_other by assumption. split; [now apply G|]. rewrite upd_other by assumption. now rewrite (Hi a b H).
Qed.
Print Assumptions C218_add_refuted.

(** Unpickling without [load] (e.g. pickle.load): a current dump gives the fits as they were dumped, an old one fits
    without dataset and auxiliary data, although the MultiFits object itself has them. *)
Theorem C218_unpickle_refuted : forall (D : Type) (sort : D -> D) (h : heap D) (s : state D), proper h s ->
  exists m h', unpickle sort h s = Ok (m, h') /\ m_data m = s_data s /\ m_aux m = s_aux s /\
    forall n o, In (n, o) (s_cfg s) ->
      if s_old s then f_data (h' o) = None /\ f_aux (h' o) = None else h' o = h o.
Proof.
  intros D sort h s P. destruct (unpickle_ok sort h s P) as [h' [E [Hi Hx]]]. eexists. exists h'. split; [exact E|]. do 2 (split; [reflexivity|]).
  intros n o H. rewrite (Hi n o H). destruct (s_old s); [split|]; reflexivity.
Qed.
Print Assumptions C218_unpickle_refuted.

(** A dump of a MultiFits object without configurations cannot be loaded. *)
Theorem C218_empty_refuted : forall (D : Type) (sort : D -> D) (stem : string) (h : heap D) (s : state D),
  s_names s = [] -> s_cfg s = [] -> unpickle sort h s <> Err AssertionError /\ load sort stem h s = Err AssertionError.
Proof.
  intros D sort stem h [ns d a r c old] Hn Hc. cbn in Hn, Hc. subst. unfold load, unpickle. cbn [s_old s_cfg s_names adopt]. destruct old; (split; [discriminate|reflexivity]).
Qed.
Print Assumptions C218_empty_refuted.

(** If the fits have no names, those of a dump of an old version get them, those of a current one do not: it cannot be
    loaded. *)
Theorem C218_no_name_refuted : forall (D : Type) (sort : D -> D) (stem : string) (h : heap D) (s : state D),
  s_old s = false -> map fst (s_cfg s) = s_names s -> NoDup (s_names s) ->
  (exists n o, In (n, o) (s_cfg s) /\ f_name (h o) = None) -> load sort stem h s = Err AttributeError.
Proof.
  intros D sort stem h [ns d a r c old] Ho Hk Hn [n [o [Hi He]]]. cbn in *. subst old ns. unfold load, unpickle. cbn [s_old s_cfg s_names s_data s_aux s_reader bind fst snd].
  replace (config_fits h (mkmobj (map fst c) d a r c None)) with (@Err (dict string nat) AttributeError); [reflexivity|].
  unfold config_fits, iter, iter_names. cbn [m_parent m_names m_cfg].
  assert (G : forall x y, In (x, y) c -> dget string_dec x c = Some y) by (intros x y H; now apply dget_in_nodup).
  assert (E1 : forall k : dict string nat, incl k c ->
    mapM (fun n => match dget string_dec n c with Some o => Ok o | None => Err AttributeError end) (map fst k) = Ok (map snd k)).
  { induction k as [|[x y] k IH]; intros Hk; [reflexivity|]. cbn [map mapM fst snd]. rewrite (G x y (Hk _ (or_introl eq_refl))).
    cbn [bind]. rewrite IH; [reflexivity|]. intros z Hz. apply Hk. now right. }
  rewrite (E1 c (incl_refl _)). cbn [bind].
  assert (E2 : forall k : list nat, In o k -> mapM (fun o => match f_name (h o) with Some n => Ok (n, o) | None => Err AttributeError end) k = Err AttributeError).
  { induction k as [|y k IH]; intros Hk; [contradiction|]. cbn [mapM]. destruct (f_name (h y)) as [w|] eqn:Ey; [|reflexivity]. cbn [bind].
    destruct Hk as [->|Hk]; [congruence|]. now rewrite (IH Hk). }
  rewrite (E2 (map snd c)); [reflexivity|]. apply in_map_iff. now exists (n, o).
Qed.
Print Assumptions C218_no_name_refuted.

(** a dump of an old version with two configurations *)
Example C218_example :
  let h : heap nat := fun o => mkfit (Some 7) (Some 8) None (if Nat.eqb o 0 then Some "p1" else None) None in
  let s := mkstate ["cfg_0"; "cfg_1"] (Some 3) (Some 4) (Some 5) [("cfg_0", 0); ("cfg_1", 1)] true in
  proper h s /\
  match load S "file" h s with
  | Ok (m, h') => h' 0 = mkfit (Some 4) (Some 4) (Some 5) (Some "p1") (Some "cfg_0") /\ h' 1 = mkfit (Some 4) (Some 4) (Some 5) None (Some "cfg_1") /\
                  config_fits h' m = Ok [("cfg_0", 0); ("cfg_1", 1)]
  | Err _ => False
  end /\
  good_name "cfg_2" /\ ~ In "cfg_2" (s_names s).
Proof.
  cbv zeta. split; [|split; [|split]].
  - split; [discriminate|]. split.
    { repeat constructor; cbn; intuition discriminate. }
    split; [reflexivity|]. split.
    { repeat constructor; cbn; intuition discriminate. }
    intros n o [H|[H|[]]]; inversion H; subst; (split; [split; [reflexivity|cbn; intuition discriminate]|intros; discriminate]).
  - vm_compute. repeat split.
  - split; [reflexivity|cbn; intuition discriminate].
  - cbn. intuition discriminate.
Qed.
(** a dump of the current version: the first fit has no ID, all get the name of the file; dumps without names or without
    configurations *)
Example C218_example_current :
  let h (named : bool) : heap nat := fun o => mkfit (Some 7) (Some 8) None (if Nat.eqb o 0 then None else Some "p") (if named then Some (if Nat.eqb o 0 then "a" else "b") else None) in
  let s := mkstate ["a"; "b"] (Some 3) None None [("a", 0); ("b", 1)] false in
  proper (h true) s /\
  match load S "12" (h true) s with
  | Ok (m, h') => f_id (h' 0) = Some "RT1_12" /\ f_id (h' 1) = Some "RT1_12" /\ f_data (h' 1) = Some 4
  | Err _ => False
  end /\
  load S "12" (h false) s = Err AttributeError /\
  load S "12" (h true) (mkstate [] (Some 3) None None [] false) = Err AssertionError.
Proof.
  cbv zeta. split; [|split; [|split]].
  - split; [discriminate|]. split.
    { repeat constructor; cbn; intuition discriminate. }
    split; [reflexivity|]. split.
    { repeat constructor; cbn; intuition discriminate. }
    intros n o [H|[H|[]]]; inversion H; subst; (split; [split; [reflexivity|cbn; intuition discriminate]|reflexivity]).
  - vm_compute. repeat split.
  - vm_compute. reflexivity.
  - vm_compute. reflexivity.
Qed.
