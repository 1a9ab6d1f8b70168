(** Lemmas for C218. *)
From Coq Require Import Arith Bool String List Lia.
From Verif Require Import Base Base_Proofs Ids_Model Mf_Model Mfo_Model Mfo_Spec.
Import ListNotations.
Local Open Scope list_scope.

Lemma dupdate_id {V} : forall (l d : dict string V), NoDup (keys (d ++ l)) -> dupdate string_dec d l = d ++ l.
Proof.
  induction l as [|[k v] l IH]; intros d H; [now rewrite app_nil_r|].
  rewrite dupdate_cons.
  assert (Hk : ~ In k (keys d)).
  { unfold keys in *. rewrite map_app in H. cbn [map fst] in H. apply NoDup_remove_2 in H. intros X. apply H. apply in_or_app. now left. }
  assert (E : dset string_dec k v d = d ++ [(k, v)]).
  { clear - Hk. induction d as [|[a b] d IHd]; [reflexivity|]. cbn [dset app]. destruct (string_dec k a) as [->|N].
    - exfalso. apply Hk. now left.
    - rewrite IHd; [reflexivity|]. intros X. apply Hk. now right. }
  rewrite E, IH; [now rewrite <- app_assoc|]. now rewrite <- app_assoc.
Qed.

Lemma good_valid n : good_name n -> valid_name fresh_dict n = true.
Proof.
  intros [H1 H2]. unfold valid_name. rewrite H1. cbn [andb]. apply negb_true_iff. now apply inb_false.
Qed.

Section P.
Context {D : Type}.
Variable sort : D -> D.

Lemma upd_same (h : heap D) o f : upd h o f o = f.
Proof. unfold upd. now rewrite Nat.eqb_refl. Qed.
Lemma upd_other (h : heap D) o f x : x <> o -> upd h o f x = h x.
Proof. unfold upd. intros H. destruct (Nat.eqb_spec x o); [contradiction|reflexivity]. Qed.

Lemma adopt_ok : forall (l : dict string nat) (h : heap D) ns,
  NoDup (map snd l) -> (forall n o, In (n, o) l -> good_name n) ->
  exists h', adopt sort h ns l = Ok (ns ++ map fst l, h') /\
    (forall n o, In (n, o) l -> h' o = attach sort None None n (h o)) /\ (forall o, ~ In o (map snd l) -> h' o = h o).
Proof.
  induction l as [|[n o] l IH]; intros h ns Hd Hg.
  - exists h. cbn. rewrite app_nil_r. split; [reflexivity|]. split; [tauto|reflexivity].
  - cbn [adopt]. rewrite good_valid by (apply (Hg n o); now left). inversion Hd as [|? ? Hn Hd']; subst.
    destruct (IH (upd h o (attach sort None None n (h o))) (ns ++ [n]) Hd') as [h' [E [Hi Ho]]].
    { intros a b Hb. apply (Hg a b). now right. }
    exists h'. split; [rewrite E, <- app_assoc; reflexivity|]. split.
    + intros a b [Hb|Hb].
      * inversion Hb; subst. rewrite Ho by exact Hn. apply upd_same.
      * rewrite (Hi a b Hb). rewrite upd_other; [reflexivity|]. intros ->. apply Hn. apply in_map_iff. now exists (a, o).
    + intros b Hb. cbn in Hb. rewrite Ho by tauto. apply upd_other. intros ->. apply Hb. now left.
Qed.

Lemma set_all_ok (g : fitobj D -> fitobj D) (c : dict string nat) : forall (l : dict string nat) (h : heap D),
  NoDup (map snd l) -> (forall n o, In (n, o) l -> dget string_dec n c = Some o) ->
  exists h', set_all g h c (map fst l) = Ok h' /\
    (forall o, In o (map snd l) -> h' o = g (h o)) /\ (forall o, ~ In o (map snd l) -> h' o = h o).
Proof.
  induction l as [|[n o] l IH]; intros h Hd Hg.
  - exists h. cbn. split; [reflexivity|]. split; [tauto|reflexivity].
  - cbn [map fst set_all]. rewrite (Hg n o) by now left. inversion Hd as [|? ? Hn Hd']; subst.
    destruct (IH (upd h o (g (h o))) Hd') as [h' [E [Hi Ho]]].
    { intros a b Hb. apply Hg. now right. }
    exists h'. split; [exact E|]. split.
    + intros b [Hb|Hb].
      * cbn in Hb. subst. rewrite Ho by exact Hn. apply upd_same.
      * rewrite (Hi b Hb). rewrite upd_other; [reflexivity|]. intros ->. contradiction.
    + intros b Hb. cbn in Hb. rewrite Ho by tauto. apply upd_other. intros ->. apply Hb. now left.
Qed.

Lemma config_fits_ok (h : heap D) (m : mobj D) (l : dict string nat) :
  NoDup (map fst l) -> iter_names m = map fst l -> (forall n o, In (n, o) l -> dget string_dec n (m_cfg m) = Some o /\ f_name (h o) = Some n) ->
  config_fits h m = Ok l.
Proof.
  intros Hd Hn H. unfold config_fits, iter. rewrite Hn.
  assert (E1 : forall k : dict string nat, incl k l ->
    mapM (fun n => match dget string_dec n (m_cfg m) with Some o => Ok o | None => Err AttributeError end) (map fst k) = Ok (map snd k)).
  { induction k as [|[n o] k IH]; intros Hk; [reflexivity|]. cbn [map mapM fst snd]. rewrite (proj1 (H n o (Hk _ (or_introl eq_refl)))).
    cbn [bind]. rewrite IH; [reflexivity|]. intros x Hx. apply Hk. now right. }
  rewrite (E1 l (incl_refl _)). cbn [bind].
  assert (E2 : forall k : dict string nat, incl k l ->
    mapM (fun o => match f_name (h o) with Some n => Ok (n, o) | None => Err AttributeError end) (map snd k) = Ok k).
  { induction k as [|[n o] k IH]; intros Hk; [reflexivity|]. cbn [map mapM fst snd]. rewrite (proj2 (H n o (Hk _ (or_introl eq_refl)))).
    cbn [bind]. rewrite IH; [reflexivity|]. intros x Hx. apply Hk. now right. }
  rewrite (E2 l (incl_refl _)). cbn [bind]. rewrite dupdate_id; [reflexivity|]. exact Hd.
Qed.

Lemma proper_dget (h : heap D) s : proper h s -> forall n o, In (n, o) (s_cfg s) -> dget string_dec n (s_cfg s) = Some o.
Proof. intros [_ [Hn [Hk _]]] n o Hi. apply dget_in_nodup; [|exact Hi]. unfold keys. now rewrite Hk. Qed.

(** what unpickling does *)
Lemma unpickle_ok (h : heap D) s : proper h s ->
  exists h1, unpickle sort h s = Ok (mkmobj (s_names s) (s_data s) (s_aux s) (s_reader s) (s_cfg s) (if s_old s then Some (s_names s) else None), h1) /\
    (forall n o, In (n, o) (s_cfg s) -> h1 o = (if s_old s then attach sort None None n (h o) else h o)) /\
    (forall o, ~ In o (map snd (s_cfg s)) -> h1 o = h o).
Proof.
  intros P. pose proof (proper_dget h s P) as G. destruct P as [Hne [Hn [Hk [Ho Hc]]]]. unfold unpickle. destruct (s_old s).
  - destruct (adopt_ok (s_cfg s) h [] Ho) as [h1 [E [Hi Hx]]].
    { intros n o H. now destruct (Hc n o H). }
    exists h1. rewrite E. cbn [bind fst snd app]. rewrite Hk. split; [|now split].
    rewrite (config_fits_ok h1 _ (s_cfg s)); [reflexivity| | |].
    + now rewrite Hk.
    + cbn. now rewrite Hk.
    + intros n o H. split; [now apply G|]. now rewrite (Hi n o H).
  - exists h. cbn [bind fst snd]. split; [|split; [intros; reflexivity|reflexivity]].
    rewrite (config_fits_ok h _ (s_cfg s)); [reflexivity| | |].
    + now rewrite Hk.
    + cbn. now rewrite Hk.
    + intros n o H. split; [now apply G|]. now apply (proj2 (Hc n o H)).
Qed.

Lemma load_ok stem (h : heap D) s : proper h s ->
  exists h', load sort stem h s = Ok (mkmobj (s_names s) (option_map sort (s_data s)) (s_aux s) (s_reader s) (s_cfg s) (if s_old s then Some (s_names s) else None), h') /\
    (forall n o, In (n, o) (s_cfg s) -> h' o = restored sort stem h s n (h o)) /\
    (forall o, ~ In o (map snd (s_cfg s)) -> h' o = h o).
Proof.
  intros P. pose proof (proper_dget h s P) as G. destruct (unpickle_ok h s P) as [h1 [E [Hi Hx]]]. destruct P as [Hne [Hn [Hk [Ho Hc]]]].
  unfold load. rewrite E. cbn [bind].
  assert (S : forall (g : fitobj D -> fitobj D) (x : heap D), exists x', set_all g x (s_cfg s) (s_names s) = Ok x' /\
    (forall n o, In (n, o) (s_cfg s) -> x' o = g (x o)) /\ (forall o, ~ In o (map snd (s_cfg s)) -> x' o = x o)).
  { intros g x. destruct (set_all_ok g (s_cfg s) (s_cfg s) x Ho G) as [x' [E1 [E2 E3]]]. rewrite Hk in E1. exists x'. split; [exact E1|]. split; [|exact E3].
    intros n o H. apply E2. apply in_map_iff. now exists (n, o). }
  assert (B : no_ID (mkmobj (s_names s) (s_data s) (s_aux s) (s_reader s) (s_cfg s) (if s_old s then Some (s_names s) else None), h1)
              = Ok (match first_id h s with None => true | Some _ => false end)).
  { unfold no_ID, first_id. cbn [m_names m_cfg]. destruct (s_cfg s) as [|[n o] c] eqn:Ec; [cbn in Hk; now rewrite <- Hk in Hne|].
    rewrite <- Hk. cbn [map fst]. rewrite (G n o) by now left. rewrite (Hi n o) by now left. destruct (s_old s); reflexivity. }
  rewrite B. cbn [bind].
  assert (I : exists h2, (if (match first_id h s with None => true | Some _ => false end)
      then set_ID stem (mkmobj (s_names s) (s_data s) (s_aux s) (s_reader s) (s_cfg s) (if s_old s then Some (s_names s) else None), h1)
      else Ok (mkmobj (s_names s) (s_data s) (s_aux s) (s_reader s) (s_cfg s) (if s_old s then Some (s_names s) else None), h1))
      = Ok (mkmobj (s_names s) (s_data s) (s_aux s) (s_reader s) (s_cfg s) (if s_old s then Some (s_names s) else None), h2) /\
    (forall n o, In (n, o) (s_cfg s) -> f_id (h2 o) = (match first_id h s with None => Some (get_ID stem) | Some _ => f_id (h o) end) /\ f_name (h2 o) = Some n) /\
    (forall o, ~ In o (map snd (s_cfg s)) -> h2 o = h o)).
  { assert (N : forall n o, In (n, o) (s_cfg s) -> f_id (h1 o) = f_id (h o) /\ f_name (h1 o) = Some n).
    { intros n o H. rewrite (Hi n o H). destruct (s_old s) eqn:Eo; [split; reflexivity|]. split; [reflexivity|]. now apply (proj2 (Hc n o H)). }
    destruct (first_id h s) as [i|].
    - exists h1. split; [reflexivity|]. split; [exact N|exact Hx].
    - cbn [set_ID m_cfg m_names]. destruct (S (fun f => mkfit (f_data f) (f_aux f) (f_reader f) (Some (get_ID stem)) (f_name f)) h1) as [h2 [E2 [H2 X2]]].
      rewrite E2. exists h2. split; [reflexivity|]. split.
      + intros n o H. rewrite (H2 n o H). cbn. split; [reflexivity|]. now destruct (N n o H).
      + intros o H. rewrite X2 by exact H. now apply Hx. }
  destruct I as [h2 [E2 [H2 X2]]]. rewrite E2. cbn [bind fst m_data].
  unfold set_dataset. cbn [m_cfg m_names m_aux m_reader m_parent].
  destruct (S (fun f => mkfit (check sort (s_data s)) (f_aux f) (f_reader f) (f_id f) (f_name f)) h2) as [h3 [E3 [H3 X3]]]. rewrite E3. cbn [bind fst m_aux].
  unfold set_aux_data. cbn [m_cfg m_names m_data m_reader m_parent].
  destruct (S (fun f => mkfit (f_data f) (s_aux s) (f_reader f) (f_id f) (f_name f)) h3) as [h4 [E4 [H4 X4]]]. rewrite E4. cbn [bind fst m_reader].
  unfold set_reader_arg. cbn [m_cfg m_names m_data m_aux m_parent].
  destruct (S (fun f => mkfit (f_data f) (f_aux f) (s_reader s) (f_id f) (f_name f)) h4) as [h5 [E5 [H5 X5]]]. rewrite E5. cbn [bind].
  exists h5. split; [reflexivity|]. split.
  - intros n o H. rewrite (H5 n o H), (H4 n o H), (H3 n o H). cbn [f_data f_aux f_reader f_id f_name]. unfold restored, check.
    destruct (H2 n o H) as [-> ->]. reflexivity.
  - intros o H. rewrite X5, X4, X3, X2 by exact H. reflexivity.
Qed.
End P.
