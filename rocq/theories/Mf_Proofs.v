(** Proofs for C62, C63, C98 *)
From Coq Require Import String Ascii ZArith Bool Lia Arith List.
From Verif Require Import Base Base_Proofs Ids_Model Mf_Model Mf_Spec.
Import ListNotations.
Local Open Scope list_scope.

Lemma dget_app {K V} (keq : forall x y : K, {x = y} + {x <> y}) k (a b : dict K V) :
  dget keq k (a ++ b) = match dget keq k a with Some v => Some v | None => dget keq k b end.
Proof. induction a as [|[k' v] a IH]; cbn; [reflexivity|]. destruct (keq k k'); auto. Qed.

(** [add_configs] with accepted names *)
Lemma add_configs_state l : forall m, (forall x, In x l -> valid_name (fst x)) ->
  let m' := add_configs m l in
  m_names m' = m_names m ++ map fst l /\
  (forall n, dget string_dec n (m_attrs m') = match added_last l n with Some f => Some (Some f) | None => dget string_dec n (m_attrs m) end) /\
  (NoDup (map snd l) -> forall n f, In (n, f) l -> dget Nat.eq_dec f (m_cname m') = Some n) /\
  (forall f, ~ In f (map snd l) -> dget Nat.eq_dec f (m_cname m') = dget Nat.eq_dec f (m_cname m)).
Proof.
  induction l as [|[n0 f0] l IH]; intros m Hv m'.
  - cbn in *. rewrite app_nil_r. repeat split; auto. intros _ n f [].
  - subst m'. cbn [add_configs fold_left fst snd]. destruct (Hv (n0, f0) (or_introl eq_refl)) as [H1 H2]. cbn [fst] in *.
    assert (E : add_config m n0 f0 = Ok (mkmulti (m_names m ++ [n0]) (dset string_dec n0 (Some f0) (m_attrs m)) (dset Nat.eq_dec f0 n0 (m_cname m)))).
    { unfold add_config. rewrite H1. cbn [negb]. apply (inb_false string_dec) in H2. rewrite H2. reflexivity. }
    rewrite E. match goal with |- context [fold_left _ l ?m1] => specialize (IH m1 (fun x Hx => Hv x (or_intror Hx))) end.
    cbv zeta in IH. unfold add_configs in IH. cbn [m_names m_attrs m_cname] in IH. destruct IH as (I1 & I2 & I3 & I4).
    split; [rewrite I1, <- app_assoc; reflexivity|]. split; [|split].
    + intros n. rewrite I2. unfold added_last. cbn [rev]. rewrite dget_app. destruct (dget string_dec n (rev l)); [reflexivity|].
      cbn. destruct (string_dec n n0) as [->|N]; [apply dget_dset_same|apply dget_dset_other; auto].
    + cbn [map snd]. intros ND n f Hin. inversion ND as [|? ? Hn ND']; subst. destruct Hin as [Hin|Hin].
      * injection Hin as <- <-. rewrite I4 by auto. apply dget_dset_same.
      * apply I3; auto.
    + cbn [map snd]. intros f Hf. rewrite I4 by (intros Hin; apply Hf; right; exact Hin).
      apply dget_dset_other. intros ->. apply Hf. left. reflexivity.
Qed.

Lemma added_last_in l n f : added_last l n = Some f -> In (n, f) l.
Proof. intros H. apply dget_some_in in H. apply in_rev. exact H. Qed.
Lemma added_last_some l n : In n (map fst l) -> exists f, added_last l n = Some f.
Proof.
  intros H. destruct (added_last l n) as [f|] eqn:E; [eauto|]. exfalso. apply (dget_none string_dec) in E. apply E. unfold keys. rewrite map_rev. apply -> in_rev. exact H.
Qed.
Lemma added_last_none l n : ~ In n (map fst l) -> added_last l n = None.
Proof. intros H. apply (dget_none string_dec). unfold keys. rewrite map_rev. intros Hin. apply H, in_rev, Hin. Qed.

(** after accepted calls, none with the name "_parent" *)
Section Ok.
Variable l : list (string * nat).
Hypothesis Hv : forall x, In x l -> valid_name (fst x).
Hypothesis Hp : ~ In "_parent"%string (map fst l).
Let m := add_configs new_multi l.

Lemma names_ok : m_names m = map fst l.
Proof using Hv. destruct (add_configs_state l new_multi Hv) as (H & _). exact H. Qed.

Lemma parent_ok : parent_names m = Ok (map fst l).
Proof using Hv Hp.
  destruct (add_configs_state l new_multi Hv) as (H & H2 & _). fold m in H, H2.
  unfold parent_names, get_attr. rewrite H2, (added_last_none l _ Hp). cbn. rewrite H. reflexivity.
Qed.

Lemma attr_ok n f : added_last l n = Some f -> get_attr m n = Ok (Some f).
Proof using Hv. destruct (add_configs_state l new_multi Hv) as (_ & H2 & _). fold m in H2. intros E. unfold get_attr. rewrite H2, E. reflexivity. Qed.

Lemma iter_ok : exists fs, iter_configs m = Ok fs /\ Forall2 (fun n f => added_last l n = Some f) (map fst l) fs.
Proof using Hv Hp.
  unfold iter_configs. rewrite parent_ok. cbn [bind].
  assert (G : forall ns, (forall n, In n ns -> In n (map fst l)) -> exists fs,
     mapM (fun n => do x <- get_attr m n; match x with Some f => Ok f | None => Err AttributeError end) ns = Ok fs /\ Forall2 (fun n f => added_last l n = Some f) ns fs).
  { induction ns as [|n ns IH]; intros Hin; [exists []; auto|].
    destruct (added_last_some l n (Hin n (or_introl eq_refl))) as [f E]. destruct IH as (fs & E2 & F); [intros; apply Hin; right; auto|].
    exists (f :: fs). cbn [mapM]. rewrite (attr_ok n f E). cbn [bind]. rewrite E2. cbn. auto. }
  apply G. auto.
Qed.

Lemma fits_ok : NoDup (map snd l) -> exists d, config_fits m = Ok (dupdate string_dec [] d) /\
  map fst d = map fst l /\ forall n f, In (n, f) d -> added_last l n = Some f.
Proof using Hv Hp.
  intros ND. destruct iter_ok as (fs & E & F). unfold config_fits. rewrite E. cbn [bind].
  destruct (add_configs_state l new_multi Hv) as (_ & _ & H3 & _). fold m in H3.
  assert (G : forall ns fs, Forall2 (fun n f => added_last l n = Some f) ns fs -> exists d,
     mapM (fun f => match dget Nat.eq_dec f (m_cname m) with Some n => Ok (n, f) | None => Err AttributeError end) fs = Ok d /\
     map fst d = ns /\ forall n f, In (n, f) d -> added_last l n = Some f).
  { clear fs E F. induction 1 as [|n f ns fs Hnf F IH]; [exists []; cbn; repeat split; contradiction|]. destruct IH as (d & E & M & K).
    exists ((n, f) :: d). cbn [mapM]. rewrite (H3 ND n f (added_last_in l n f Hnf)). cbn [bind]. rewrite E. cbn. rewrite M. repeat split.
    intros n' f' [Hin|Hin]; [congruence|auto]. }
  destruct (G _ _ F) as (d & -> & M & K). exists d. auto.
Qed.
End Ok.

Lemma dupdate_snoc (d e : dict string nat) k v : dupdate string_dec d (e ++ [(k, v)]) = dset string_dec k v (dupdate string_dec d e).
Proof. unfold dupdate. rewrite fold_left_app. reflexivity. Qed.

Lemma keys_dupdate_new (e : dict string nat) : NoDup (keys e) -> dupdate string_dec [] e = e.
Proof.
  induction e as [|[k v] e IH] using rev_ind; [reflexivity|]. intros ND. rewrite dupdate_snoc. unfold keys in *. rewrite map_app in ND. cbn in ND.
  assert (NDe : NoDup (map fst e)) by (apply NoDup_remove_1 in ND; rewrite app_nil_r in ND; exact ND).
  assert (Hk : ~ In k (map fst e)) by (apply NoDup_remove_2 in ND; rewrite app_nil_r in ND; exact ND).
  rewrite IH by auto. clear - Hk. induction e as [|[k' v'] e IH]; [reflexivity|]. cbn in *. destruct (string_dec k k') as [->|]; [tauto|]. rewrite IH by tauto. reflexivity.
Qed.

Lemma first_occ_in x l : In x (first_occurrences l) <-> In x l.
Proof.
  induction l as [|y l IH]; cbn; [tauto|]. rewrite filter_In, IH. destruct (String.eqb_spec y x) as [->|N]; cbn; [tauto|].
  split; [tauto|]. intros [H|H]; auto.
Qed.

Lemma first_occ_snoc l x : first_occurrences (l ++ [x]) = if inb string_dec x l then first_occurrences l else first_occurrences l ++ [x].
Proof.
  induction l as [|y l IH]; [reflexivity|]. cbn [app first_occurrences]. rewrite IH.
  destruct (inb string_dec x l) eqn:E; destruct (inb string_dec x (y :: l)) eqn:E2; auto.
  - apply inb_iff in E. apply inb_false in E2. cbn in E2. tauto.
  - apply inb_false in E. apply inb_iff in E2. destruct E2 as [->|H]; [|tauto]. rewrite filter_app. cbn. rewrite String.eqb_refl. cbn. rewrite app_nil_r. reflexivity.
  - apply inb_false in E, E2. cbn in E2. rewrite filter_app. cbn. destruct (String.eqb_spec y x) as [->|N]; [tauto|]. reflexivity.
Qed.

Lemma keys_dupdate_occ (e : dict string nat) : keys (dupdate string_dec [] e) = first_occurrences (map fst e).
Proof.
  induction e as [|[k v] e IH] using rev_ind; [reflexivity|]. rewrite dupdate_snoc, keys_dset, map_app. cbn [map fst]. rewrite first_occ_snoc, IH.
  destruct (inb string_dec k (map fst e)) eqn:E.
  - apply inb_iff in E. destruct (in_dec string_dec k (first_occurrences (map fst e))) as [|N]; [reflexivity|]. exfalso. apply N, first_occ_in, E.
  - apply inb_false in E. destruct (in_dec string_dec k (first_occurrences (map fst e))) as [H|N]; [|reflexivity]. exfalso. apply E, first_occ_in, H.
Qed.

Lemma dget_dupdate_all (P : string -> nat -> Prop) (e : dict string nat) : (forall k v, In (k, v) e -> P k v) ->
  forall k v, dget string_dec k (dupdate string_dec [] e) = Some v -> P k v.
Proof.
  induction e as [|[k0 v0] e IH] using rev_ind; intros H k v; [discriminate|]. rewrite dupdate_snoc.
  destruct (string_dec k k0) as [->|N].
  - rewrite dget_dset_same. intros E. injection E as <-. apply H, in_or_app. right. left. reflexivity.
  - rewrite dget_dset_other by auto. apply IH. intros k1 v1 Hin. apply H, in_or_app. auto.
Qed.

(** ** the table of results *)
Section Store.
Context {V : Type}.
Implicit Types (rd : resdict V) (t : list (row V)).

Lemma height_ge rd k l : In (k, l) rd -> length l <= height rd.
Proof. induction rd as [|[k' l'] rd IH]; [intros []|]. unfold height in *. intros [H|H]; cbn [fold_right snd]; [injection H as <- <-; cbn; lia|specialize (IH H); lia]. Qed.

Lemma dropna_app (a b : list (cell V)) : dropna (a ++ b) = dropna a ++ dropna b.
Proof. unfold dropna. apply flat_map_app. Qed.

Lemma dropna_pad (l : list (cell V)) n : length l <= n -> dropna (map (fun i => nth i l None) (seq 0 n)) = dropna l.
Proof.
  intros H. replace n with (length l + (n - length l)) by lia. rewrite seq_app, map_app, dropna_app.
  assert (E : map (fun i => nth i l None) (seq 0 (length l)) = l).
  { clear H. induction l as [|x l IH]; [reflexivity|]. cbn [length seq map nth]. rewrite <- seq_shift, map_map. f_equal. exact IH. }
  rewrite E. rewrite (map_ext_in _ (fun _ => None)).
  - rewrite <- (app_nil_r (dropna l)) at 2. f_equal. clear. generalize (seq (0 + length l) (n - length l)). intros s. induction s; auto.
  - intros i Hi. apply in_seq in Hi. apply nth_overflow. lia.
Qed.

Lemma dropna_complete (l : list (cell V)) : ~ In None l <-> l = map Some (dropna l).
Proof.
  induction l as [|[v|] l IH]; cbn; [tauto| |].
  - rewrite IH || idtac. split.
    + intros H. f_equal. apply IH. tauto.
    + intros H [E|E]; [discriminate|]. injection H as H. apply (proj2 IH H E).
  - split; [tauto|]. intros H. exfalso. pose proof (eq_ind (None :: l) (fun z => In None z) (in_eq None l) _ H) as Hin. cbv beta in Hin. apply in_map_iff in Hin. destruct Hin as (x & E & _). discriminate E.
Qed.

(** cells of a row of a frame *)
Lemma dget_map_cells rd n k : dget string_dec k (map (fun kv => (fst kv, nth n (snd kv) None)) rd) = option_map (fun l => nth n l None) (dget string_dec k rd).
Proof. induction rd as [|[k' l] rd IH]; [reflexivity|]. cbn. destruct (string_dec k k'); auto. Qed.

Lemma res_frame_rows id cfg rd t : res_frame id cfg rd = Ok t -> rd <> [] /\
  t = map (fun n => mkrow id cfg (map (fun kv => (fst kv, nth n (snd kv) None)) rd)) (seq 0 (height rd)).
Proof. unfold res_frame. destruct rd; [discriminate|]. intros H. injection H as <-. split; [discriminate|reflexivity]. Qed.

Lemma frame_values id cfg rd t k : res_frame id cfg rd = Ok t ->
  dropna (map (fun r => cell_at r k) t) = match dget string_dec k rd with Some l => dropna l | None => [] end.
Proof.
  intros H. apply res_frame_rows in H. destruct H as [_ ->]. rewrite map_map. unfold cell_at. cbn [r_cells].
  destruct (dget string_dec k rd) as [l|] eqn:E.
  - rewrite (map_ext _ (fun n => nth n l None)) by (intros n; rewrite dget_map_cells, E; reflexivity).
    apply dropna_pad. apply (height_ge _ k). apply (dget_some_in string_dec), E.
  - rewrite (map_ext _ (fun n => None)) by (intros n; rewrite dget_map_cells, E; reflexivity).
    generalize (seq 0 (height rd)). intros s. induction s; auto.
Qed.

Lemma stored_filter fits t : stored fits t -> forall id rd, NoDup (map fst fits) -> In (id, rd) fits ->
  Ok (filter (fun r => Z.eqb (r_id r) id) t) = res_frame id ""%string rd.
Proof.
  induction 1 as [|id0 rd0 rest t0 t H0 Hs IH]; intros id rd ND Hin; [destruct Hin|]. cbn [map fst] in ND. inversion ND as [|? ? Hn ND']; subst.
  pose proof (res_frame_rows _ _ _ _ H0) as [_ E0]. rewrite filter_app. destruct Hin as [Hin|Hin].
  - injection Hin as -> ->. rewrite H0. f_equal.
    assert (E1 : filter (fun r => Z.eqb (r_id r) id) t0 = t0).
    { rewrite E0. clear. induction (seq 0 (height rd)) as [|n s IH]; [reflexivity|]. cbn. rewrite Z.eqb_refl, IH. reflexivity. }
    assert (E2 : filter (fun r => Z.eqb (r_id r) id) t = []).
    { clear - Hs Hn. induction Hs as [|id1 rd1 rest t1 t H1 Hs IH]; [reflexivity|]. cbn in Hn. rewrite filter_app, IH by tauto. rewrite app_nil_r.
      apply res_frame_rows in H1. destruct H1 as [_ ->]. induction (seq 0 (height rd1)) as [|n s IHs]; [reflexivity|]. cbn.
      destruct (Z.eqb_spec id1 id) as [->|]; [tauto|exact IHs]. }
    rewrite E1, E2, app_nil_r. reflexivity.
  - rewrite <- (IH id rd ND' Hin). f_equal.
    assert (E1 : filter (fun r => Z.eqb (r_id r) id) t0 = []).
    { rewrite E0. assert (N : id0 <> id) by (intros ->; apply Hn, in_map_iff; exists (id, rd); auto). clear - N.
      induction (seq 0 (height rd0)) as [|n s IH]; [reflexivity|]. cbn. destruct (Z.eqb_spec id0 id); [tauto|exact IH]. }
    rewrite E1. reflexivity.
Qed.

Lemma columns_in t k : In k (columns t) <-> exists r, In r t /\ In k (map fst (r_cells r)).
Proof.
  unfold columns. assert (G : forall l acc, In k (fold_left (fun acc k => if inb string_dec k acc then acc else acc ++ [k]) l acc) <-> In k l \/ In k acc).
  { induction l as [|x l IH]; intros acc; cbn; [tauto|]. rewrite IH. destruct (inb string_dec x acc) eqn:E.
    - apply inb_iff in E. split; [tauto|]. intros [[->|H]|H]; auto.
    - rewrite in_app_iff. cbn. tauto. }
  rewrite G, in_flat_map. cbn. split; [intros [H|[]]; exact H|auto].
Qed.
End Store.

Section Store2.
Context {V : Type}.
Implicit Types (rd : resdict V) (t : list (row V)).

Lemma columns_same (ks : list string) t : NoDup ks -> t <> [] -> (forall r, In r t -> map fst (r_cells r) = ks) -> columns t = ks.
Proof.
  intros ND Ht H. unfold columns. set (f := fun acc k => if inb string_dec k acc then acc else acc ++ [k]).
  assert (A : forall l acc, (forall k, In k l -> In k acc) -> fold_left f l acc = acc).
  { induction l as [|x l IH]; intros acc Hl; [reflexivity|]. cbn. unfold f at 2. rewrite (proj2 (inb_iff string_dec x acc) (Hl x (or_introl eq_refl))). apply IH. intros; apply Hl; right; auto. }
  assert (B : forall l acc, NoDup (acc ++ l) -> fold_left f l acc = acc ++ l).
  { induction l as [|x l IH]; intros acc N; [cbn; rewrite app_nil_r; reflexivity|]. cbn. unfold f at 2.
    rewrite (proj2 (inb_false string_dec x acc)). 2:{ apply NoDup_remove_2 in N. intros Hin. apply N, in_or_app. auto. }
    rewrite IH; rewrite <- app_assoc; [reflexivity|exact N]. }
  destruct t as [|r t]; [congruence|]. cbn [flat_map]. rewrite fold_left_app, (H r (or_introl eq_refl)), (B ks []) by exact ND. cbn [app].
  apply A. intros k Hk. apply in_flat_map in Hk. destruct Hk as (r' & Hr & Hk). rewrite (H r' (or_intror Hr)) in Hk. exact Hk.
Qed.

Lemma frame_cells id cfg rd t : res_frame id cfg rd = Ok t -> forall r, In r t -> map fst (r_cells r) = map fst rd.
Proof.
  intros H r Hr. apply res_frame_rows in H. destruct H as [_ ->]. apply in_map_iff in Hr. destruct Hr as (n & <- & _). cbn. rewrite map_map. reflexivity.
Qed.

Lemma stored_cells fits t : stored fits t -> forall r, In r t -> exists id rd, In (id, rd) fits /\ map fst (r_cells r) = map fst rd.
Proof.
  induction 1 as [|id0 rd0 rest t0 t H0 Hs IH]; intros r Hr; [destruct Hr|]. apply in_app_or in Hr. destruct Hr as [Hr|Hr].
  - exists id0, rd0. split; [left; reflexivity|]. apply (frame_cells _ _ _ _ H0 r Hr).
  - destruct (IH r Hr) as (id & rd & Hin & E). exists id, rd. split; [right; exact Hin|exact E].
Qed.

(** rows of one configuration in the frame of a fit *)
Lemma filter_none {A} (P : A -> bool) l : (forall x, In x l -> P x = false) -> filter P l = [].
Proof. induction l as [|x l IH]; intros H; [reflexivity|]. cbn. rewrite (H x (or_introl eq_refl)). apply IH. intros; apply H; right; auto. Qed.
Lemma filter_every {A} (P : A -> bool) l : (forall x, In x l -> P x = true) -> filter P l = l.
Proof. induction l as [|x l IH]; intros H; [reflexivity|]. cbn. rewrite (H x (or_introl eq_refl)). f_equal. apply IH. intros; apply H; right; auto. Qed.

Lemma frame_tags id cfg rd t r : res_frame id cfg rd = Ok t -> In r t -> r_id r = id /\ r_cfg r = cfg.
Proof. intros H Hr. apply res_frame_rows in H. destruct H as [_ ->]. apply in_map_iff in Hr. destruct Hr as (n & <- & _). auto. Qed.

Lemma multi_frame_filter id cs t0 : multi_frame id cs = Ok t0 -> NoDup (map fst cs) -> forall cfg rd, In (cfg, rd) cs ->
  Ok (filter (fun r => Z.eqb (r_id r) id && String.eqb (r_cfg r) cfg) t0) = res_frame id cfg rd /\
  (forall r, In r t0 -> r_id r = id).
Proof.
  unfold multi_frame. destruct cs as [|c cs]; [discriminate|]. generalize (c :: cs). clear c cs. intros cs H.
  assert (G : forall cs l, mapM (fun c => res_frame id (fst c) (snd c)) cs = Ok l -> NoDup (map fst cs) ->
     (forall r, In r (List.concat l) -> r_id r = id /\ In (r_cfg r) (map fst cs)) /\
     (forall cfg rd, In (cfg, rd) cs -> Ok (filter (fun r => Z.eqb (r_id r) id && String.eqb (r_cfg r) cfg) (List.concat l)) = res_frame id cfg rd)).
  { clear. induction cs as [|[c rdc] cs IH]; intros l E ND; cbn in E.
    - injection E as <-. cbn. split; [contradiction|intros ? ? []].
    - destruct (res_frame id c rdc) as [t1|] eqn:E1; [|discriminate]. cbn in E. destruct (mapM _ cs) as [l1|] eqn:E2; [|discriminate]. cbn in E. injection E as <-.
      cbn [map fst] in ND. inversion ND as [|? ? Hn ND']; subst. destruct (IH l1 eq_refl ND') as [I1 I2]. cbn [List.concat]. split.
      + intros r Hr. apply in_app_or in Hr. destruct Hr as [Hr|Hr].
        * destruct (frame_tags _ _ _ _ _ E1 Hr) as [-> ->]. split; [reflexivity|left; reflexivity].
        * destruct (I1 r Hr) as [? ?]. split; [auto|right; auto].
      + intros cfg rd [Hin|Hin].
        * injection Hin as -> ->. rewrite filter_app, (filter_every _ t1), (filter_none _ (List.concat l1)), app_nil_r; [congruence| |].
          -- intros r Hr. destruct (I1 r Hr) as [-> Hc]. rewrite Z.eqb_refl. cbn. destruct (String.eqb_spec (r_cfg r) cfg) as [E|]; [|reflexivity]. rewrite E in Hc. tauto.
          -- intros r Hr. destruct (frame_tags _ _ _ _ _ E1 Hr) as [-> ->]. rewrite Z.eqb_refl, String.eqb_refl. reflexivity.
        * rewrite <- (I2 cfg rd Hin). f_equal. rewrite filter_app, (filter_none _ t1); [reflexivity|].
          intros r Hr. destruct (frame_tags _ _ _ _ _ E1 Hr) as [-> ->]. rewrite Z.eqb_refl. cbn. destruct (String.eqb_spec c cfg) as [->|]; [|reflexivity].
          exfalso. apply Hn, in_map_iff. exists (cfg, rd). auto. }
  destruct (mapM (fun c => res_frame id (fst c) (snd c)) cs) as [l|] eqn:E; [|discriminate]. cbn in H. injection H as <-.
  intros ND cfg rd Hin. destruct (G cs l E ND) as [G1 G2]. split; [apply G2; auto|]. intros r Hr. apply (G1 r Hr).
Qed.

Lemma multi_tags id cs t0 r : multi_frame id cs = Ok t0 -> In r t0 -> r_id r = id.
Proof.
  unfold multi_frame. destruct cs as [|c cs]; [discriminate|]. generalize (c :: cs). clear c cs. intros cs H.
  destruct (mapM (fun c => res_frame id (fst c) (snd c)) cs) as [l|] eqn:E; [|discriminate]. cbn in H. injection H as <-.
  revert l E. induction cs as [|c cs IH]; intros l E; cbn in E; [injection E as <-; intros []|].
  destruct (res_frame id (fst c) (snd c)) as [t1|] eqn:E1; [|discriminate]. cbn in E. destruct (mapM _ cs) as [l1|]; [|discriminate]. cbn in E. injection E as <-.
  cbn. intros Hr. apply in_app_or in Hr. destruct Hr as [Hr|Hr]; [apply (frame_tags _ _ _ _ _ E1 Hr)|apply (IH l1 eq_refl Hr)].
Qed.

Lemma stored_multi_filter fits t : stored_multi fits t -> forall id cs cfg rd, NoDup (map fst fits) -> In (id, cs) fits -> NoDup (map fst cs) -> In (cfg, rd) cs ->
  Ok (filter (fun r => Z.eqb (r_id r) id && String.eqb (r_cfg r) cfg) t) = res_frame id cfg rd.
Proof.
  induction 1 as [|id0 cs0 rest t0 t H0 Hs IH]; intros id cs cfg rd ND Hin NC Hc; [destruct Hin|]. cbn [map fst] in ND. inversion ND as [|? ? Hn ND']; subst.
  rewrite filter_app. destruct Hin as [Hin|Hin].
  - injection Hin as -> ->. destruct (multi_frame_filter id cs t0 H0 NC cfg rd Hc) as [E _]. rewrite <- E. f_equal.
    rewrite (filter_none _ t), app_nil_r; [reflexivity|].
    assert (G : forall r, In r t -> In (r_id r) (map fst rest)).
    { clear - Hs. induction Hs as [|id1 cs1 rest t1 t H1 Hs IH]; intros r Hr; [destruct Hr|]. apply in_app_or in Hr. destruct Hr as [Hr|Hr].
      - left. symmetry. apply (multi_tags _ _ _ _ H1 Hr). - right. apply IH, Hr. }
    intros r Hr. specialize (G r Hr). destruct (Z.eqb_spec (r_id r) id) as [E'|]; [|reflexivity]. rewrite E' in G. tauto.
  - rewrite (filter_none _ t0); [apply (IH id cs cfg rd); auto|].
    intros r Hr. rewrite (multi_tags _ _ _ _ H0 Hr). destruct (Z.eqb_spec id0 id) as [->|]; [|reflexivity]. exfalso. apply Hn, in_map_iff. exists (id, cs). auto.
Qed.

Lemma dget_filter_map (g : string -> list V) cols k :
  dget string_dec k (filter (fun kv => match snd kv with [] => false | _ => true end) (map (fun k => (k, g k)) cols)) =
  match g k with [] => None | _ => if in_dec string_dec k cols then Some (g k) else None end.
Proof.
  induction cols as [|c cols IH]; cbn [map filter].
  - cbn. destruct (g k); reflexivity.
  - cbn [snd]. destruct (g c) eqn:E.
    + rewrite IH. destruct (g k) eqn:Ek; [reflexivity|]. destruct (in_dec string_dec k cols) as [H|H]; destruct (in_dec string_dec k (c :: cols)) as [H2|H2]; try reflexivity.
      * exfalso. apply H2. right. exact H.
      * exfalso. destruct H2 as [->|H2]; [congruence|tauto].
    + cbn [dget]. destruct (string_dec k c) as [->|N].
      * rewrite E. destruct (in_dec string_dec c (c :: cols)) as [|H]; [reflexivity|exfalso; apply H; left; reflexivity].
      * rewrite IH. destruct (g k); [reflexivity|]. destruct (in_dec string_dec k cols) as [H|H]; destruct (in_dec string_dec k (c :: cols)) as [H2|H2]; try reflexivity.
        -- exfalso. apply H2. right. exact H.
        -- exfalso. destruct H2 as [->|H2]; tauto.
Qed.
End Store2.
