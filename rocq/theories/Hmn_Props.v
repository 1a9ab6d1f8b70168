(** C225: NormBRDF in hemreflect. *)
From Coq Require Import Reals Bool Arith String List Lra Lia.
From Verif Require Import Base Base_Proofs Hem_Model Hem_Spec Hem_Proofs Hem2_Proofs Hmn_Model Hmn_Spec.
Import ListNotations.
Local Open Scope R_scope.
Local Open Scope list_scope.

Lemma values_ok pd s v : values pd s = Ok v <-> Forall2 (fun k y => dget string_dec k pd = Some y) s v.
Proof.
  unfold values. revert v. induction s as [|k s IH]; intros v; cbn [mapM].
  - split; [intros H; injection H as <-; constructor|intros H; inversion H; reflexivity].
  - destruct (dget string_dec k pd) as [y|] eqn:E; cbn [bind].
    + destruct (mapM _ s) as [w|] eqn:M; cbn [bind].
      * split; [intros H; injection H as <-; constructor; [exact E|now apply IH]|]. intros H. inversion H as [|a b c d P Q]; subst. apply IH in Q. congruence.
      * split; [discriminate|]. intros H. inversion H as [|a b c d P Q]; subst. apply IH in Q. discriminate.
    + split; [discriminate|]. intros H. inversion H; congruence.
Qed.

(** ** with R=... the reflectance is that of the value of NormBRDF, a number or given by the parameters; an SRF is not looked at *)
Theorem C225_R : forall pd s srf phi_0 step lo hi N x, value_of pd (s_norm s) x ->
  hem_array pd (Some s) srf phi_0 step lo hi N = Ok (A1 (hemreflect (s_brdf s) x phi_0 step lo hi N)).
Proof.
  intros pd s srf phi_0 step lo hi N x H. unfold hem_array, chosen. cbn [bind s_norm s_brdf]. destruct (s_norm s) as [y|sy f|l|l]; cbn in H; try contradiction.
  - subst. reflexivity.
  - destruct H as (v & F & ->). apply values_ok in F. cbn [norm_of_R]. rewrite F. reflexivity.
Qed.
Print Assumptions C225_R.
(** ... so it is with SRF=... if NormBRDF is a number *)
Theorem C225_SRF : forall pd b x phi_0 step lo hi N,
  hem_array pd None (Some (mksource (Num x) b)) phi_0 step lo hi N = Ok (A1 (hemreflect b x phi_0 step lo hi N)).
Proof. reflexivity. Qed.
Print Assumptions C225_SRF.
(** a symbolic NormBRDF with SRF=... (SRF.hemreflect()) is a TypeError, whatever parameters are given *)
Theorem C225_SRF_refuted : forall pd sy f b phi_0 step lo hi N, 0 < step -> lo < hi -> sy <> [] ->
  hem_array pd None (Some (mksource (Sym sy f) b)) phi_0 step lo hi N = Err TypeError.
Proof.
  intros pd sy f b phi_0 step lo hi N Hs Hl Hy. unfold hem_array, chosen, scaled. cbn [bind s_norm s_brdf norm_of_SRF].
  destruct sy as [|k sy]; [congruence|]. unfold integrals.
  assert (I : In lo (arange lo hi step)). { apply (proj2 (arange_grid lo hi step lo Hs)). exists 0%nat. simpl. lra. }
  destruct (arange lo hi step); [destruct I|reflexivity].
Qed.
Print Assumptions C225_SRF_refuted.
(** with R=... it is one exactly if a parameter is missing *)
Theorem C225_missing : forall pd s srf phi_0 step lo hi N sy f, 0 < step -> lo < hi -> s_norm s = Sym sy f -> sy <> [] ->
  (hem_array pd (Some s) srf phi_0 step lo hi N = Err TypeError <-> exists k, In k sy /\ dget string_dec k pd = None).
Proof.
  intros pd s srf phi_0 step lo hi N sy f Hs Hl E Hy.
  destruct (values pd sy) as [v|e] eqn:V.
  - assert (F := V). apply values_ok in F. rewrite (C225_R pd s srf phi_0 step lo hi N (f v)) by (rewrite E; exists v; auto). split; [discriminate|].
    intros (k & I & D). exfalso. clear - F I D. induction F as [|a b sy v P F IH]; [destruct I|]. destruct I as [->|I]; [congruence|auto].
  - split; intros _.
    + unfold values in V. clear - V. induction sy as [|k sy IH]; [discriminate|]. cbn [mapM] in V. destruct (dget string_dec k pd) as [y|] eqn:D.
      * cbn [bind] in V. destruct (mapM _ sy) as [w|] eqn:M; [discriminate|]. destruct IH as (j & I & Dj); [exact V|]. exists j. split; [now right|exact Dj].
      * exists k. split; [now left|exact D].
    + unfold hem_array, chosen. cbn [bind s_norm s_brdf]. rewrite E. cbn [norm_of_R]. rewrite V. destruct sy as [|k sy]; [congruence|]. unfold scaled, integrals.
      assert (I : In lo (arange lo hi step)). { apply (proj2 (arange_grid lo hi step lo Hs)). exists 0%nat. simpl. lra. }
      destruct (arange lo hi step); [destruct I|reflexivity].
Qed.
Print Assumptions C225_missing.
Theorem C225_none : forall pd phi_0 step lo hi N, hem_array pd None None phi_0 step lo hi N = Err AssertionError.
Proof. reflexivity. Qed.
Print Assumptions C225_none.

(** ** several values: a column gives one row per value, a plain array of as many values as angles is combined with the angles *)
Theorem C225_column : forall pd l b phi_0 step lo hi N,
  hem_array pd (Some (mksource (Col l) b)) None phi_0 step lo hi N = Ok (A2 (map (fun x => hemreflect b x phi_0 step lo hi N) l)).
Proof. reflexivity. Qed.
Print Assumptions C225_column.
Theorem C225_array_refuted : forall pd l b phi_0 step lo hi N, (1 < List.length l)%nat ->
  (List.length l = List.length (arange lo hi step) -> exists y,
     hem_array pd (Some (mksource (Arr l) b)) None phi_0 step lo hi N = Ok (A1 y) /\
     forall i x, nth_error l i = Some x -> nth_error y i = nth_error (hemreflect b x phi_0 step lo hi N) i) /\
  (List.length l <> List.length (arange lo hi step) -> List.length (arange lo hi step) <> 1%nat ->
     hem_array pd (Some (mksource (Arr l) b)) None phi_0 step lo hi N = Err ValueError).
Proof.
  intros pd l b phi_0 step lo hi N H1. unfold hem_array, chosen. cbn [bind s_norm s_brdf norm_of_R]. unfold scaled.
  assert (L : List.length (integrals b phi_0 step lo hi N) = List.length (arange lo hi step)) by (unfold integrals; now rewrite !map_length).
  rewrite L. split.
  - intros E. rewrite E, Nat.eqb_refl. eexists. split; [reflexivity|]. intros i x Hx. unfold hemreflect. fold (integrals b phi_0 step lo hi N).
    rewrite <- L in E. revert i E Hx. generalize (integrals b phi_0 step lo hi N). clear. induction l as [|a l IH]; intros [|s v] [|i] E Hx; cbn in *; try discriminate.
    + injection Hx as ->. reflexivity.
    + apply IH; [lia|exact Hx].
  - intros E E1. apply Nat.eqb_neq in E. rewrite E. destruct l as [|a [|c l]]; [cbn in H1; lia|cbn in H1; lia|].
    destruct (integrals b phi_0 step lo hi N) as [|s [|t v]]; [reflexivity| |reflexivity]. cbn in L. congruence.
Qed.
Print Assumptions C225_array_refuted.

(** ** the plot *)
Lemma max_spec l m : np_max l = Ok m -> In m l /\ forall x, In x l -> x <= m.
Proof.
  destruct l as [|a l]; [discriminate|]. cbn. intros H. injection H as <-. revert a. induction l as [|b l IH]; intros a; cbn [fold_left].
  - split; [now left|]. intros x [<-|[]]. lra.
  - destruct (IH (Rmax a b)) as [I M]. split.
    + destruct I as [I|I]; [|right; now right]. rewrite <- I. unfold Rmax. destruct (Rle_dec a b); [right; now left|now left].
    + intros x [<-|[<-|Hx]]; [| |apply M; now right]; pose proof (M _ (or_introl eq_refl)); [pose proof (Rmax_l a b)|pose proof (Rmax_r a b)]; lra.
Qed.
Lemma max_exists l : l <> [] -> exists m, np_max l = Ok m.
Proof. destruct l; [congruence|]. cbn. eauto. Qed.
Lemma lines_ok inc rows : (forall y, In y rows -> List.length y = List.length inc) -> mapM (line inc) rows = Ok (map (combine inc) rows).
Proof.
  induction rows as [|y rows IH]; intros H; [reflexivity|]. cbn [mapM map]. unfold line at 1. rewrite (H y), Nat.eqb_refl by now left. cbn [bind].
  rewrite IH by (intros; apply H; now right). reflexivity.
Qed.
Lemma in_line (inc y : list R) p : In p (combine inc y) -> In (snd p) y.
Proof. destruct p as [a b]. apply in_combine_r. Qed.
Lemma on_line (inc y : list R) s : List.length inc = List.length y -> In s y -> exists p, In p (combine inc y) /\ snd p = s.
Proof.
  revert inc. induction y as [|a y IH]; intros [|b inc] L I; cbn in *; try discriminate; try contradiction.
  destruct I as [->|I]; [exists (b, s); auto|]. destruct (IH inc ltac:(lia) I) as (p & P & E). exists p. auto.
Qed.
Lemma hem_length b x phi_0 step lo hi N : List.length (hemreflect b x phi_0 step lo hi N) = List.length (arange lo hi step).
Proof. unfold hemreflect. now rewrite !map_length. Qed.
(** one value: one line through the reflectances of the angles, all of it within the axis (for a BRDF that is not negative) *)
Theorem C225_plot : forall pd s srf phi_0 step lo hi N x, 0 < step -> lo < hi -> value_of pd (s_norm s) x ->
  let y := hemreflect (s_brdf s) x phi_0 step lo hi N in
  exists top, hem_plot pd (Some s) srf phi_0 step lo hi N = Ok ([combine (arange lo hi step) y], top) /\
  ((forall v, In v y -> 0 <= v) -> within [combine (arange lo hi step) y] top).
Proof.
  intros pd s srf phi_0 step lo hi N x Hs Hl H y. unfold hem_plot. rewrite (C225_R pd s srf phi_0 step lo hi N x H). fold y. cbn [bind].
  assert (L : List.length y = List.length (arange lo hi step)) by apply hem_length.
  assert (I : In lo (arange lo hi step)) by (apply (proj2 (arange_grid lo hi step lo Hs)); exists 0%nat; simpl; lra).
  destruct (max_exists y) as [m M]; [intros Q; rewrite Q in L; destruct (arange lo hi step); [destruct I|discriminate]|].
  unfold line. rewrite L, Nat.eqb_refl. cbn [bind]. rewrite M. cbn [bind]. eexists. split; [reflexivity|].
  apply max_spec in M as [Mi Mx]. intros P l p [<-|[]] Hp. apply in_line in Hp. pose proof (Mx _ Hp). pose proof (P _ Mi). lra.
Qed.
Print Assumptions C225_plot.
(** several values (a column): one line for each of them; all lines are within the axis exactly if no value is more than 1.1 times the last one *)
Theorem C225_plot_column_refuted : forall pd l z b phi_0 step lo hi N m,
  0 < step -> lo < hi -> (forall x, In x (l ++ [z]) -> 0 <= x) -> np_max (integrals b phi_0 step lo hi N) = Ok m -> 0 < m ->
  exists top, hem_plot pd (Some (mksource (Col (l ++ [z])) b)) None phi_0 step lo hi N =
    Ok (map (fun x => combine (arange lo hi step) (hemreflect b x phi_0 step lo hi N)) (l ++ [z]), top) /\
  (within (map (fun x => combine (arange lo hi step) (hemreflect b x phi_0 step lo hi N)) (l ++ [z])) top <-> forall x, In x l -> x <= 11 / 10 * z).
Proof.
  intros pd l z b phi_0 step lo hi N m Hs Hl Hx M Hm. unfold hem_plot. rewrite C225_column. cbn [bind].
  rewrite lines_ok by (intros y Hy; apply in_map_iff in Hy as (x & <- & _); apply hem_length). cbn [bind].
  assert (La : last (map (fun x => hemreflect b x phi_0 step lo hi N) (l ++ [z])) [] = hemreflect b z phi_0 step lo hi N).
  { rewrite map_app. cbn [map]. apply last_last. }
  rewrite La. rewrite map_map.
  assert (Iv : In lo (arange lo hi step)) by (apply (proj2 (arange_grid lo hi step lo Hs)); exists 0%nat; simpl; lra).
  destruct (max_exists (hemreflect b z phi_0 step lo hi N)) as [mz Mz].
  { intros Q. pose proof (hem_length b z phi_0 step lo hi N) as L. rewrite Q in L. destruct (arange lo hi step); [destruct Iv|discriminate]. }
  rewrite Mz. cbn [bind]. eexists. split; [reflexivity|]. apply max_spec in M as [Mi Mx]. apply max_spec in Mz as [Zi Zx].
  assert (Hz : 0 <= z) by (apply Hx, in_or_app; right; now left).
  assert (In_h : forall x s, In s (hemreflect b x phi_0 step lo hi N) <-> exists v, In v (integrals b phi_0 step lo hi N) /\ s = v * x).
  { intros x s. unfold hemreflect. fold (integrals b phi_0 step lo hi N). rewrite in_map_iff. split; intros (v & A & B); exists v; auto. }
  assert (E : mz = m * z).
  { apply Rle_antisym.
    - apply In_h in Zi as (v & V & ->). apply Rmult_le_compat_r; [exact Hz|apply Mx; exact V].
    - apply Zx, In_h. exists m. auto. }
  subst mz. split.
  - intros W x I. assert (Q : In (m * x) (hemreflect b x phi_0 step lo hi N)) by (apply In_h; exists m; auto).
    destruct (on_line (arange lo hi step) (hemreflect b x phi_0 step lo hi N) _ (eq_sym (hem_length b x phi_0 step lo hi N)) Q) as (p & P & Ep).
    assert (Wp : snd p <= m * z * (11 / 10)).
    { eapply W; [|exact P]. apply in_map_iff. exists x. split; [reflexivity|apply in_or_app; now left]. }
    rewrite Ep in Wp. apply (Rmult_le_reg_l m); [exact Hm|]. lra.
  - intros A ln p I P. apply in_map_iff in I as (x & <- & I). apply in_line, In_h in P as (v & V & ->).
    assert (0 <= x) by (apply Hx; exact I). assert (x <= 11 / 10 * z). { apply in_app_or in I as [I|[<-|[]]]; [auto|lra]. }
    apply Rle_trans with (m * x); [apply Rmult_le_compat_r; [auto|apply Mx, V]|]. apply Rle_trans with (m * (11 / 10 * z)); [apply Rmult_le_compat_l; lra|lra].
Qed.
Print Assumptions C225_plot_column_refuted.

Example C225_example : value_of [("N"%string, 2)] (Sym ["N"%string] (fun v => 3 * hd 0 v)) 6 /\ value_of [] (Num 5) 5 /\ np_max [1; 3; 2] = Ok 3 /\ 0 < 10 /\ ~ (forall x, In x [2] -> x <= 11 / 10 * 1).
Proof.
  split; [exists [2]; split; [repeat constructor|cbn; lra]|]. split; [reflexivity|]. split; [|split; [lra|]].
  - cbn. f_equal. unfold Rmax. destruct (Rle_dec 1 3); [|lra]. destruct (Rle_dec 3 2); lra.
  - intros H. specialize (H 2 (or_introl eq_refl)). lra.
Qed.
