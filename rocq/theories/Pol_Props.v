(** C148, C149: polar plots of the scattering functions *)
From Coq Require Import ZArith Reals String Bool Lra Lia List.
From Coquelicot Require Import Coquelicot.
From Verif Require Import Base RT_Model Sca_Model Sca_Spec Shp_Model Shp_Spec Cvg_Spec Hem_Model Pol_Model Pol_Spec Pol_Proofs.
Import ListNotations.
Local Open Scope R_scope.

(** a concrete case: Henyey-Greenstein with a symbol for two values, two incidence-angles *)
Definition eg_X : plotted := XVol 10 (VOne (VHG (Sym "t"%string) (A3 (-1) 1 1))).
Definition eg_pd (x : R) : pdict := [("t"%string, x)].
Definition eg_o (axes : option bool) : popts := mkopts true [15; 35] true 2 true [eg_pd (1 / 2); eg_pd (1 / 4)] axes.
Lemma eg_fine x : -1 < x < 1 -> fine eg_X (eg_pd x).
Proof.
  intros H w e [E|[]]. injection E as <- <-. split; [exists 1; split; [reflexivity|exact I]|]. split; [exists x; split; [reflexivity|exact H]|].
  unfold unit_weights; simpl. repeat split; unfold Rabs; destruct (Rcase_abs _); lra.
Qed.
Lemma eg_good axes : axes <> Some false -> good_opts (eg_o axes).
Proof. intros H. repeat split; simpl; try congruence; exact H. Qed.

(** ** C148 *)
(** one line for each set of parameters and incidence-angle; the solid line shows the textbook value
    of the function for that incidence-angle (in degrees) and the angle at which it is drawn, the dashed one
    is there if requested *)
Theorem C148_lines : forall X o d r, polarplot X o = (Some d, r) -> (forall pd, In pd (o_params o) -> fine X pd) ->
  Forall2 (fun x l => l_inc l = snd x * (PI / 180) /\
      l_angles l = (match X with XSurf _ _ => arange (- PI / 2) (PI / 2) (1 / 100) | _ => arange 0 (2 * PI) (1 / 100) end) /\
      Forall2 (fun ts y => y = textbook X (fst x) (snd x * (PI / 180)) ts) (l_angles l) (l_solid l) /\
      match l_dashed l with Some ds => o_aprox o = true /\ length ds = length (l_angles l) | None => o_aprox o = false end)
    (list_prod (o_params o) (o_inc o)) (d_lines d).
Proof.
  intros X o d r H F. apply polarplot_inv in H. destruct H as (H & _).
  destruct (draw_all_spec _ _ _ _ _ _ _ H) as (ls & p & E & _ & Q & _). cbn in E. subst ls.
  assert (I : forall x, In x (list_prod (o_params o) (o_inc o)) -> fine X (fst x)).
  { intros [a b] Hx. apply in_prod_iff in Hx. apply F, Hx. }
  revert I Q. generalize (list_prod (o_params o) (o_inc o)) (d_lines d). intros xs ls I Q.
  induction Q as [|x l xs ls Hl Q IH]; constructor; [|apply IH; intros y Hy; apply I; right; exact Hy].
  destruct (draw_line_inv _ _ _ _ _ Hl) as (A & B & C & D). pose proof (I x (or_introl eq_refl)) as Fx.
  split; [exact A|]. split; [rewrite B; destruct X; reflexivity|]. split.
  - rewrite B, C. clear - Fx. unfold deg2rad. induction (thetass X) as [|ts l IH]; simpl; constructor; [apply value_textbook, Fx|exact IH].
  - destruct (l_dashed l) as [ds|]; [|exact D]. destruct D as [D1 D2]. split; [exact D1|]. rewrite B. symmetry. clear - D2. induction D2; simpl; congruence.
Qed.
Print Assumptions C148_lines.

(** the dashed lines approach the solid ones with more coefficients, for all incidence-angles and
    at all plotted points at once *)
Theorem C148_approximation : forall X pds, (forall pd, In pd pds -> fine X pd) ->
  exists e : nat -> R, is_lim_seq e 0 /\
  forall N o d r l ds, o_params o = pds -> polarplot (with_ncoefs N X) o = (Some d, r) -> In l (d_lines d) -> l_dashed l = Some ds ->
    Forall2 (fun y z => Rabs (z - y) <= e N) (l_solid l) ds.
Proof.
  intros X pds F.
  assert (G : exists e : nat -> R, is_lim_seq e 0 /\ forall pd, In pd pds -> forall N t ts y, approx_at (with_ncoefs N X) pd t ts = Ok y -> Rabs (y - textbook X pd t ts) <= e N).
  { induction pds as [|pd pds IH]; [exists (fun _ => 0); split; [apply is_lim_seq_const|intros ? []]|].
    destruct IH as (e1 & L1 & C1); [intros; apply F; right; assumption|].
    destruct (approx_close X pd (F pd (or_introl eq_refl))) as (e2 & L2 & C2).
    exists (fun n => Rabs (e1 n) + Rabs (e2 n)). split.
    - replace (Finite 0) with (Finite (Rabs 0 + Rabs 0)) by (rewrite Rabs_R0; f_equal; ring).
      apply is_lim_seq_plus'; [exact (is_lim_seq_abs e1 0 L1)|exact (is_lim_seq_abs e2 0 L2)].
    - intros pd' [<-|Hp] N t ts y E.
      + pose proof (C2 N t ts y E). pose proof (Rle_abs (e2 N)). pose proof (Rabs_pos (e1 N)). lra.
      + pose proof (C1 pd' Hp N t ts y E). pose proof (Rle_abs (e1 N)). pose proof (Rabs_pos (e2 N)). lra. }
  destruct G as (e & L & C). exists e. split; [exact L|]. intros N o d r l ds Eo H Hl Hd. apply polarplot_inv in H. destruct H as (H & _).
  destruct (draw_all_spec _ _ _ _ _ _ _ H) as (ls & p & E & _ & Q & _). cbn in E. subst ls. rewrite Eo in Q.
  assert (exists x, In x (list_prod pds (o_inc o)) /\ draw_line (with_ncoefs N X) (o_aprox o) (fst x) (deg2rad (snd x)) = Ok l) as ([pd i] & Ix & Dl).
  { clear - Q Hl. revert Hl. induction Q as [|x l' xs ls E Q IH]; [intros []|]. intros [<-|Hl]; [exists x; split; [left; reflexivity|exact E]|].
    destruct (IH Hl) as (y & Iy & Ey). exists y. split; [right; exact Iy|exact Ey]. }
  apply in_prod_iff in Ix. destruct Ix as [Ip _]. cbn [fst snd] in Dl.
  destruct (draw_line_inv _ _ _ _ _ Dl) as (_ & _ & S & D). rewrite Hd in D. destruct D as [_ D]. rewrite S. clear - D C Ip F.
  assert (V : forall ts, value_at (with_ncoefs N X) pd (deg2rad i) ts = textbook X pd (deg2rad i) ts).
  { intros ts. rewrite <- value_textbook by (apply F, Ip). destruct X; reflexivity. }
  revert D. generalize (thetass (with_ncoefs N X)). intros th D. induction D as [|ts y th ds E D IH]; simpl; constructor; [|exact IH].
  rewrite V. apply (C pd Ip N (deg2rad i) ts y E).
Qed.
Print Assumptions C148_approximation.

Example C148_example : (forall pd, In pd (o_params (eg_o None)) -> fine eg_X pd) /\
  (exists d, polarplot eg_X (eg_o None) = (Some d, Ok tt)) /\ (forall N, with_ncoefs N eg_X = XVol N (VOne (VHG (Sym "t"%string) (A3 (-1) 1 1)))).
Proof.
  split; [|split; [|reflexivity]].
  - intros pd [<-|[<-|[]]]; apply eg_fine; lra.
  - apply (polarplot_draws eg_X (eg_o None)); [apply eg_good; discriminate|intros _; exact I|discriminate|discriminate].
Qed.

(** the approximation of a linear combination of phase functions cannot be shown: with the default
    aprox=True every such call raises an AttributeError *)
Theorem C148_lincomb_refuted : forall N cs o, good_opts o -> o_aprox o = true -> polarplot (XVol N (VLin cs)) o = (None, Err AttributeError).
Proof.
  intros N cs o (A & B & C & D) E. unfold polarplot. rewrite A, B, E. cbn [negb].
  destruct (o_params o) as [|pd pds]; [congruence|]. destruct (o_axes o) as [[|]|]; try congruence; reflexivity.
Qed.
Print Assumptions C148_lincomb_refuted.

(** ** C149 *)
(** with admissible arguments the plot of a phase function or BRDF (of a combination of phase functions with
    aprox=False) is drawn and the figure returned *)
Theorem C149_figure_partial : forall X o, good_opts o -> o_axes o = None -> X <> XNone -> X <> XOther ->
  (o_aprox o = true -> expandable_X X) -> exists d, polarplot X o = (Some d, Ok tt).
Proof.
  intros X o G A N1 N2 H. destruct (polarplot_draws X o G H N1 N2) as [d E]. rewrite A in E. eauto.
Qed.
Print Assumptions C149_figure_partial.

(** with given axes the plot is drawn into them, but the call raises an UnboundLocalError *)
Theorem C149_axes_refuted : forall X o, good_opts o -> o_axes o = Some true -> X <> XNone -> X <> XOther ->
  (o_aprox o = true -> expandable_X X) -> exists d, polarplot X o = (Some d, Err UnboundLocalError).
Proof.
  intros X o G A N1 N2 H. destruct (polarplot_draws X o G H N1 N2) as [d E]. rewrite A in E. eauto.
Qed.
Print Assumptions C149_axes_refuted.

(** the radial axis of a plot of phase functions covers all solid lines if the multiplier is at least 5/6 *)
Theorem C149_range : forall X o d r l, is_volume X -> 5 / 6 <= o_multip o -> polarplot X o = (Some d, r) -> In l (d_lines d) ->
  forall y, In y (l_solid l) -> y <= d_rmax d.
Proof.
  intros X o d r l V M H Hl y Hy. apply polarplot_inv in H. destruct H as (H & NE & _).
  destruct (draw_all_spec _ _ _ _ _ _ _ H) as (ls & p & E & P0 & Q & G & R & _). cbn in E, P0. subst ls.
  assert (exists x, In x (list_prod (o_params o) (o_inc o)) /\ draw_line X (o_aprox o) (fst x) (deg2rad (snd x)) = Ok l) as ([pd i] & Ix & Dl).
  { clear - Q Hl. revert Hl. induction Q as [|x l' xs ls E Q IH]; [intros []|]. intros [<-|Hl]; [exists x; split; [left; reflexivity|exact E]|].
    destruct (IH Hl) as (z & Iz & Ez). exists z. split; [right; exact Iz|exact Ez]. }
  apply in_prod_iff in Ix. destruct Ix as [Ip Ii]. cbn [fst snd] in Dl.
  destruct (draw_line_inv _ _ _ _ _ Dl) as (_ & _ & S & _). rewrite S in Hy. apply in_map_iff in Hy. destruct Hy as (ts & <- & Ht).
  assert (T : In ts (arange 0 (2 * PI) (1 / 100))) by (destruct X; simpl in V; try contradiction; exact Ht).
  pose proof (maxval_ge (value_at X pd (deg2rad i)) ts T) as A. pose proof (G pd i Ip Ii) as B.
  rewrite R; [|intros C; rewrite C in Ii; destruct Ii|exact NE].
  set (m := maxval _) in *. destruct (Rle_dec 0 m) as [Pm|Pm]; [|lra].
  assert (5 / 6 * m <= o_multip o * m) by (apply Rmult_le_compat_r; assumption). lra.
Qed.
Print Assumptions C149_range.

(** the labels of the angular axis: the tick at 125 degrees is labelled 135 *)
Theorem C149_ticks_refuted : ~ (forall a b, In (a, b) angle_ticks -> a = b) /\
  (forall a b, In (a, b) angle_ticks -> a <> b -> a = 125%Z /\ b = 135%Z).
Proof.
  split; [intros H; specialize (H 125%Z 135%Z); cbv in H; intuition discriminate|].
  intros a b H N. repeat (destruct H as [E|H]; [injection E as <- <-; try (exfalso; apply N; reflexivity); auto|]). destruct H.
Qed.
Print Assumptions C149_ticks_refuted.

Example C149_example : good_opts (eg_o None) /\ good_opts (eg_o (Some true)) /\ expandable_X eg_X /\ is_volume eg_X /\ 5 / 6 <= o_multip (eg_o None) /\
  polarplot XNone (eg_o None) = (None, Err AssertionError) /\ polarplot XOther (eg_o None) = (None, Err UnboundLocalError).
Proof. repeat split; simpl; try discriminate; try lra. Qed.
