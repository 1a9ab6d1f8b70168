(** C223: what plot.fit_timeseries draws. *)
From Coq Require Import ZArith Arith Bool String List Permutation Sorted Lia.
From Verif Require Import Base Base_Proofs GF_Model GF_Proofs Aln_Model Fts_Model Fts_Spec Fts_Proofs.
Import ListNotations.
Local Open Scope string_scope.
Local Open Scope list_scope.

Section P.
Context {V : Type}.
Variable deg : V -> V.

(** the lines: one for each component that is asked for, in its colour, with the observations of the selected years and months in the order of time *)
Theorem C223_lines inter f dB sig0 params years months (rows : list (row V)) pcols prows fig :
  fit_timeseries deg inter f dB sig0 params years months rows pcols prows = Ok fig ->
  exists sel, picks (shown years months) rows sel /\
  Forall2 (fun w l => l_label l = fst w /\ l_color l = snd w /\ StronglySorted Z.le (map fst (l_points l)) /\
             Permutation (l_points l) (map (fun r => (time r, val r (fst w))) sel)) (wanted inter f) (f_lines fig).
Proof.
  intros H. exists (select years months rows). split; [apply select_picks|].
  unfold fit_timeseries in H. destruct (columns_wanted inter f) as (cols & E1 & E2). rewrite E1 in H. cbn [bind] in H. rewrite E2 in H.
  destruct (if printinc f then _ else _) as [ip|e]; [|discriminate]. cbn [bind] in H.
  destruct (mapM (time_line _ _) _) as [tl|e] eqn:Et; [|discriminate]. cbn [bind] in H.
  destruct (match params with Some _ => _ | None => _ end) as [pl|e]; [|discriminate]. cbn [bind] in H.
  injection H as <-. cbn [f_lines]. apply mapM_ok_inv in Et.
  pose proof (color_of inter f) as C. revert C Et. generalize (wanted inter f) as ws. clear. intros ws C Et.
  revert tl Et. induction ws as [|w ws IH]; intros tl Et; inversion Et as [|? l ? ? A B]; subst; constructor.
  - unfold time_line in A. rewrite (proj2 (C w (or_introl eq_refl))) in A. cbn in A. injection A as <-. cbn [l_label l_color l_points].
    split; [reflexivity|]. split; [reflexivity|]. split.
    + rewrite map_map. cbn. apply sort_rows_sorted.
    + apply Permutation_map, sort_rows_perm.
  - apply IH; [intros; apply C; now right|exact B].
Qed.

(** alongside, the values over the incidence-angle: one point for each observation, and one line for each date through the points of this date
    (its end is repeated) *)
Theorem C223_incidence inter f dB sig0 params years months (rows : list (row V)) pcols prows fig :
  fit_timeseries deg inter f dB sig0 params years months rows pcols prows = Ok fig ->
  exists sel, picks (shown years months) rows sel /\
  if printinc f then
    Forall2 (fun w p => p_label p = fst w /\ p_color p = snd w /\
      let point r := (deg (val r "inc"), val r (fst w)) in
      Permutation (p_points p) (map point sel) /\
      exists dates, StronglySorted Z.lt dates /\ (forall t, In t dates <-> In t (map time sel)) /\
        Forall2 (fun t line => let at_t := filter (fun r => Z.eqb (time r) t) sel in
                   at_t <> [] /\ exists k d, line = map point at_t ++ repeat (last (map point at_t) d) k) dates (p_lines p))
      (wanted inter f) (f_inc fig)
  else f_inc fig = [].
Proof.
  intros H. exists (select years months rows). split; [apply select_picks|]. set (sel := select years months rows).
  unfold fit_timeseries in H. fold sel in H. destruct (columns_wanted inter f) as (cols & E1 & E2). rewrite E1 in H. cbn [bind] in H. rewrite E2 in H.
  destruct (if printinc f then _ else _) as [ip|e] eqn:Ei; [|discriminate]. cbn [bind] in H.
  destruct (mapM (time_line _ _) _) as [tl|e]; [|discriminate]. cbn [bind] in H.
  destruct (match params with Some _ => _ | None => _ end) as [pl|e]; [|discriminate]. cbn [bind] in H.
  injection H as <-. cbn [f_inc]. destruct (printinc f); [|congruence]. apply mapM_ok_inv in Ei.
  pose proof (color_of inter f) as C. revert C Ei. generalize (wanted inter f) as ws. clearbody sel. clear. intros ws C Ei.
  revert ip Ei. induction ws as [|w ws IH]; intros ip Ei; inversion Ei as [|? p ? ? A B]; subst; constructor.
  - destruct sel as [|r0 rest]; [discriminate|].
    destruct (inc_panel_ok deg (r0 :: rest) (fst w) (snd w)) as (p' & P1 & P2 & P3 & P4 & P5); [discriminate|apply (C w (or_introl eq_refl))|].
    rewrite P1 in A. injection A as <-. split; [exact P2|]. split; [exact P3|]. split; [exact P4|exact P5].
  - apply IH; [intros; apply C; now right|exact B].
Qed.

(** the parameters: one line each, with the values of the selected years and months *)
Theorem C223_parameters inter f dB sig0 params years months (rows : list (row V)) pcols prows fig :
  fit_timeseries deg inter f dB sig0 params years months rows pcols prows = Ok fig ->
  exists sel, picks (shown years months) prows sel /\
  f_params fig = map (fun k => (k, map (fun r => (time r, val r k)) sel)) (match params with Some l => l | None => [] end).
Proof.
  intros H. exists (select years months prows). split; [apply select_picks|]. set (sel := select years months prows).
  unfold fit_timeseries in H. fold sel in H. destruct (columns_wanted inter f) as (cols & E1 & E2). rewrite E1 in H. cbn [bind] in H.
  destruct (if printinc f then _ else _) as [ip|e]; [|discriminate]. cbn [bind] in H.
  destruct (mapM (time_line _ _) _) as [tl|e]; [|discriminate]. cbn [bind] in H.
  destruct params as [l|]; [|injection H as <-; reflexivity].
  destruct (mapM (param_line _ _) l) as [pl|e] eqn:E; [|discriminate]. cbn [bind] in H. injection H as <-. cbn [f_params].
  apply mapM_ok_inv in E. clear -E. induction E as [|k q l pl A _ IH]; [reflexivity|]. cbn. rewrite IH. f_equal.
  unfold param_line in A. destruct (inb string_dec k pcols); [|discriminate]. now injection A as <-.
Qed.

(** the legend names every component once, with its own line; the axis is labelled with the units *)
Theorem C223_legend inter f dB sig0 params years months (rows : list (row V)) pcols prows fig :
  fit_timeseries deg inter f dB sig0 params years months rows pcols prows = Ok fig ->
  Permutation (map fst (f_legend fig)) (map fst (wanted inter f)) /\
  (forall name l, In (name, l) (f_legend fig) -> exists x, l = Some x /\ In x (f_lines fig) /\ l_label x = name) /\
  f_ylabel fig = match sig0, dB with true, true => "$\sigma_0$ [dB]" | true, false => "$\sigma_0$" | false, true => "Intensity [dB]" | false, false => "Intensity" end.
Proof.
  intros H. destruct (C223_lines _ _ _ _ _ _ _ _ _ _ _ H) as (sel & _ & L).
  assert (EL : map l_label (f_lines fig) = map fst (wanted inter f)).
  { clear H. induction L as [|w l ws ls (A & _) _ IH]; [reflexivity|]. cbn. now rewrite A, IH. }
  unfold fit_timeseries in H. destruct (columns_wanted inter f) as (cols & E1 & E2). rewrite E1 in H. cbn [bind] in H.
  destruct (if printinc f then _ else _) as [ip|e]; [|discriminate]. cbn [bind] in H.
  destruct (mapM (time_line _ _) _) as [tl|e]; [|discriminate]. cbn [bind] in H.
  destruct (match params with Some _ => _ | None => _ end) as [pl|e]; [|discriminate]. cbn [bind] in H.
  injection H as <-. cbn [f_legend f_lines f_ylabel] in *. unfold unique. rewrite !map_map. cbn [fst snd]. rewrite map_id. split; [|split].
  - rewrite EL. apply unique_wanted.
  - intros name l I. apply in_map_iff in I as (x & X & I). injection X as <- <-.
    assert (J : In x (map l_label tl)).
    { rewrite EL in *. eapply Permutation_in; [apply unique_wanted|exact I]. }
    destruct (spos_nth l_label x tl J) as (b & N & G). exists b. split; [exact N|]. split; [|exact G]. now apply nth_error_In in N.
  - destruct sig0, dB; reflexivity.
Qed.

(** when there is a figure: if the parameters exist, and, with the incidence-angle panel, if there is an observation in the selected years and
    months (or no component to be drawn) *)
Theorem C223_outcome inter f dB sig0 params years months (rows : list (row V)) pcols prows :
  ((exists fig, fit_timeseries deg inter f dB sig0 params years months rows pcols prows = Ok fig) <->
   (printinc f = true -> wanted inter f <> [] -> exists r, In r rows /\ shown years months r) /\
   (forall l k, params = Some l -> In k l -> In k pcols)) /\
  (printinc f = true -> wanted inter f <> [] -> (forall r, In r rows -> ~ shown years months r) ->
   fit_timeseries deg inter f dB sig0 params years months rows pcols prows = Err StopIteration).
Proof.
  assert (PK : forall P (l m : list (row V)), picks P l m -> forall r, In r m <-> In r l /\ P r).
  { induction 1 as [|r l m Pr _ IH|r l m Pr _ IH]; intros x; cbn; rewrite ?IH; intuition (subst; auto); contradiction. }
  pose proof (select_picks years months rows) as SP. pose proof (PK _ _ _ SP) as S.
  destruct (columns_wanted inter f) as (cols & E1 & E2).
  pose proof (color_of inter f) as C.
  assert (T : exists tl, mapM (time_line (printorig f) (select years months rows)) (map fst (wanted inter f)) = Ok tl).
  { clear -C. revert C. generalize (wanted inter f) as ws. induction ws as [|w ws IH]; intros C; [now exists []|].
    destruct IH as [tl IH]; [intros; apply C; now right|]. cbn. unfold time_line at 1. rewrite (proj2 (C w (or_introl eq_refl))). cbn.
    rewrite IH. cbn. eauto. }
  destruct T as [tl T].
  assert (I0 : select years months rows = [] -> wanted inter f <> [] -> mapM (inc_panel deg (select years months rows)) (map fst (wanted inter f)) = Err StopIteration).
  { intros -> N. destruct (wanted inter f); [contradiction|reflexivity]. }
  assert (I1 : select years months rows <> [] \/ wanted inter f = [] -> exists ip, mapM (inc_panel deg (select years months rows)) (map fst (wanted inter f)) = Ok ip).
  { intros [N|N]; [|rewrite N; now exists []]. clear -C N. revert C. generalize (wanted inter f) as ws.
    induction ws as [|w ws IH]; intros C; [now exists []|]. destruct IH as [ip IH]; [intros; apply C; now right|].
    destruct (inc_panel_ok deg _ (fst w) (snd w) N (proj1 (C w (or_introl eq_refl)))) as (p & P & _).
    cbn. rewrite P. cbn. rewrite IH. cbn. eauto. }
  assert (SN : select years months rows = [] <-> forall r, In r rows -> ~ shown years months r).
  { split.
    - intros E r I Sh. assert (In r (select years months rows)) by (apply S; auto). now rewrite E in *.
    - intros H. destruct (select years months rows) as [|r l] eqn:E; [reflexivity|]. destruct (proj1 (S r) (or_introl eq_refl)) as [A B]. now destruct (H r A). }
  unfold fit_timeseries. rewrite E1. cbn [bind]. rewrite E2, T. cbn [bind].
  assert (PL : (exists pl, (match params with Some l => mapM (param_line pcols (select years months prows)) l | None => Ok [] end) = Ok pl) <->
               (forall l k, params = Some l -> In k l -> In k pcols)).
  { destruct params as [l|]; [|split; [discriminate|eauto]]. split.
    - intros [pl E] l' k X I. injection X as <-. apply mapM_ok_inv in E. induction E as [|a b l pl A _ IH]; [contradiction|].
      destruct I as [->|I]; [|auto]. unfold param_line in A. destruct (inb string_dec k pcols) eqn:B; [|discriminate]. now apply inb_iff in B.
    - intros H. specialize (fun k => H l k eq_refl). induction l as [|k l IH]; [now exists []|].
      destruct IH as [pl IH]; [intros; apply H; now right|]. cbn. unfold param_line at 1.
      assert (B : inb string_dec k pcols = true) by (apply inb_iff, H; now left). rewrite B. cbn. rewrite IH. cbn. eauto. }
  split; [split|].
  - intros [fig H]. split.
    + intros Pi Wn. rewrite Pi in H. destruct (select years months rows) as [|r l] eqn:E.
      * rewrite I0 in H by auto. discriminate.
      * exists r. apply S. now left.
    + apply PL. destruct (if printinc f then _ else _) as [ip|e]; [|discriminate]. cbn [bind] in H.
      destruct (match params with Some _ => _ | None => _ end) as [pl|e]; [eauto|discriminate].
  - intros [A B]. apply PL in B as [pl B].
    assert (X : exists ip, (if printinc f then mapM (inc_panel deg (select years months rows)) (map fst (wanted inter f)) else Ok []) = Ok ip).
    { destruct (printinc f); [|eauto]. apply I1. destruct (wanted inter f) eqn:W; [now right|]. left. intros E.
      destruct (A eq_refl) as (r & R1 & R2); [discriminate|]. apply (proj1 SN E r R1 R2). }
    destruct X as [ip X]. rewrite X, B. cbn [bind]. eauto.
  - intros Pi Wn N. rewrite Pi, I0; [reflexivity|now apply SN|exact Wn].
Qed.
End P.
Print Assumptions C223_lines.
Print Assumptions C223_incidence.
Print Assumptions C223_parameters.
Print Assumptions C223_legend.
Print Assumptions C223_outcome.

(** three observations, two of the same date; January only; no surface contribution *)
Example C223_example :
  let r t m i s := mkrow t 2021 m (fun c => if String.eqb c "inc" then i else if String.eqb c sigma then s else 0)%Z in
  let rows := [r 2 1 40 7; r 1 1 30 8; r 3 2 35 9; r 1 1 20 6]%Z in
  let f := mkflags true false true true true true in
  exists fig, fit_timeseries (fun x => x) false f true true (Some ["omega"]) None (Some [1%Z]) rows ["omega"; "tau"] rows = Ok fig /\
    map l_label (f_lines fig) = ["tot"; "vol"; sigma] /\
    map l_points (f_lines fig) = [[(1, 0); (1, 0); (2, 0)]; [(1, 0); (1, 0); (2, 0)]; [(1, 8); (1, 6); (2, 7)]]%Z /\
    map p_points (f_inc fig) = [[(30, 0); (20, 0); (40, 0)]; [(30, 0); (20, 0); (40, 0)]; [(30, 8); (20, 6); (40, 7)]]%Z /\
    map p_lines (f_inc fig) = [[[(30, 0); (20, 0)]; [(40, 0); (40, 0)]]; [[(30, 0); (20, 0)]; [(40, 0); (40, 0)]]; [[(30, 8); (20, 6)]; [(40, 7); (40, 7)]]]%Z /\
    map fst (f_legend fig) = [sigma; "tot"; "vol"] /\ map fst (f_params fig) = ["omega"] /\
    fit_timeseries (fun x => x) false f true true None (Some [1999%Z]) None rows ["omega"; "tau"] rows = Err StopIteration.
Proof. cbv zeta. eexists. split; [vm_compute; reflexivity|]. vm_compute. repeat split. Qed.
