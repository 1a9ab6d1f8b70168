(** C174: the intermediate results of a fit are those of its evaluations. *)
From Coq Require Import QArith Arith Bool String Lia List.
From Verif Require Import Base Base_Proofs Prg_Model Prg_Spec Prg_Props Imr_Model.
Import ListNotations.
Local Open Scope string_scope.
Local Open Scope list_scope.

Section S.
Context {X E J : Type}.
Variables (resid : X -> res E) (jacob : X -> res J).
Notation store := (store X E J). Notation ev := (ev X).
Notation evals := (evals resid jacob). Notation session := (session resid jacob).

(** the vectors that were evaluated, and the vectors for which the jacobian was evaluated *)
Definition funs (l : list ev) : list X := flat_map (fun e => match e with Fun x => [x] | Jac _ => [] end) l.
Definition jacs (l : list ev) : list X := flat_map (fun e => match e with Fun _ => [] | Jac x => [x] end) l.
(** all evaluations succeed *)
Definition succeeds (l : list ev) : Prop := forall e, In e l -> match e with Fun x => exists r, resid x = Ok r | Jac x => exists j, jacob x = Ok j end.

Lemma evals_ok record l : forall t, succeeds l -> exists t', evals record (Some t) l = (Some t', None) /\
  s_par t' = s_par t ++ (if record then funs l else []) /\
  (exists rs, s_res t' = s_res t ++ rs /\ mapM resid (if record then funs l else []) = Ok rs) /\
  (exists js, s_jac t' = s_jac t ++ js /\ mapM jacob (jacs l) = Ok js).
Proof.
  induction l as [|e l IH]; intros t S.
  - exists t. cbn. destruct record; cbn; rewrite app_nil_r; repeat split; exists []; rewrite app_nil_r; auto.
  - assert (S' : succeeds l) by (intros e' H; apply S; now right). specialize (S e (or_introl eq_refl)). destruct e as [x|x]; destruct S as [y Ey]; cbn [Imr_Model.evals eval]; rewrite Ey.
    + destruct record.
      * destruct (IH (mkstore (s_par t ++ [x]) (s_res t ++ [y]) (s_jac t)) S') as (t' & A & B & (rs & C & D) & (js & F & G)). exists t'. split; [exact A|].
        cbn [s_par s_res s_jac] in *. rewrite B, C, F. cbn [funs jacs flat_map app]. rewrite <- !app_assoc. split; [reflexivity|]. split; [exists (y :: rs); split; [reflexivity|]|exists js; auto].
        cbn [mapM]. rewrite Ey. cbn [bind]. change (flat_map _ l) with (funs l). rewrite D. reflexivity.
      * destruct (IH t S') as (t' & A & B & C & (js & F & G)). exists t'. split; [exact A|]. split; [exact B|]. split; [exact C|]. exists js. split; [exact F|exact G].
    + destruct (IH (mkstore (s_par t) (s_res t) (s_jac t ++ [y])) S') as (t' & A & B & (rs & C & D) & (js & F & G)). exists t'. split; [exact A|].
      cbn [s_par s_res s_jac] in *. split; [rewrite B; destruct record; reflexivity|]. split; [exists rs; split; [exact C|destruct record; exact D]|].
      exists (y :: js). split; [rewrite F, <- app_assoc; reflexivity|]. cbn [jacs flat_map app mapM]. rewrite Ey. cbn [bind]. change (flat_map _ l) with (jacs l). now rewrite G.
Qed.

(** Whatever was done before with the object: after a recorded fit there are the parameters, residuals and jacobians of all its evaluations, in their order. *)
Theorem C174_recorded : forall fits l, succeeds l -> exists t, session (fits ++ [(true, l)]) = Some t /\
  s_par t = funs l /\ mapM resid (funs l) = Ok (s_res t) /\ mapM jacob (jacs l) = Ok (s_jac t).
Proof.
  intros fits l S. unfold Imr_Model.session. rewrite fold_left_app. cbn [fold_left fst snd]. unfold performfit.
  destruct (evals_ok true l (mkstore [] [] []) S) as (t & A & B & (rs & C & D) & (js & F & G)). exists t. rewrite A. cbn [fst s_par s_res s_jac app] in *. rewrite B, C, F. auto.
Qed.
(** Without a recorded fit there is nothing to plot. *)
Theorem C174_none : forall fits, (forall f, In f fits -> fst f = false) -> session fits = None /\ plot_needs (session fits) = Err AssertionError.
Proof.
  intros fits H. assert (Q : session fits = None); [|rewrite Q; auto]. induction fits as [|f r IH] using rev_ind; [reflexivity|].
  unfold Imr_Model.session. rewrite fold_left_app. cbn [fold_left]. fold (session r). rewrite IH by (intros; apply H; apply in_or_app; auto).
  rewrite (H f) by (apply in_or_app; right; now left). unfold performfit. clear. generalize (snd f). induction l as [|e l IH]; [reflexivity|].
  destruct e as [x|x]; cbn [Imr_Model.evals eval]; [destruct (resid x)|destruct (jacob x)]; first [exact IH|reflexivity].
Qed.
(** The parameters, residuals and jacobians of an interrupted fit: the evaluations before the exception. *)
Theorem C174_interrupted : forall fits l e r er, succeeds l -> (match e with Fun x => resid x = Err er | Jac x => jacob x = Err er end) ->
  exists t, session (fits ++ [(true, l ++ e :: r)]) = Some t /\ s_par t = funs l /\ mapM resid (funs l) = Ok (s_res t) /\ mapM jacob (jacs l) = Ok (s_jac t).
Proof.
  intros fits l e r er S H. unfold Imr_Model.session. rewrite fold_left_app. cbn [fold_left fst snd]. unfold performfit.
  destruct (evals_ok true l (mkstore [] [] []) S) as (t & A & B & (rs & C & D) & (js & F & G)). exists t.
  assert (Ap : forall l s s', evals true s l = (s', None) -> evals true s (l ++ e :: r) = evals true s' (e :: r)).
  { clear. induction l as [|a l IH]; intros s s' H; cbn [Imr_Model.evals app] in *; [injection H as ->; reflexivity|]. destruct (eval resid jacob true s a) as [u [er|]]; [discriminate|]. now apply IH. }
  rewrite (Ap _ _ _ A). cbn [Imr_Model.evals eval]. assert (Z : fst (match eval resid jacob true (Some t) e with (s, Some er) => (s, Some er) | (s, None) => evals true s r end) = Some t).
  { destruct e as [x|x]; cbn [eval]; rewrite H; reflexivity. }
  rewrite Z. cbn [fst s_par s_res s_jac app] in *. rewrite B, C, F. auto.
Qed.
(** Later fits that are not recorded add their jacobians (and nothing else): the jacobians do not belong to the parameters any more. *)
Theorem C174_later_refuted : forall fits l l' t, succeeds l -> succeeds l' -> session (fits ++ [(true, l)]) = Some t ->
  exists t' js, session (fits ++ [(true, l); (false, l')]) = Some t' /\ s_par t' = s_par t /\ s_res t' = s_res t /\
  s_jac t' = s_jac t ++ js /\ mapM jacob (jacs l') = Ok js.
Proof.
  intros fits l l' t S S' H. assert (Q : session (fits ++ [(true, l); (false, l')]) = fst (performfit resid jacob false l' (session (fits ++ [(true, l)])))).
  { unfold Imr_Model.session. rewrite !fold_left_app. reflexivity. }
  rewrite Q, H. unfold performfit. destruct (evals_ok false l' t S') as (t' & A & B & (rs & C & D) & (js & F & G)). exists t', js. rewrite A. cbn in D. injection D as <-.
  rewrite app_nil_r in *. auto.
Qed.
End S.
Print Assumptions C174_recorded.
Print Assumptions C174_none.
Print Assumptions C174_interrupted.
Print Assumptions C174_later_refuted.

(** ** the plot *)
(** A constant parameter is shown with its value. *)
Theorem C174_constant : forall key v, shown_value [v] = Ok v /\ label_of key 1 = key.
Proof. intros. split; reflexivity. Qed.
Print Assumptions C174_constant.
(** A temporally varying one is shown with its first value, labelled "(mean)". *)
Theorem C174_mean_refuted : forall key v w r, shown_value (v :: w :: r) = Ok v /\ label_of key (length (v :: w :: r)) = (key ++ " (mean)")%string.
Proof. intros. split; reflexivity. Qed.
Print Assumptions C174_mean_refuted.
(** All parameters are drawn if the jacobian has the same names. *)
Theorem C174_drawn : forall jac par, NoDup par -> (forall k, In k par <-> In k jac) -> (length par <= length jac)%nat -> drawn jac par = par.
Proof.
  intros jac par N H L. unfold drawn. assert (Q : forall n s, (length par <= n)%nat -> map snd (combine (seq s n) par) = par).
  { clear. induction par as [|a par IH]; intros n s L; [destruct n; reflexivity|]. destruct n as [|n]; [cbn in L; lia|]. cbn. f_equal. apply IH. cbn in L. lia. }
  rewrite Q by auto. assert (G : forall l, (forall k, In k l -> In k jac) -> filter (fun k => inb string_dec k jac) l = l); [|apply G; apply H].
  induction l as [|a l IH]; intros K; [reflexivity|]. cbn. rewrite (proj2 (inb_iff string_dec a jac)) by (apply K; now left). f_equal. apply IH. intros; apply K; now right.
Qed.
Print Assumptions C174_drawn.
(** There are 18 colormaps. *)
Theorem C174_colors_refuted : forall ts, colored 18 ts = Err IndexError <-> (18 < length ts)%nat.
Proof. intros ts. unfold colored. destruct (Nat.leb_spec (length ts) 18); split; intros; first [reflexivity|lia|discriminate]. Qed.
Print Assumptions C174_colors_refuted.

(** ** the progress-bar *)
(** With max_nfev = m, evaluation number i < m shows i / m, and the final message appears from evaluation m on. *)
Theorem C174_progress : forall m i, (1 <= m)%nat ->
  ((i < m)%nat -> exists bar, progress (Some (Some m)) i = Ok (Some (bar, i, m)) /\ length bar = 20%nat) /\ (progress (Some (Some m)) i = Ok None <-> (m <= i)%nat).
Proof.
  intros m i H. split.
  - intros L. destruct (C169_bar i m L) as (bar & A & B & _). exists bar. auto.
  - apply C169_final, H.
Qed.
Print Assumptions C174_progress.
(** Without max_nfev it claims after 1000 evaluations that the limit has been reached, though scipy's limit is 100 times the number of values; the value
    None (scipy's default) raises a TypeError. *)
Theorem C174_limit_refuted : (forall i, (1000 <= i)%nat -> progress None i = Ok None) /\ forall i, progress (Some None) i = Err TypeError.
Proof. split; [|reflexivity]. intros i H. apply (C169_final i 1000); [lia|exact H]. Qed.
Print Assumptions C174_limit_refuted.
Example C174_example :
  let resid := fun x : Q => if Qeq_bool x 9 then Err ZeroDivisionError else Ok (x - 1)%Q in
  let jacob := fun x : Q => Ok (2 * x)%Q in
  (exists t, session resid jacob [(false, [Fun 7]); (true, [Fun 1; Jac 1; Fun 2; Fun 3; Jac 3]); (false, [Fun 5; Jac 5])]%Q = Some t /\
    s_par t = [1; 2; 3]%Q /\ s_jac t = [2; 6; 10]%Q) /\
  session resid jacob [(true, [Fun 4; Fun 9; Jac 9])]%Q = Some (mkstore [4]%Q [3]%Q []) /\
  drawn ["tau"; "omega"] ["omega"; "tau"] = ["omega"; "tau"].
Proof. split; [eexists; split; [reflexivity|split; reflexivity]|]. split; reflexivity. Qed.
