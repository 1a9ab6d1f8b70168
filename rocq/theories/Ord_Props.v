(** C199: results of a model do not depend on earlier calculations and on fits that share
    their functions; how they depend on the order of the given parameters (see C163). *)
From Coq Require Import Bool Arith String List Lia.
From Verif Require Import Base Base_Proofs Ord_Model Ord_Spec Ord_Proofs.
Import ListNotations.
Local Open Scope list_scope.

(** whatever was calculated before, and whichever fits of the same interaction term with the
    same names in the same order have shared their functions: every result is that of the
    fit when it is new *)
Theorem C199_history {T} : forall (f : fit T) l p x,
  fit_dicts f -> own_input f -> own_shares f l -> fst (fit_calc (snd (run f l)) p x) = fst (fit_calc f p x).
Proof.
  intros f l p x Hd Hi Hs. destruct (run_own f l Hd Hi Hs) as [A I]. set (f' := snd (run f l)) in *. clearbody f'.
  destruct A as (A1 & A2 & A3 & A4 & A5 & A6 & A7).
  assert (Hd' : fit_dicts f') by (unfold fit_dicts; now rewrite A1, A2).
  destruct (functions_own f Hd Hi) as [F1 F2]. destruct (functions_own f' Hd' I) as [G1 G2].
  rewrite !calc_eq. cbv zeta. rewrite A3, A4, A5, A7. unfold by_position. rewrite F1, F2, G1, G2, A1, A2, A3, A6. reflexivity.
Qed.
Print Assumptions C199_history.
(** the same for all results of a session *)
Theorem C199_session {T} : forall (f : fit T) l, fit_dicts f -> own_input f -> own_shares f l ->
  fst (run f l) = flat_map (fun o => match o with Calc p x => [fst (fit_calc f p x)] | Share _ => [] end) l.
Proof.
  intros f l Hd Hi. induction l as [|o l IH] using rev_ind; intros Hs; [reflexivity|].
  assert (Hl : own_shares f l) by (intros g Hg; apply (Hs g), in_or_app; now left).
  rewrite flat_map_app, <- (IH Hl). clear IH. pose proof (C199_history f l) as H.
  assert (E : forall (k : fit T) a b, fst (run k (a ++ b)) = fst (run k a) ++ fst (run (snd (run k a)) b)).
  { intros k a b. revert k. induction a as [|[p x|g] a IHa]; intros k; [reflexivity| |].
    - cbn [run app fst snd]. cbv zeta. cbn [fst snd]. now rewrite IHa.
    - cbn [run app]. apply IHa. }
  rewrite E. f_equal. destruct o as [p x|g]; [|reflexivity]. cbn [run fst flat_map app]. now rewrite H.
Qed.
Print Assumptions C199_session.

(** the order of the names (see C163): for every model of two parameters a and b that is not
    symmetric in them, calc(dict(b=y, a=x)) is the result for a=y, b=x in the interaction
    contribution and for a=x, b=y in the other two *)
Theorem C199_exchanged {T} : forall (f : fit T) a b x y,
  proper f -> fit_dicts f -> own_input f -> f_intQ f = true -> order (excl f) (starts f) (fixed f) = [a; b] -> a <> b ->
  (forall k, In k (syms (f_surf f) ++ syms (f_vol f) ++ syms (f_inter f)) -> k = a \/ k = b) ->
  value (f_inter f) [(a, x); (b, y)] <> value (f_inter f) [(a, y); (b, x)] ->
  let ok := fst (fit_calc f [(a, x); (b, y)] []) in let other := fst (fit_calc f [(b, y); (a, x)] []) in
  right f [(a, x); (b, y)] [] ok /\ ok <> other /\ ~ right f [(b, y); (a, x)] [] other /\
  exists s v, ok = Ok (s, v, Some (value (f_inter f) [(a, x); (b, y)])) /\ other = Ok (s, v, Some (value (f_inter f) [(a, y); (b, x)])).
Proof.
  intros f a b x y [Ps [Pv Pi]] Hd Hi Q Ho Hab Hsy Hne. cbv zeta.
  assert (Ha : ~ In a (excl f)).
  { assert (In a (order (excl f) (starts f) (fixed f))) as H by (rewrite Ho; now left). unfold order in H. apply filter_In in H.
    destruct H as [_ H]. apply negb_true_iff, inb_false in H. exact H. }
  assert (Hb : ~ In b (excl f)).
  { assert (In b (order (excl f) (starts f) (fixed f))) as H by (rewrite Ho; right; now left). unfold order in H. apply filter_In in H.
    destruct H as [_ H]. apply negb_true_iff, inb_false in H. exact H. }
  assert (S1 : forall k1 k2 u w, ~ In k1 (excl f) -> ~ In k2 (excl f) -> select (excl f) (dupdate string_dec [(k1, u); (k2, w)] []) = [(k1, u); (k2, w)] :> dict string T).
  { intros k1 k2 u w H1 H2. unfold select. cbn. apply (inb_false string_dec) in H1. apply (inb_false string_dec) in H2. rewrite H1. cbn. rewrite H2. reflexivity. }
  assert (Cm : forall l k1 k2 (u w : T), (forall k, In k l -> k = k1 \/ k = k2) -> complete [(k1, u); (k2, w)] l).
  { intros l k1 k2 u w Hl k Hk. cbn. destruct (string_dec k k1); [discriminate|]. destruct (string_dec k k2); [discriminate|]. destruct (Hl k Hk); contradiction. }
  assert (Hs : forall k, In k (syms (f_surf f)) -> k = a \/ k = b) by (intros k Hk; apply Hsy, in_or_app; now left).
  assert (Hv : forall k, In k (syms (f_vol f)) -> k = a \/ k = b) by (intros k Hk; apply Hsy, in_or_app; right; apply in_or_app; now left).
  assert (Hn : forall k, In k (syms (f_inter f)) -> k = a \/ k = b) by (intros k Hk; apply Hsy, in_or_app; right; apply in_or_app; now right).
  assert (Sw : forall k (u w : T), dget string_dec k [(b, w); (a, u)] = dget string_dec k [(a, u); (b, w)]).
  { intros k u w. cbn. destruct (string_dec k b), (string_dec k a); subst; congruence. }
  destruct (functions_own f Hd Hi) as [F1 F2].
  assert (E1 : fst (fit_calc f [(a, x); (b, y)] []) = Ok (value (f_surf f) [(a, x); (b, y)], value (f_vol f) [(a, x); (b, y)], Some (value (f_inter f) [(a, x); (b, y)]))).
  { rewrite calc_eq. cbv zeta. rewrite S1 by assumption. rewrite !by_keyword_ok by auto. rewrite Q. unfold by_position. rewrite F1, F2, Ho. cbn [length map snd Nat.eqb combine].
    rewrite by_keyword_ok by auto. reflexivity. }
  assert (E2 : fst (fit_calc f [(b, y); (a, x)] []) = Ok (value (f_surf f) [(a, x); (b, y)], value (f_vol f) [(a, x); (b, y)], Some (value (f_inter f) [(a, y); (b, x)]))).
  { rewrite calc_eq. cbv zeta. rewrite S1 by assumption.
    rewrite !by_keyword_ok by (apply Cm; intros k Hk; specialize (Hs k); specialize (Hv k); tauto).
    rewrite Q. unfold by_position. rewrite F1, F2, Ho. cbn [length map snd Nat.eqb combine].
    rewrite by_keyword_ok by auto. rewrite (Ps [(b, y); (a, x)] [(a, x); (b, y)]) by (intros; apply Sw).
    rewrite (Pv [(b, y); (a, x)] [(a, x); (b, y)]) by (intros; apply Sw). reflexivity. }
  split; [|split; [|split]].
  - apply calc_right; [constructor|]. intros _. split; [now apply functions_own|]. rewrite Ho. unfold order. cbn. apply (inb_false string_dec) in Ha. apply (inb_false string_dec) in Hb.
    rewrite Ha. cbn. rewrite Hb. reflexivity.
  - rewrite E1, E2. intros E. injection E as E. contradiction.
  - rewrite E2. intros [d [Hg [[Hc E]|[Hc E]]]]; [|discriminate]. rewrite Q in E. injection E as _ _ E. apply Hne. rewrite E. apply Pi. intros k _.
    rewrite Hg. unfold given. cbn. destruct (in_dec string_dec k (excl f)) as [i|i].
    + destruct (string_dec k a) as [->|]; [contradiction|]. destruct (string_dec k b) as [->|]; [contradiction|reflexivity].
    + change (dget string_dec k [(a, x); (b, y)] = dget string_dec k [(b, y); (a, x)]). symmetry. apply Sw.
  - eexists _, _. split; [exact E1|exact E2].
Qed.
Print Assumptions C199_exchanged.

(** what holds: after any calls of calc, and with functions of other fits of the same
    interaction term and names in the same order, values that are given in the order of the
    model lead to the result that belongs to the names *)
Theorem C199_in_order {T} : forall (f : fit T) l p x,
  fit_dicts f -> own_input f -> own_shares f l -> NoDup (keys x) -> order (excl f) p x = order (excl f) (starts f) (fixed f) ->
  right f p x (fst (fit_calc (snd (run f l)) p x)).
Proof.
  intros f l p x Hd Hi Hs Hx Ho. destruct (run_own f l Hd Hi Hs) as [A I]. set (f' := snd (run f l)) in *. clearbody f'.
  destruct A as (A1 & A2 & A3 & A4 & A5 & A6 & A7).
  assert (Hd' : fit_dicts f') by (unfold fit_dicts; now rewrite A1, A2).
  assert (R : right f' p x (fst (fit_calc f' p x))).
  { apply calc_right; [exact Hx|]. intros _. split; [now apply functions_own|]. now rewrite A1, A2, A3. }
  destruct R as [d [H1 H2]]. exists d. rewrite A3 in H1. split; [exact H1|]. unfold result_for in *. now rewrite <- A4, <- A5, <- A6, <- A7.
Qed.
Print Assumptions C199_in_order.

(** the dicts the optimiser works with are always in this order: the results of performfit
    belong to the names *)
Theorem C199_performfit {T} : forall (f : fit T) l vals,
  fit_dicts f -> own_input f -> own_shares f l -> length vals = length (starts f) ->
  right f (combine (keys (starts f)) vals) (fixed f) (fst (fit_calc (snd (run f l)) (newdict f vals) (fixed f))).
Proof.
  intros f l vals Hd Hi Hs Hl. apply C199_in_order; auto.
  - exact (nodup_app_r _ _ Hd).
  - unfold newdict, order. rewrite keys_combine by (unfold keys; rewrite map_length; symmetry; exact Hl). reflexivity.
Qed.
Print Assumptions C199_performfit.

(** without an interaction contribution the order has no effect *)
Theorem C199_without_interaction {T} : forall (f : fit T) p x,
  NoDup (keys x) -> f_intQ f = false -> right f p x (fst (fit_calc f p x)).
Proof. intros f p x Hx Q. apply calc_right; [exact Hx|]. intros E. congruence. Qed.
Print Assumptions C199_without_interaction.

(** the first two contributions always belong to the names; two dicts of the same
    values have the same ones *)
Theorem C199_surface_volume {T} : forall (f : fit T) p x p' x' s v i s' v' i',
  proper f -> NoDup (keys x) -> NoDup (keys x') -> (forall k, given (excl f) p x k = given (excl f) p' x' k) ->
  fst (fit_calc f p x) = Ok (s, v, i) -> fst (fit_calc f p' x') = Ok (s', v', i') ->
  s = s' /\ v = v' /\ exists d, (forall k, dget string_dec k d = given (excl f) p x k) /\ s = value (f_surf f) d /\ v = value (f_vol f) d.
Proof.
  intros f p x p' x' s v i s' v' i' (Ps & Pv & _) Hx Hx' Hg E E'. rewrite calc_eq in E, E'. cbv zeta in E, E'.
  set (d := select (excl f) (dupdate string_dec p x)) in *. set (d' := select (excl f) (dupdate string_dec p' x')) in *.
  assert (Hdd : forall k, dget string_dec k d = dget string_dec k d') by (intros k; unfold d, d'; rewrite !dget_values by assumption; apply Hg).
  assert (A : s = value (f_surf f) d /\ v = value (f_vol f) d).
  { clear E'. unfold by_keyword at 1 2 in E. destruct (forallb _ (syms (f_surf f))); [|discriminate]. destruct (forallb _ (syms (f_vol f))); [|discriminate].
    destruct (f_intQ f); [destruct by_position; [|discriminate]|]; now (injection E; intros; subst). }
  assert (B : s' = value (f_surf f) d' /\ v' = value (f_vol f) d').
  { clear E A. unfold by_keyword at 1 2 in E'. destruct (forallb _ (syms (f_surf f))); [|discriminate]. destruct (forallb _ (syms (f_vol f))); [|discriminate].
    destruct (f_intQ f); [destruct by_position; [|discriminate]|]; now (injection E'; intros; subst). }
  destruct A as [-> ->], B as [-> ->]. split; [apply Ps; auto|]. split; [apply Pv; auto|].
  exists d. split; [intros k; now apply dget_values|auto].
Qed.
Print Assumptions C199_surface_volume.

(** in general the interaction contribution is the one of the first, second, ... name of the
    model with the first, second, ... given value, and another number of values is a TypeError *)
Theorem C199_exact {T} : forall (f : fit T) p x s v,
  fit_dicts f -> own_input f -> f_intQ f = true ->
  let d := filter (fun kv => negb (inb string_dec (fst kv) (excl f))) (dupdate string_dec p x) in
  let names := order (excl f) (starts f) (fixed f) in
  by_keyword (f_surf f) d = Ok s -> by_keyword (f_vol f) d = Ok v ->
  (length d <> length names -> fst (fit_calc f p x) = Err TypeError) /\
  (length d = length names -> fst (fit_calc f p x) = match by_keyword (f_inter f) (combine names (map snd d)) with Ok i => Ok (s, v, Some i) | Err e => Err e end).
Proof.
  intros f p x s v Hd Hi Q d names Es Ev. destruct (functions_own f Hd Hi) as [F1 F2].
  assert (E : fst (fit_calc f p x) = match by_position (functions f) (map snd d) with Ok i => Ok (s, v, Some i) | Err e => Err e end).
  { rewrite calc_eq. cbv zeta. unfold select. fold d. rewrite Es, Ev, Q. reflexivity. }
  rewrite E. unfold by_position. rewrite F1, F2, map_length. fold names. split; intros H.
  - apply Nat.neq_sym in H. apply Nat.eqb_neq in H. rewrite H. reflexivity.
  - symmetry in H. apply Nat.eqb_eq in H. rewrite H. reflexivity.
Qed.
Print Assumptions C199_exact.

(** a model with the parameters omega, t (volume) and N (surface), none of them
    auxiliary *)
Definition nam (k : string) (d : dict string nat) : nat := match dget string_dec k d with Some v => v | None => 0 end.
Definition ex_fit : fit nat :=
  mkfit [("omega", 1); ("t", 2); ("N", 3)]%string [] ["omega"; "tau"; "NormBRDF"; "bsf"]%string
    (mkpart ["N"]%string (fun d => 10 * nam "N" d)) (mkpart ["t"]%string (fun d => 100 * nam "t" d))
    (mkpart ["t"; "N"]%string (fun d => nam "t" d * nam "t" d + nam "N" d)) true None.
Lemma ex_fit_ok : proper ex_fit /\ fit_dicts ex_fit /\ own_input ex_fit.
Proof.
  split; [|split].
  - repeat split; intros d d' H; cbn in *; unfold nam; rewrite !H by tauto; reflexivity.
  - unfold fit_dicts. cbn. repeat constructor; cbn; intuition discriminate.
  - intros g H. discriminate.
Qed.
Example C199_example :
  (** in the order of the model *)
  fst (fit_calc ex_fit [("t", 4); ("N", 7)]%string []) = Ok (70, 400, Some 23) /\
  (** in the other order: the interaction contribution of t = 7, N = 4 *)
  fst (fit_calc ex_fit [("N", 7); ("t", 4)]%string []) = Ok (70, 400, Some 53) /\
  (** omega may be anywhere, one value too many is not accepted *)
  fst (fit_calc ex_fit [("t", 4); ("omega", 9); ("N", 7)]%string []) = Ok (70, 400, Some 23) /\
  fst (fit_calc ex_fit [("t", 4); ("N", 7); ("u", 7)]%string []) = Err TypeError /\
  ~ right ex_fit [("N", 7); ("t", 4)]%string [] (fst (fit_calc ex_fit [("N", 7); ("t", 4)]%string [])).
Proof.
  repeat split. destruct ex_fit_ok as (A & B & C).
  destruct (C199_exchanged ex_fit "t" "N" 4 7 A B C) as (_ & _ & H & _); auto; try discriminate.
  cbn. intuition.
Qed.
(** the functions of a fit with the same model whose defdict is in the other order *)
Example C199_example_shared :
  let g := mkfns (f_inter ex_fit) ["N"; "t"]%string in
  fst (run ex_fit [Calc [("t", 4); ("N", 7)]%string []; Share g; Calc [("t", 4); ("N", 7)]%string []]) = [Ok (70, 400, Some 23); Ok (70, 400, Some 53)].
Proof. reflexivity. Qed.
