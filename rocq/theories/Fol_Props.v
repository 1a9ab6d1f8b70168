(** C187: the results that are exported *)
From Coq Require Import String Ascii List Arith Bool Lia.
From Verif Require Import Base Base_Proofs Str_Model Rdr_Model Rdr_Spec Rdr_Proofs Rdr_Props Fol_Model Fol_Spec.
Import ListNotations.
Local Open Scope string_scope.
Local Open Scope list_scope.

Lemma getattr_iff r n p : getattr_result r n = Ok p <-> getitem r n = Ok p.
Proof. unfold getattr_result, getitem. destruct (dget string_dec n r); [tauto|split; discriminate]. Qed.
Lemma getattr_err r n : getitem r n = Err AssertionError -> getattr_result r n = Err AttributeError.
Proof. unfold getattr_result, getitem. destruct (dget string_dec n r); [discriminate|reflexivity]. Qed.
Lemma choose_name r n : n <> "" -> choose r (Some n) = match getattr_result r n with Ok p => Ok (Some p) | Err e => Err e end.
Proof. destruct n; [congruence|reflexivity]. Qed.
Lemma finalout_kept base ini st u p m : useres st = Some (p, m) ->
  finalout base ini st u = (mkf (disk (setup ini st)) (over st) (cfg (setup ini st)) (Some (p, m)), Written p m (sub (sub base (target ini st)) "results")).
Proof. intros H. unfold finalout. cbn [useres setup]. rewrite H. reflexivity. Qed.
Lemma values_length (r : dict string path) : List.length r = List.length (iter_results r).
Proof. unfold iter_results. rewrite map_length. reflexivity. Qed.

(** the results that are named are exported, in the mode of the call, after any calls before *)
Theorem C187_named : forall base ini fit0 st l n u, dget string_dec (specs ini st) (disk st) = Some l -> collection l -> n <> "" ->
  (result_folder l n -> fit0 (sub (sub base (specs ini st)) n) u = Ok tt ->
     snd (export base ini fit0 st (Some n) u) = Written (sub (sub base (specs ini st)) n) u (sub (sub base (target ini st)) "results")) /\
  (~ result_folder l n -> export base ini fit0 st (Some n) u = (st, Raised AttributeError)).
Proof.
  intros base ini fit0 st l n u D [(N & S & P) C] E. destruct (C124_found (sub base (specs ini st)) l n N S C P) as [A B]. unfold export. rewrite D, choose_name by exact E. split.
  - intros R F. apply A in R. apply getattr_iff in R. rewrite R, F. rewrite finalout_kept with (p := sub (sub base (specs ini st)) n) (m := u) by reflexivity. reflexivity.
  - intros R. apply B in R. apply getattr_err in R. rewrite R. reflexivity.
Qed.
Print Assumptions C187_named.

(** without a name: the only results are exported; with several nothing is done, without any an exception is raised *)
Theorem C187_unnamed : forall base ini fit0 st l u, dget string_dec (specs ini st) (disk st) = Some l -> collection l ->
  (forall n, (forall m, result_folder l m <-> m = n) -> fit0 (sub (sub base (specs ini st)) n) u = Ok tt ->
     snd (export base ini fit0 st None u) = Written (sub (sub base (specs ini st)) n) u (sub (sub base (target ini st)) "results")) /\
  (forall n m, result_folder l n -> result_folder l m -> n <> m -> export base ini fit0 st None u = (st, Nothing)) /\
  ((forall n, ~ result_folder l n) -> export base ini fit0 st None u = (st, Raised IndexError)).
Proof.
  intros base ini fit0 st l u D [(N & S & P) C]. set (b := sub base (specs ini st)) in *.
  destruct (C124_each_once b l N S C P) as [O I]. unfold export. rewrite D. fold b. set (r := RTresults b l) in *.
  assert (V : forall k p, In (k, p) r -> In p (iter_results r)) by (intros k p H; unfold iter_results; apply in_map_iff; exists (k, p); split; [reflexivity|exact H]).
  assert (J : forall n m, sub b n = sub b m -> n = m) by (intros n m H; rewrite <- (pname_sub b n), H; apply pname_sub).
  repeat split.
  - intros n H F. assert (L : exists k, r = [(k, sub b n)]).
    { destruct r as [|[k p] r'] eqn:R.
      - assert (X : In (sub b n) (iter_results [])) by (apply I; exists n; split; [apply H|]; reflexivity). destruct X.
      - assert (X : In p (iter_results ((k, p) :: r'))) by (left; reflexivity). apply I in X. destruct X as (m & M & ->). apply H in M. subst m. exists k.
        destruct r' as [|[k' p'] r']; [reflexivity|]. assert (X : In p' (iter_results ((k, sub b n) :: (k', p') :: r'))) by (right; left; reflexivity).
        apply I in X. destruct X as (m & M & ->). apply H in M. subst m. inversion O as [|? ? Y _]. elim Y. left. reflexivity. }
    destruct L as [k ->]. cbn [choose keys map fst List.length Nat.ltb Nat.leb]. unfold getattr_result. cbn [dget]. destruct (string_dec k k); [|congruence]. rewrite F.
    rewrite finalout_kept with (p := sub b n) (m := u) by reflexivity. reflexivity.
  - intros n m Hn Hm Q. assert (L : 1 < List.length r).
    { rewrite values_length. assert (A : In (sub b n) (iter_results r)) by (apply I; exists n; auto). assert (B : In (sub b m) (iter_results r)) by (apply I; exists m; auto).
      destruct (iter_results r) as [|x [|y t]]; [destruct A| |cbn; lia]. destruct A as [A|[]], B as [B|[]]. elim Q. apply J. congruence. }
    unfold choose. apply Nat.ltb_lt in L. rewrite L. reflexivity.
  - intros H. destruct r as [|[k p] r'] eqn:R; [reflexivity|]. assert (X : In p (iter_results ((k, p) :: r'))) by (left; reflexivity). apply I in X. destruct X as (m & M & _). elim (H m M).
Qed.
Print Assumptions C187_unnamed.

Lemma made_keep l : complete l -> make_subfolders l = l.
Proof.
  intros C. unfold make_subfolders.
  assert (G : forall fs l, (forall f, In f fs -> exists s, In (f, Dir s) l) -> fold_left (fun l f => if existsb (fun e => String.eqb (fst e) f) l then l else l ++ [(f, Dir [])]) fs l = l).
  { clear. induction fs as [|f fs IH]; intros l H; [reflexivity|]. cbn [fold_left]. destruct (H f (or_introl eq_refl)) as [s I].
    replace (existsb (fun e => String.eqb (fst e) f) l) with true; [apply IH; intros g G; apply H; right; exact G|].
    symmetry. apply existsb_exists. exists (f, Dir s). split; [exact I|apply String.eqb_refl]. }
  apply G. intros f H. apply C. cbn in *. tauto.
Qed.
Lemma made_complete l : (forall f, ~ In (f, File) l) \/ (forall f, In f ["cfg"; "results"; "dumps"] -> ~ In (f, File) l) -> complete (make_subfolders l).
Proof.
  intros H. assert (H' : forall f, In f ["cfg"; "results"; "dumps"] -> ~ In (f, File) l) by (destruct H as [H|H]; auto). clear H.
  unfold make_subfolders. set (g := fun l f => if existsb (fun e : string * node => String.eqb (fst e) f) l then l else l ++ [(f, Dir [])]).
  assert (K : forall fs l e, In e l -> In e (fold_left g fs l)).
  { induction fs as [|f fs IH]; intros k e I; [exact I|]. cbn [fold_left]. apply IH. unfold g. destruct (existsb _ k); [exact I|]. apply in_or_app. left. exact I. }
  assert (G : forall fs l f, In f fs -> (forall f, In f fs -> ~ In (f, File) l) -> exists s, In (f, Dir s) (fold_left g fs l)).
  { induction fs as [|x fs IH]; intros k f I Q; [destruct I|]. cbn [fold_left]. destruct I as [->|I].
    - unfold g at 2. destruct (existsb _ k) eqn:E.
      + apply existsb_exists in E. destruct E as ([y n] & E & X). cbn in X. apply String.eqb_eq in X. subst y. destruct n as [|s]; [elim (Q f (or_introl eq_refl) E)|]. exists s. apply K. exact E.
      + exists []. apply K. apply in_or_app. right. left. reflexivity.
    - apply IH; [exact I|]. intros y Y F. unfold g in F. destruct (existsb _ k); [elim (Q y (or_intror Y) F)|]. apply in_app_or in F. destruct F as [F|[F|[]]]; [elim (Q y (or_intror Y) F)|discriminate]. }
  intros f I. apply G; [cbn in *; tauto|]. intros y Y. apply H'. cbn in *. tauto.
Qed.

(** the folder of the configuration, if it holds results itself: every sequence of calls in one mode exports its fits and writes into it *)
Theorem C187_own : forall base ini fit0 l u calls d, dget string_dec ini d = Some l -> complete l -> List.length l <= 100 -> has_char "." ini = false ->
  fit0 (sub base ini) u = Ok tt -> Forall (plain_call u) calls ->
  snd (do_calls base ini fit0 (new_object d) calls) = map (fun _ => Written (sub base ini) u (sub (sub base ini) "results")) calls.
Proof.
  intros base ini fit0 l u calls d D C L P F A.
  destruct (C124_itself (sub base ini) l C L) as [X Y]; [rewrite pname_sub; exact P|]. rewrite pname_sub in X. apply getattr_iff in X.
  assert (R : RTresults (sub base ini) l = [(ini, sub base ini)]).
  { destruct (RTresults (sub base ini) l) as [|[k p] [|? ?]] eqn:R; try discriminate. cbn in Y. injection Y as ->. unfold getattr_result in X. cbn [dget] in X. destruct (string_dec ini k) as [->|]; [reflexivity|discriminate]. }
  assert (G : forall calls st, Forall (plain_call u) calls -> dget string_dec ini (disk st) = Some l -> over st = None -> (cfg st = None \/ cfg st = Some ini) ->
    (useres st = None \/ useres st = Some (sub base ini, u)) ->
    snd (do_calls base ini fit0 st calls) = map (fun _ => Written (sub base ini) u (sub (sub base ini) "results")) calls).
  { clear d D calls A. induction calls as [|c calls IH]; intros st A D O K U; [reflexivity|]. inversion A as [|? ? Pc Ac]; subst. cbn [do_calls].
    assert (Fi : forall st, dget string_dec ini (disk st) = Some l -> over st = None -> (useres st = None \/ useres st = Some (sub base ini, u)) ->
      exists st', finalout base ini st u = (st', Written (sub base ini) u (sub (sub base ini) "results")) /\
        dget string_dec ini (disk st') = Some l /\ over st' = None /\ cfg st' = Some ini /\ useres st' = Some (sub base ini, u)).
    { clear - C X R. intros st D1 O1 U1. unfold finalout, setup, target. cbv zeta. cbn [useres over disk cfg]. rewrite O1, D1, made_keep by exact C.
      assert (Z : dget string_dec ini (dset string_dec ini l (disk st)) = Some l) by (apply dget_dset_same).
      rewrite Z. destruct U1 as [U1|U1]; rewrite U1; cbn [get_useres]; [rewrite X; cbn [bind]|]; eexists; (split; [reflexivity|]); cbn; auto. }
    assert (E : exists st', do_call base ini fit0 st c = (st', Written (sub base ini) u (sub (sub base ini) "results")) /\
        dget string_dec ini (disk st') = Some l /\ over st' = None /\ cfg st' = Some ini /\ useres st' = Some (sub base ini, u)).
    { destruct Pc as [->| ->]; cbn [do_call]; [apply Fi; assumption|]. unfold export.
      assert (Q : specs ini st = ini) by (unfold specs; destruct K as [-> | ->]; reflexivity). rewrite Q, D, R. cbn [choose keys map fst List.length Nat.ltb Nat.leb].
      unfold getattr_result. cbn [dget]. destruct (string_dec ini ini); [|congruence]. rewrite F. apply Fi; cbn; auto. }
    destruct E as (st' & E & E1 & E2 & E3 & E4). rewrite E. destruct (do_calls base ini fit0 st' calls) as [st2 es] eqn:Q. cbn [snd map]. f_equal.
    assert (W := IH st' Ac E1 E2 (or_intror E3) (or_intror E4)). rewrite Q in W. exact W. }
  apply G; cbn; auto.
Qed.
Print Assumptions C187_own.

(** whatever is exported, it is written into the folder of the configuration with its overrides *)
Theorem C187_destination : forall base ini fit0 st c p m q, snd (do_call base ini fit0 st c) = Written p m q -> q = sub (sub base (target ini st)) "results".
Proof.
  intros base ini fit0 st c p m q H.
  assert (F : forall st u, snd (finalout base ini st u) = Written p m q -> q = sub (sub base (target ini st)) "results").
  { clear. intros st u H. unfold finalout in H. destruct (get_useres _ _ _ _ _) as [[x y]|e]; cbn in H; [|discriminate]. injection H as _ _ <-. reflexivity. }
  destruct c as [d|u|n u]; cbn [do_call] in H; [discriminate|apply (F st u H)|]. unfold export in H. destruct (dget _ _ _) as [l|]; [|discriminate].
  destruct (choose _ n) as [[x|]|e]; [|discriminate|discriminate]. destruct (fit0 x u) as [[]|e]; [|discriminate]. apply F in H. exact H.
Qed.
Print Assumptions C187_destination.

(** run_finaloutput after an export uses the folder (and the mode) of the export, not the one of the configuration *)
Theorem C187_later_refuted : forall base ini fit0 st l n u us, dget string_dec (specs ini st) (disk st) = Some l -> collection l -> n <> "" ->
  result_folder l n -> fit0 (sub (sub base (specs ini st)) n) u = Ok tt ->
  snd (do_calls base ini fit0 (fst (export base ini fit0 st (Some n) u)) (map Finalout us)) =
    map (fun _ => Written (sub (sub base (specs ini st)) n) u (sub (sub base (target ini st)) "results")) us.
Proof.
  intros base ini fit0 st l n u us D [(N & S & P) C] E R F. destruct (C124_found (sub base (specs ini st)) l n N S C P) as [A _]. apply A in R. apply getattr_iff in R. clear A.
  unfold export. rewrite D, choose_name, R, F by exact E. rewrite finalout_kept with (p := sub (sub base (specs ini st)) n) (m := u) by reflexivity. cbn [fst].
  match goal with |- context [do_calls _ _ _ ?s _] => generalize (eq_refl (useres s)); generalize (eq_refl (over s)); generalize s at 2 4 5 end. cbn [useres over].
  set (p := sub (sub base (specs ini st)) n). clearbody p. intros s O U. replace (target ini st) with (target ini s) by (unfold target; rewrite <- O; reflexivity). clear - U. revert s U.
  induction us as [|v us IH]; intros s U; [reflexivity|]. cbn [map do_calls do_call]. rewrite (finalout_kept base ini s v p u) by (symmetry; exact U).
  match goal with |- context [do_calls _ _ _ ?s' _] => assert (W := IH s' eq_refl); destruct (do_calls base ini fit0 s' (map Finalout us)) as [s2 es] end. cbn [snd] in *. rewrite W. reflexivity.
Qed.
Print Assumptions C187_later_refuted.

(** with an overridden dump-folder a new object exports the fits of the folder in the file, and writes into the other one *)
Theorem C187_override_refuted : forall base ini fit0 d l u other, dget string_dec ini d = Some l -> complete l -> List.length l <= 100 -> has_char "." ini = false ->
  fit0 (sub base ini) u = Ok tt ->
  snd (do_calls base ini fit0 (new_object d) [Override other; Export None u]) = [Nothing; Written (sub base ini) u (sub (sub base other) "results")].
Proof.
  intros base ini fit0 d l u other D C L P F.
  destruct (C124_itself (sub base ini) l C L) as [X Y]; [rewrite pname_sub; exact P|]. rewrite pname_sub in X. apply getattr_iff in X.
  assert (R : RTresults (sub base ini) l = [(ini, sub base ini)]).
  { destruct (RTresults (sub base ini) l) as [|[k p] [|? ?]] eqn:R; try discriminate. cbn in Y. injection Y as ->. unfold getattr_result in X. cbn [dget] in X. destruct (string_dec ini k) as [->|]; [reflexivity|discriminate]. }
  cbn [do_calls do_call]. unfold export. cbn [specs new_object cfg disk over useres]. rewrite D, R. cbn [choose keys map fst List.length Nat.ltb Nat.leb].
  unfold getattr_result. cbn [dget]. destruct (string_dec ini ini); [|congruence]. rewrite F. rewrite finalout_kept with (p := sub base ini) (m := u) by reflexivity. reflexivity.
Qed.
Print Assumptions C187_override_refuted.

(** the same export for the second time: the first call has made the folder one of results itself *)
Theorem C187_again_refuted : forall base ini fit0 d l n u, dget string_dec ini d = Some l -> collection l -> n <> "" -> result_folder l n ->
  (forall f, In f ["cfg"; "results"; "dumps"] -> ~ In (f, File) l) -> List.length (make_subfolders l) <= 100 -> has_char "." ini = false -> n <> ini ->
  fit0 (sub (sub base ini) n) u = Ok tt ->
  snd (do_calls base ini fit0 (new_object d) [Export (Some n) u; Export (Some n) u]) =
    [Written (sub (sub base ini) n) u (sub (sub base ini) "results"); Raised AttributeError].
Proof.
  intros base ini fit0 d l n u D [(N & S & P) C] E R Q L H W F. destruct (C124_found (sub base ini) l n N S C P) as [A _]. apply A in R. apply getattr_iff in R. clear A.
  cbn [do_calls do_call]. unfold export at 1. cbn [specs new_object cfg disk]. rewrite D, choose_name, R, F by exact E.
  rewrite finalout_kept with (p := sub (sub base ini) n) (m := u) by reflexivity.
  unfold export. cbn [specs setup target cfg disk over new_object]. rewrite D. rewrite dget_dset_same.
  assert (K : complete (make_subfolders l)) by (apply made_complete; right; exact Q).
  destruct (C124_itself (sub base ini) _ K L) as [X Y]; [rewrite pname_sub; exact H|]. rewrite pname_sub in X.
  assert (Z : RTresults (sub base ini) (make_subfolders l) = [(ini, sub base ini)]).
  { destruct (RTresults (sub base ini) (make_subfolders l)) as [|[k p] [|? ?]] eqn:Z; try discriminate. cbn in Y. injection Y as ->. unfold getitem in X. cbn [dget] in X. destruct (string_dec ini k) as [->|]; [reflexivity|discriminate]. }
  rewrite Z, choose_name by exact E. unfold getattr_result. cbn [dget]. destruct (string_dec n ini); [congruence|]. reflexivity.
Qed.
Print Assumptions C187_again_refuted.

(** once it is set up, an object with an overridden dump-folder exports from this one *)
Theorem C187_set_up : forall base ini fit0 d other l u v, dget string_dec other d = Some l -> complete l -> List.length l <= 100 -> has_char "." other = false ->
  fit0 (sub base other) v = Ok tt ->
  snd (do_calls base ini fit0 (new_object d) [Override other; Finalout u; Export None v]) =
    [Nothing; Written (sub base other) u (sub (sub base other) "results"); Written (sub base other) v (sub (sub base other) "results")].
Proof.
  intros base ini fit0 d other l u v D C L P F.
  destruct (C124_itself (sub base other) l C L) as [X Y]; [rewrite pname_sub; exact P|]. rewrite pname_sub in X. apply getattr_iff in X.
  assert (R : RTresults (sub base other) l = [(other, sub base other)]).
  { destruct (RTresults (sub base other) l) as [|[k p] [|? ?]] eqn:R; try discriminate. cbn in Y. injection Y as ->. unfold getattr_result in X. cbn [dget] in X. destruct (string_dec other k) as [->|]; [reflexivity|discriminate]. }
  cbn [do_calls do_call]. unfold finalout at 1. cbv zeta. cbn [setup target over disk cfg useres new_object]. rewrite D, made_keep by exact C.
  assert (Z : dget string_dec other (dset string_dec other l d) = Some l) by apply dget_dset_same. rewrite Z. cbn [get_useres]. rewrite X. cbn [bind].
  unfold export. cbn [specs cfg disk]. rewrite Z, R. cbn [choose keys map fst List.length Nat.ltb Nat.leb]. unfold getattr_result. cbn [dget]. destruct (string_dec other other); [|congruence].
  cbn [over]. rewrite F. rewrite finalout_kept with (p := sub base other) (m := v) by reflexivity. reflexivity.
Qed.
Print Assumptions C187_set_up.

(** an export that can not be done raises: no folder, or results that can not be loaded *)
Theorem C187_raises : forall base ini fit0 st u,
  (forall n, dget string_dec (specs ini st) (disk st) = None -> export base ini fit0 st n u = (st, Raised RuntimeError)) /\
  (forall l n e, dget string_dec (specs ini st) (disk st) = Some l -> collection l -> n <> "" -> result_folder l n -> fit0 (sub (sub base (specs ini st)) n) u = Err e ->
     snd (export base ini fit0 st (Some n) u) = Raised e).
Proof.
  intros base ini fit0 st u. split.
  - intros n D. unfold export. rewrite D. reflexivity.
  - intros l n e D [(N & S & P) C] E R F. destruct (C124_found (sub base (specs ini st)) l n N S C P) as [A _]. apply A in R. apply getattr_iff in R.
    unfold export. rewrite D, choose_name, R, F by exact E. reflexivity.
Qed.
Print Assumptions C187_raises.

(** folders with two results, with one, and the calls on them *)
Definition done : list (string * node) := [("cfg", Dir []); ("results", Dir []); ("dumps", Dir [])].
Example C187_example : let base := Path true ["data"] in let ok := fun (_ : path) (_ : bool) => Ok tt in
  let two := [("a", Dir done); ("notes.txt", File); ("b", Dir done)] in
  snd (do_calls base "all" ok (new_object [("all", two); ("run", done)]) [Export None false; Export (Some "b") true; Finalout false; Export (Some "b") true]) =
    [Nothing; Written (Path true ["data"; "all"; "b"]) true (Path true ["data"; "all"; "results"]);
     Written (Path true ["data"; "all"; "b"]) true (Path true ["data"; "all"; "results"]); Raised AttributeError] /\
  snd (do_calls base "run" ok (new_object [("all", two); ("run", done)]) [Override "x"; Export None false]) =
    [Nothing; Written (Path true ["data"; "run"]) false (Path true ["data"; "x"; "results"])] /\
  snd (do_calls base "run" ok (new_object [("all", two); ("run", done); ("x", done)]) [Override "x"; Finalout true; Export None false]) =
    [Nothing; Written (Path true ["data"; "x"]) true (Path true ["data"; "x"; "results"]); Written (Path true ["data"; "x"]) false (Path true ["data"; "x"; "results"])] /\
  snd (do_calls base "run" ok (new_object [("all", two)]) [Export None false]) = [Raised RuntimeError] /\
  snd (do_calls base "all" (fun _ _ => Err KeyError) (new_object [("all", two)]) [Export (Some "b") false]) = [Raised KeyError] /\
  collection two /\ result_folder two "b" /\ complete done.
Proof.
  assert (Cd : complete done) by (intros f [<-|[<-|[<-|[]]]]; exists []; cbn; tauto).
  do 5 (split; [reflexivity|]). cbv zeta. split; [|split; [exists done; split; [cbn; tauto|exact Cd]|exact Cd]]. split.
  - split; [|split].
    + repeat constructor; cbn; intros H; repeat (destruct H as [H|H]; [discriminate|]); exact H.
    + split; [cbn; lia|]. intros n s [H|[H|[H|[]]]]; inversion H; cbn; lia.
    + intros m (s & [H|[H|[H|[]]]] & _); inversion H; reflexivity.
  - intros H. destruct (H "cfg" (or_introl eq_refl)) as [s [X|[X|[X|[]]]]]; discriminate.
Qed.
