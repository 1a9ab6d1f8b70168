(** C175: the report on the definition of a model lists all of its parts. *)
From Coq Require Import Bool Arith String Ascii List ZArith QArith Lia ZifyNat.
From Verif Require Import Base Base_Proofs Str_Model Str_Proofs Mdf_Model.
Import ListNotations.
Local Close Scope Q_scope.
Local Open Scope list_scope.
Ltac Zify.zify_post_hook ::= Z.to_euclidean_division_equations.

(** a fitted parameter; a parameter with a constant value; a parameter whose values come from the dataset *)
Definition is_fitted (kv : string * vardef) : bool := match v_fitQ (snd kv) with Bool true => true | _ => false end.
Definition is_constant (kv : string * vardef) : bool :=
  match v_fitQ (snd kv), v_val (snd kv) with Bool false, (Int _ | Float _ | Bool _) => true | _, _ => false end.
Definition is_aux (kv : string * vardef) : bool :=
  match v_fitQ (snd kv), v_val (snd kv) with Bool false, Text s => String.eqb s "auxiliary" | _, _ => false end.
(** a float or a string *)
Definition printable (v : pyval) : Prop := match v with Float _ | Text _ => True | _ => False end.
(** the non-empty cells of a column *)
Definition cells {A B} (f : A -> option B) (l : list A) : list B := flat_map (fun a => match f a with Some b => [b] | None => [] end) l.

Section L.
Variable show : nat -> Q -> string.
Variable pystr : pyval -> string.
Notation entry_of := (entry_of show pystr).
Notation fmt := (fmt show).

Lemma fmt_ok n v : printable v <-> exists s, fmt n v = Ok s.
Proof. destruct v; cbn; split; try tauto; try (intros [s H]; discriminate); eauto. Qed.
Lemma entry_ok kv : (exists e, entry_of kv = Ok e) <-> (is_fitted kv = true -> printable (v_val (snd kv)) /\ printable (v_min (snd kv)) /\ printable (v_max (snd kv))).
Proof.
  destruct kv as [k v]. unfold entry_of, is_fitted. cbn [snd]. destruct (v_fitQ v) as [| |[]| | |]; try (split; [discriminate|eauto]; fail).
  - split.
    + intros [e H] _. rewrite (fmt_ok 10 (v_val v)), (fmt_ok 5 (v_min v)), (fmt_ok 5 (v_max v)).
      destruct (fmt 10 (v_val v)) eqn:A; [|discriminate]. cbn in H.
      destruct (fmt 5 (v_min v)) eqn:B; [|discriminate]. cbn in H.
      destruct (fmt 5 (v_max v)) eqn:C; [|discriminate]. repeat split; eauto.
    + intros H. destruct (H eq_refl) as (A & B & C). apply (fmt_ok 10) in A. apply (fmt_ok 5) in B, C. destruct A as [a A], B as [b B], C as [c C].
      rewrite A. cbn. rewrite B. cbn. rewrite C. cbn. eauto.
  - split; [discriminate|]. intros _. destruct (v_val v); eauto. destruct (String.eqb s "auxiliary"); eauto.
Qed.
Lemma mapM_ok {A B} (f : A -> res B) l : (exists r, mapM f l = Ok r) <-> (forall x, In x l -> exists y, f x = Ok y).
Proof.
  induction l as [|a l IH]; [cbn; split; [contradiction|eauto]|]. cbn [mapM]. split.
  - intros [r H]. destruct (f a) eqn:E; [|discriminate]. cbn in H. destruct (mapM f l) eqn:M; [|discriminate].
    intros x [<-|I]; [eauto|]. apply IH; eauto.
  - intros H. destruct (H a (or_introl eq_refl)) as [y E]. rewrite E. cbn.
    destruct (proj2 IH) as [r M]; [intros; apply H; cbn; auto|]. rewrite M. cbn. eauto.
Qed.
Lemma entries d : forall es, mapM entry_of d = Ok es ->
  Forall2 (fun kv r => r_name r = fst kv /\ fmt 10 (v_val (snd kv)) = Ok (r_start r) /\ r_inter r = pystr (v_interp (snd kv))
     /\ exists lo hi, fmt 5 (v_min (snd kv)) = Ok lo /\ fmt 5 (v_max (snd kv)) = Ok hi /\ r_bounds r = (lo ++ "-" ++ hi)%string) (filter is_fitted d) (fits es)
  /\ fixeds es = map (fun kv => (fst kv, v_val (snd kv))) (filter is_constant d) /\ auxs es = map fst (filter is_aux d).
Proof.
  induction d as [|[k v] d IH]; intros es H; [injection H as <-; repeat split; constructor|]. cbn [mapM] in H.
  destruct (entry_of (k, v)) as [e|] eqn:E; [|discriminate]. cbn [bind] in H. destruct (mapM entry_of d) as [r|] eqn:M; [|discriminate]. injection H as <-.
  destruct (IH r eq_refl) as (A & B & C). unfold entry_of in E. cbn [filter].
  unfold is_fitted at 1, is_constant at 1, is_aux at 1. cbn [snd]. unfold fits, fixeds, auxs in *. cbn [flat_map].
  destruct (v_fitQ v) as [| |[]| | |] eqn:Q; try (injection E as <-; cbn [app]; auto; fail).
  - destruct (fmt 10 (v_val v)) eqn:X; [|discriminate]. cbn [bind] in E. destruct (fmt 5 (v_min v)) eqn:Y; [|discriminate]. cbn [bind] in E.
    destruct (fmt 5 (v_max v)) eqn:Z; [|discriminate]. cbn [bind] in E. injection E as <-. cbn [app]. split; [|auto].
    constructor; [|exact A]. cbn [r_name r_start r_bounds r_inter fst snd]. repeat split; auto. exists a0, a1. auto.
  - destruct (v_val v) as [z|q|b|s| |l] eqn:V; try (injection E as <-; cbn [app map fst snd]; rewrite ?V, ?B, ?C; auto; fail).
    destruct (String.eqb s "auxiliary"); injection E as <-; cbn [app map fst snd]; rewrite ?B, ?C; auto.
Qed.
End L.

Lemma cells_nth {A} (l : list A) : forall m, length l <= m -> flat_map (fun i => match nth_error l i with Some b => [b] | None => [] end) (seq 0 m) = l.
Proof.
  induction l as [|a l IH]; intros m H.
  - induction (seq 0 m) as [|x r IHr]; [reflexivity|]. cbn. destruct x; exact IHr.
  - destruct m; [cbn in H; lia|]. cbn [seq flat_map nth_error app]. f_equal. rewrite <- seq_shift, flat_map_concat_map, map_map, <- flat_map_concat_map.
    cbn [nth_error]. apply IH. cbn in H. lia.
Qed.
Lemma columns_ok fixed aux : cells fst (columns fixed aux) = fixed /\ cells snd (columns fixed aux) = aux.
Proof.
  unfold columns, cells. rewrite !flat_map_concat_map, !map_map, <- !flat_map_concat_map. cbn [fst snd].
  split; apply cells_nth; destruct (Nat.ltb_spec (length aux) (length fixed)); lia.
Qed.

(** The table of fitted parameters has one row for each of them, in their order, with start value and boundaries; the
    columns of constants and of auxiliary datasets have one cell for each of them, with the values used. *)
Theorem C175_parameters : forall show pystr d vp sp kw t, model_definition show pystr d vp sp kw = Ok t ->
  Forall2 (fun kv r => r_name r = fst kv /\ fmt show 10 (v_val (snd kv)) = Ok (r_start r) /\ r_inter r = pystr (v_interp (snd kv))
     /\ exists lo hi, fmt show 5 (v_min (snd kv)) = Ok lo /\ fmt show 5 (v_max (snd kv)) = Ok hi /\ r_bounds r = (lo ++ "-" ++ hi)%string)
    (filter is_fitted d) (t_fitted t)
  /\ cells fst (t_columns t) = map (fun kv => (fst kv, v_val (snd kv))) (filter is_constant d)
  /\ cells snd (t_columns t) = map fst (filter is_aux d).
Proof.
  intros show pystr d vp sp kw t H. unfold model_definition in H. destruct (mapM (entry_of show pystr) d) as [es|] eqn:E; [|discriminate].
  injection H as <-. cbn [t_fitted t_columns]. destruct (columns_ok (fixeds es) (auxs es)) as [-> ->]. apply entries, E.
Qed.
Print Assumptions C175_parameters.

(** There is a report exactly if start values and boundaries of all fitted parameters are floats (or strings). *)
Theorem C175_exists : forall show pystr d vp sp kw, (exists t, model_definition show pystr d vp sp kw = Ok t) <->
  (forall k v, In (k, v) d -> is_fitted (k, v) = true -> printable (v_val v) /\ printable (v_min v) /\ printable (v_max v)).
Proof.
  intros. unfold model_definition. transitivity (exists es, mapM (entry_of show pystr) d = Ok es).
  - split; intros [x H]; [|rewrite H; cbn; eauto]. destruct (mapM (entry_of show pystr) d); [eauto|discriminate].
  - rewrite mapM_ok. split.
    + intros H k v I. exact (proj1 (entry_ok show pystr (k, v)) (H _ I)).
    + intros H [k v] I. apply entry_ok. exact (H k v I).
Qed.
Print Assumptions C175_exists.

(** Integer start values or boundaries (which the fit accepts) stop the report with a ValueError, missing boundaries and
    lists of start values with a TypeError, if the parameters before are printable. *)
Theorem C175_integers_refuted : forall show pystr d1 k v d2 vp sp kw z,
  (forall k' v', In (k', v') d1 -> is_fitted (k', v') = true -> printable (v_val v') /\ printable (v_min v') /\ printable (v_max v')) ->
  v_fitQ v = Bool true ->
  (v_val v = Int z \/ printable (v_val v) /\ v_min v = Int z \/ printable (v_val v) /\ printable (v_min v) /\ v_max v = Int z ->
     model_definition show pystr (d1 ++ (k, v) :: d2) vp sp kw = Err ValueError)
  /\ ((exists l, v_val v = Seq l) \/ printable (v_val v) /\ v_min v = PyNone -> model_definition show pystr (d1 ++ (k, v) :: d2) vp sp kw = Err TypeError).
Proof.
  intros show pystr d1 k v d2 vp sp kw z P Q.
  assert (G : forall e, entry_of show pystr (k, v) = Err e -> model_definition show pystr (d1 ++ (k, v) :: d2) vp sp kw = Err e).
  { intros e E. unfold model_definition. assert (M : mapM (entry_of show pystr) (d1 ++ (k, v) :: d2) = Err e); [|rewrite M; reflexivity].
    induction d1 as [|[k' v'] d IH]; cbn [app mapM]; [rewrite E; reflexivity|].
    destruct (proj2 (entry_ok show pystr (k', v'))) as [x X]; [apply P; cbn; auto|]. rewrite X. cbn [bind]. rewrite IH; [reflexivity|].
    intros k2 v2 I. apply P. cbn. auto. }
  split; intros H; apply G; unfold entry_of; rewrite Q.
  - destruct H as [A|[[A B]|(A & B & C)]].
    + rewrite A. reflexivity.
    + apply (fmt_ok show 10) in A. destruct A as [a ->]. cbn [bind]. rewrite B. reflexivity.
    + apply (fmt_ok show 10) in A. apply (fmt_ok show 5) in B. destruct A as [a ->], B as [b ->]. cbn [bind]. rewrite C. reflexivity.
  - destruct H as [[l A]|[A B]]; [rewrite A; reflexivity|]. apply (fmt_ok show 10) in A. destruct A as [a ->]. cbn [bind]. rewrite B. reflexivity.
Qed.
Print Assumptions C175_integers_refuted.

Lemma combine_fst {A B} (l : list A) : forall (m : list B), length l <= length m -> map fst (combine l m) = l.
Proof. induction l as [|a l IH]; intros [|b m] H; cbn in *; try lia; [reflexivity..|]. rewrite IH; [reflexivity|lia]. Qed.
Lemma combine_snd {A B} (l : list A) : forall (m : list B), length m <= length l -> map snd (combine l m) = m.
Proof. induction l as [|a l IH]; intros [|b m] H; cbn in *; try lia; [reflexivity..|]. rewrite IH; [reflexivity|lia]. Qed.
Lemma pad_length {A} n (x : A) l : length (pad n x l) = Nat.max n (length l).
Proof. unfold pad. rewrite app_length, repeat_length. lia. Qed.
Lemma in_combine_nth {A B} (l : list A) (m : list B) i a b : nth_error l i = Some a -> nth_error m i = Some b -> In (a, b) (combine l m).
Proof. revert m i. induction l as [|x l IH]; intros [|y m] [|i] H K; cbn in *; try discriminate; [left; congruence|right; eauto]. Qed.
Lemma nth_pad {A} n (x : A) l i a : nth_error l i = Some a -> nth_error (pad n x l) i = Some a.
Proof. intros H. unfold pad. rewrite nth_error_app1; [exact H|]. apply nth_error_Some. congruence. Qed.
Lemma nth_combine {A B} (l : list A) (m : list B) i a b : nth_error l i = Some a -> nth_error m i = Some b -> nth_error (combine l m) i = Some (a, b).
Proof. revert m i. induction l as [|x l IH]; intros [|y m] [|i] H K; cbn in *; try discriminate; [congruence|auto]. Qed.

(** Each property of V and of SRF has its cells in the report, with name and value. *)
Theorem C175_scatter : forall show pystr d vp sp kw t, model_definition show pystr d vp sp kw = Ok t -> NoDup (keys vp) -> NoDup (keys sp) ->
  (forall k x, In (k, x) vp -> k <> "V_name"%string -> exists r n, In r (snd (t_scatter t)) /\ fst r = ((k ++ blanks n ++ ":")%string, x))
  /\ (forall k x, In (k, x) sp -> k <> "SRF_name"%string -> exists r n, In r (snd (t_scatter t)) /\ snd r = ((k ++ blanks n ++ ":")%string, x))
  /\ (forall x, In ("V_name"%string, x) vp -> fst (fst (t_scatter t)) = x) /\ (forall x, In ("SRF_name"%string, x) sp -> snd (fst (t_scatter t)) = x).
Proof.
  intros show pystr d vp sp kw t H NV NS. unfold model_definition in H. destruct (mapM (entry_of show pystr) d) as [es|]; [|discriminate].
  injection H as <-. cbn [t_scatter]. unfold scatter, pop. cbn [fst snd].
  set (v := ddel string_dec "V_name" vp). set (s := ddel string_dec "SRF_name" sp).
  assert (D : forall (e : dict string string) n k x, NoDup (keys e) -> In (k, x) e -> k <> n -> In (k, x) (ddel string_dec n e)).
  { intros e n k x N I Ne. apply (dget_some_in string_dec). rewrite dget_ddel_other by exact Ne. apply dget_in_nodup; assumption. }
  assert (LAB : forall l i a, nth_error l i = Some a -> exists n, nth_error (labels l) i = Some (a ++ blanks n ++ ":")%string).
  { intros l i a X. unfold labels. exists (width l - String.length a). rewrite nth_error_map, X. cbn [option_map]. unfold ljust.
    f_equal. rewrite sapp_assoc. reflexivity. }
  assert (LL : forall l, length (labels l) = length l) by (intros; unfold labels; apply map_length).
  assert (KL : forall e : dict string string, length (keys e) = length e) by (intros; unfold keys; apply map_length).
  set (A := combine (pad _ _ _) (pad _ _ _)). set (B := combine (pad _ _ _) (pad _ _ _)).
  assert (LA : length A = Nat.max (length v) (length s)).
  { unfold A. rewrite combine_length, !pad_length, !LL, !KL, !map_length. lia. }
  assert (LB : length B = Nat.max (length v) (length s)).
  { unfold B. rewrite combine_length, !pad_length, !LL, !KL, !map_length. lia. }
  split; [|split; [|split]].
  - intros k x I Ne. apply (D vp "V_name"%string k x NV I) in Ne. fold v in Ne. destruct (In_nth_error _ _ Ne) as [i E].
    destruct (LAB (keys v) i k) as [n L]; [unfold keys; rewrite nth_error_map, E; reflexivity|].
    assert (EA : nth_error A i = Some ((k ++ blanks n ++ ":")%string, x)).
    { unfold A. apply nth_combine; apply nth_pad; [exact L|]. rewrite nth_error_map, E. reflexivity. }
    assert (Li : i < length B). { rewrite LB, <- LA. apply nth_error_Some. congruence. }
    destruct (nth_error B i) as [b|] eqn:EB; [|apply nth_error_None in EB; lia].
    exists ((k ++ blanks n ++ ":")%string, x, b), n. split; [|reflexivity]. apply (in_combine_nth _ _ i); assumption.
  - intros k x I Ne. apply (D sp "SRF_name"%string k x NS I) in Ne. fold s in Ne. destruct (In_nth_error _ _ Ne) as [i E].
    destruct (LAB (keys s) i k) as [n L]; [unfold keys; rewrite nth_error_map, E; reflexivity|].
    assert (EB : nth_error B i = Some ((k ++ blanks n ++ ":")%string, x)).
    { unfold B. apply nth_combine; apply nth_pad; [exact L|]. rewrite nth_error_map, E. reflexivity. }
    assert (Li : i < length A). { rewrite LA, <- LB. apply nth_error_Some. congruence. }
    destruct (nth_error A i) as [a|] eqn:EA; [|apply nth_error_None in EA; lia].
    exists (a, ((k ++ blanks n ++ ":")%string, x)), n. split; [|reflexivity]. apply (in_combine_nth _ _ i); assumption.
  - intros x I. rewrite (dget_in_nodup string_dec _ _ _ NV I). reflexivity.
  - intros x I. rewrite (dget_in_nodup string_dec _ _ _ NS I). reflexivity.
Qed.
Print Assumptions C175_scatter.

Lemma halves {V} (kw : list (string * V)) : let n := ((length kw + 1) / 2) in
  length (firstn n kw) = n /\ length (skipn n kw) = length kw - n /\ kw = firstn n kw ++ skipn n kw.
Proof. cbv zeta. rewrite firstn_length, skipn_length, firstn_skipn. split; [|split]; [lia|reflexivity|reflexivity]. Qed.

(** An even number of keywords of the optimizer is listed completely: first column, then second column. *)
Theorem C175_lsq : forall show pystr d vp sp kw t, model_definition show pystr d vp sp kw = Ok t -> Nat.even (length kw) = true ->
  map fst (t_lsq t) ++ map snd (t_lsq t) = kw.
Proof.
  intros show pystr d vp sp kw t H E. unfold model_definition in H. destruct (mapM (entry_of show pystr) d) as [es|]; [|discriminate].
  injection H as <-. cbn [t_lsq]. unfold lsq. destruct (halves kw) as (A & B & C). apply Nat.even_spec in E. destruct E as [m E].
  rewrite combine_fst, combine_snd; [symmetry; exact C| |]; rewrite A, B; lia.
Qed.
Print Assumptions C175_lsq.

(** With an odd number of keywords the one in the middle is missing (a single keyword is not shown at all). *)
Theorem C175_lsq_refuted : forall show pystr d vp sp kw t, model_definition show pystr d vp sp kw = Ok t -> Nat.odd (length kw) = true ->
  exists x, kw = map fst (t_lsq t) ++ x :: map snd (t_lsq t).
Proof.
  intros show pystr d vp sp kw t H E. unfold model_definition in H. destruct (mapM (entry_of show pystr) d) as [es|]; [|discriminate].
  injection H as <-. cbn [t_lsq]. unfold lsq. destruct (halves kw) as (A & B & C). apply Nat.odd_spec in E. destruct E as [m E].
  set (n := ((length kw + 1) / 2)) in *. set (a := firstn n kw) in *. set (b := skipn n kw) in *.
  assert (N : n = S m) by (unfold n; lia). clearbody a b. clearbody n. destruct (@exists_last _ a) as (a' & x & Ea). { intros Z. rewrite Z in A. cbn in A. lia. }
  exists x. rewrite Ea in A. rewrite app_length in A. cbn in A. rewrite (combine_snd a b).
  2: { rewrite Ea, app_length. cbn. lia. }
  assert (M : map fst (combine a b) = a').
  { rewrite Ea. assert (L : length a' = length b) by lia. clear - L. revert b L. induction a' as [|y a' IH]; intros [|z b] L; cbn in *; try discriminate; [reflexivity|].
    f_equal. apply IH. lia. }
  rewrite M. rewrite C at 1. rewrite Ea, <- app_assoc. reflexivity.
Qed.
Print Assumptions C175_lsq_refuted.

(** a model with one fitted, one constant and two auxiliary parameters *)
Example C175_example : let show := fun (n : nat) (q : Q) => "0.5"%string in let pystr := fun v => match v with Text s => s | Int _ => "3"%string | _ => "False"%string end in
  let var := mkvardef (Bool true) (Float (1 # 2)) (Text "M + manual") (Float 0) (Float 1) (Bool false) in
  let d := [("omega", var); ("N", mkvardef (Bool false) (Int 3) PyNone PyNone PyNone PyNone); ("t", mkvardef (Bool false) (Text "auxiliary") PyNone PyNone PyNone PyNone);
            ("tau", mkvardef (Bool false) (Text "auxiliary") PyNone PyNone PyNone PyNone)]%string in
  let vp := [("V_name", "HenyeyGreenstein"); ("t", "0.3"); ("ncoefs", "8")]%string in let sp := [("SRF_name", "Isotropic")]%string in
  let kw := [("ftol", Float (1 # 100)); ("gtol", Float (1 # 10)); ("max_nfev", Int 3)]%string in
  model_definition show pystr d vp sp kw =
    Ok (mkreport [mkrow "omega" "0.5" "M & manual" "0.5-0.5" "False"]
      (("HenyeyGreenstein", "Isotropic"), [(("t     :", "0.3"), ("", "")); (("ncoefs:", "8"), ("", ""))])%string
      [(Some ("N", Int 3), Some "t"); (None, Some "tau")]%string [(("ftol", Float (1 # 100)), ("max_nfev", Int 3))]%string)
  /\ model_definition show pystr [("omega"%string, mkvardef (Bool true) (Float (1 # 2)) PyNone (Int 0) (Int 1) (Bool false))] vp sp kw = Err ValueError.
Proof. split; reflexivity. Qed.
