(** Loading the fits that processing runs have stored (C181) *)
From Coq Require Import String List ZArith Bool Arith Lia.
From Verif Require Import Base Base_Proofs Ids_Model Ids_Spec Ids_Props Pip_Model Pag_Model Pag_Spec E2e_Model E2e_Spec E2e_Proofs E2e_Props
  Pip_Spec Pip_Props Mf_Model Mf_Spec Mf_Proofs Lof_Model Lof_Spec Lof_Proofs.
Import ListNotations.
Local Open Scope list_scope.

Section Help.
Context {A V D Arg : Type}.
Variable print : A -> string.
Variable literal_eval : string -> res A.
Variable raw_id feature_id : Arg -> string.
Variable ok : list Arg -> Prop.
Variable fit_of : Arg -> fit A V D.
Variable c : @container (Lof_Model.content V D).
Variable log : list (Arg * Z * list (string * list (prow (Lof_Model.content V D)))).
Hypothesis R : runs name_of raw_id feature_id ok c log.
Hypothesis L : forall b m ts, In (b, m, ts) log -> ts = export print m (fit_of b).

Lemma attrs_ok attrs : (forall k x, In (k, x) attrs -> literal_eval (print x) = Ok x) -> read_attrs literal_eval (printed print attrs) = Ok attrs.
Proof.
  unfold read_attrs, printed. induction attrs as [|[k x] r IH]; intros H; [reflexivity|]. cbn. rewrite (H k x (or_introl eq_refl)). cbn.
  rewrite IH by (intros; eapply H; right; eassumption). reflexivity.
Qed.
Lemma cfg_false : (forall b m ts, In (b, m, ts) log -> exists attrs r, f_confs (fit_of b) = Single attrs r) -> has_cfg c = false.
Proof.
  intros S. unfold has_cfg. destruct (table "init_dict" c) as [|x l] eqn:T; [reflexivity|].
  destruct (table_some print raw_id feature_id ok fit_of c log R L "init_dict" x) as (b & m & ts & I & K); [rewrite T; left; reflexivity|].
  destruct (S b m ts I) as (attrs & r & E). unfold rowsof in K. cbn in K. rewrite E in K. destruct K as [K|[]]. rewrite <- K. reflexivity.
Qed.
Lemma cfg_true a n ts : (forall b m ts, In (b, m, ts) log -> exists l, f_confs (fit_of b) = Multi l) -> In (a, n, ts) log -> (exists x l, f_confs (fit_of a) = Multi (x :: l)) -> has_cfg c = true.
Proof.
  intros S I (x & l & E). unfold has_cfg. destruct (table "init_dict" c) as [|y t] eqn:T.
  - exfalso. apply (init_table print raw_id feature_id ok fit_of c log R L a n ts I); [rewrite E; discriminate|exact T].
  - destruct (table_some print raw_id feature_id ok fit_of c log R L "init_dict" y) as (b & m & ts' & I' & K); [rewrite T; left; reflexivity|].
    destruct (S b m ts' I') as (l' & E'). unfold rowsof in K. cbn in K. rewrite app_nil_r, E' in K. cbn in K. apply in_map_iff in K as (z & <- & _). reflexivity.
Qed.
Lemma load_rows (d : option (list D)) :
  load_data (V := V) (match data_rows (V := V) d with [] => None | l => Some l end) = Ok (option_map (map CData) (some_rows d)).
Proof. destruct d as [[|x l]|]; reflexivity. Qed.
Lemma to_row_single (l : list (Mf_Model.row V)) k :
  map (fun r => cell_at r k) (map to_row (map (fun r => CRes (D := D) None (r_cells r)) l)) = map (fun r => cell_at r k) l.
Proof. rewrite !map_map. reflexivity. Qed.
End Help.

(** After any number of complete runs (any numbers of processes, any interleaving, features that fail, features that were
    there before) on fits with the same parameters: loading a fit by its number gives its arguments, its dataset, its
    auxiliary data, its reader_arg, and its results without NaN - provided no other fit has a part that this one lacks. *)
Theorem C181_single : forall A V D Arg (print : A -> string) literal_eval (raw_id feature_id : Arg -> string) ok (fit_of : Arg -> fit A V D)
    (c : @container (Lof_Model.content V D)) log ks a n ts attrs r,
  runs name_of raw_id feature_id ok c log -> (forall b m ts, In (b, m, ts) log -> ts = export print m (fit_of b)) ->
  (forall b m ts, In (b, m, ts) log -> exists x s, f_confs (fit_of b) = Single x s /\ forall rd, s = Some rd -> map fst rd = ks) -> NoDup ks ->
  In (a, n, ts) log -> f_confs (fit_of a) = Single attrs r -> (forall k x, In (k, x) attrs -> literal_eval (print x) = Ok x) ->
  (exists s, dget string_dec "ID"%string (f_arg (fit_of a)) = Some s) ->
  (forall p b m ts', In (b, m, ts') log -> has p (fit_of b) -> has p (fit_of a)) ->
  load_number literal_eval c n =
    Ok (Some (mkloaded (get_ID (get_ID (raw_id a))) (LSingle attrs (option_map clean (some_values r)))
      (option_map (map CData) (some_rows (f_data (fit_of a)))) (option_map (map CData) (some_rows (f_aux (fit_of a)))) (f_arg (fit_of a)))).
Proof.
  intros A V D Arg print literal_eval raw_id feature_id ok fit_of c log ks a n ts attrs r R L S NK I E P ID H.
  assert (HC : has_cfg c = false).
  { apply (cfg_false print raw_id feature_id ok fit_of c log R L). intros b m ts' J. destruct (S b m ts' J) as (x & s & X & _). eauto. }
  assert (T : table "init_dict" c <> []) by (apply (init_table print raw_id feature_id ok fit_of c log R L a n ts I); rewrite E; discriminate).
  unfold load_number. rewrite HC.
  rewrite (part_here print raw_id feature_id ok fit_of c log R L false "init_dict" a n ts I T).
  rewrite (part_piece print raw_id feature_id ok fit_of c log R L Data a n ts I (H Data) : part true c "dataset" n = _).
  rewrite (part_piece print raw_id feature_id ok fit_of c log R L Aux a n ts I (H Aux) : part true c "aux_data" n = _).
  rewrite (part_piece print raw_id feature_id ok fit_of c log R L Results a n ts I (H Results) : part true c "res_dict" n = _).
  destruct (table "init_dict" c) as [|x0 t0]; [congruence|]. clear T x0 t0.
  rewrite (id_here raw_id feature_id ok c log R a n ts I). cbn [bind].
  rewrite (arg_here print raw_id feature_id ok fit_of c log R L a n ts _ I ID).
  unfold rowsof. cbn [key String.eqb Ascii.eqb Bool.eqb app]. rewrite !app_nil_r, E. cbn [init_rows app loc bind].
  rewrite (attrs_ok print literal_eval attrs P). cbn [bind]. rewrite !load_rows. cbn [bind]. cbn [res_rows].
  destruct r as [rd|]; [|reflexivity].
  destruct (Nat.eq_dec (height rd) 0) as [Z|Z].
  - assert (X : some_values (Some rd) = None).
    { unfold some_values. assert (Y : forallb (fun kv : string * list (cell V) => Nat.eqb (List.length (snd kv)) 0) rd = true); [|rewrite Y; reflexivity].
      apply forallb_forall. intros [k l] K. destruct l as [|v l]; [reflexivity|]. exfalso. assert (0 < height rd); [|lia]. apply height_pos. eauto. }
    rewrite X. destruct rd as [|q rd]; [reflexivity|]. destruct (frame_ok n "" (q :: rd)) as (t & Et & Lt); [discriminate|]. rewrite Et, Z in *. destruct t; [reflexivity|discriminate].
  - assert (X : some_values (Some rd) = Some rd).
    { unfold some_values. assert (Y : forallb (fun kv : string * list (cell V) => Nat.eqb (List.length (snd kv)) 0) rd = false); [|rewrite Y; reflexivity].
      destruct (proj1 (height_pos rd)) as (k & x & l & K); [lia|]. destruct (forallb _ rd) eqn:F; [|reflexivity]. rewrite forallb_forall in F. specialize (F _ K). discriminate F. }
    rewrite X. destruct (frame_ok n "" rd) as (t & Et & Lt); [intros ->; cbn in Z; congruence|]. rewrite Et.
    assert (Nt : exists q t1, t = q :: t1) by (destruct t as [|q t1]; [cbn [List.length] in Lt; lia|eauto]). destruct Nt as (q & t1 & Eqt). set (page := map (fun r0 => CRes (D := D) None (r_cells r0)) t) in *.
    assert (Np : page <> []) by (unfold page; rewrite Eqt; discriminate).
    assert (Hp : match page with [] => None | c0 :: l0 => Some (c0 :: l0) end = Some page) by (destruct page; [congruence|reflexivity]).
    rewrite Hp. clear Hp.
    assert (Hl : loc page = Ok page) by (destruct page; [congruence|reflexivity]). rewrite Hl. cbn [bind]. do 5 f_equal. cbn [option_map]. f_equal.
    assert (C : columns (map to_row (map p_val (table "res_dict" c))) = ks).
    { apply columns_same; [exact NK| |].
      - assert (Q := log_rows print raw_id feature_id ok fit_of c log R L a n ts "res_dict"%string (CRes None (r_cells q)) I).
        intros Y. destruct (table "res_dict" c); [|discriminate]. apply Q. unfold rowsof. cbn. rewrite E. cbn. rewrite Et, Eqt. left. reflexivity.
      - intros w W. apply in_map_iff in W as (y & <- & W). apply in_map_iff in W as (pr & <- & W).
        destruct (table_some print raw_id feature_id ok fit_of c log R L "res_dict" pr W) as (b & m & ts' & J & K).
        destruct (S b m ts' J) as (x & s & Eb & Kb). unfold rowsof in K. cbn in K. rewrite Eb in K. cbn in K. destruct s as [rd'|]; [|destruct K].
        destruct (res_frame m "" rd') as [t'|] eqn:E'; [|destruct K]. apply in_map_iff in K as (r0 & <- & K). cbn [to_row r_cells].
        apply res_frame_rows in E' as [_ ->]. apply in_map_iff in K as (i & <- & _). cbn. rewrite map_map. cbn. apply Kb. reflexivity. }
    rewrite C. assert (Kr : map fst rd = ks). { destruct (S a n ts I) as (x & s & Ea & Ka). rewrite E in Ea. injection Ea as <- <-. apply Ka. reflexivity. }
    unfold values, clean. rewrite <- Kr, map_map. apply map_ext_in. intros [k l] Kl. cbn [fst snd]. f_equal. unfold page. rewrite to_row_single, (frame_values _ _ _ _ k Et).
    assert (Y : dget string_dec k rd = Some (l : list (cell V))); [|rewrite Y; reflexivity]. apply (dget_in_nodup string_dec); [rewrite <- Kr in NK; exact NK|exact Kl].
Qed.
Print Assumptions C181_single.

Lemma reset_rows {V D} (rs : list (Mf_Model.row V)) cfg :
  filter (fun r => String.eqb (r_cfg r) cfg) (map to_row (map (fun r => CRes (D := D) (Some (r_cfg r)) (r_cells r)) rs)) =
  map (fun r => Mf_Model.mkrow 0 (r_cfg r) (r_cells r)) (filter (fun r => String.eqb (r_cfg r) cfg) rs).
Proof. induction rs as [|r rs IH]; [reflexivity|]. cbn. destruct (String.eqb (r_cfg r) cfg); cbn; rewrite IH; reflexivity. Qed.
Lemma filter_cfg {V} n (rs : list (Mf_Model.row V)) cfg : (forall r, In r rs -> r_id r = n) ->
  filter (fun r => String.eqb (r_cfg r) cfg) rs = filter (fun r => Z.eqb (r_id r) n && String.eqb (r_cfg r) cfg) rs.
Proof. intros H. apply filter_ext_in. intros r I. rewrite (H r I), Z.eqb_refl. reflexivity. Qed.

(** The same for fits with several configurations (any parameters in each of them), if every configuration has results. *)
Theorem C181_multi : forall A V D Arg (print : A -> string) literal_eval (raw_id feature_id : Arg -> string) ok (fit_of : Arg -> fit A V D)
    (c : @container (Lof_Model.content V D)) log a n ts l,
  runs name_of raw_id feature_id ok c log -> (forall b m ts, In (b, m, ts) log -> ts = export print m (fit_of b)) ->
  (forall b m ts, In (b, m, ts) log -> exists l, f_confs (fit_of b) = Multi l) ->
  In (a, n, ts) log -> f_confs (fit_of a) = Multi l -> l <> [] -> NoDup (map fst l) -> (forall x, In x l -> valid_name (fst x)) ->
  (forall x k v, In x l -> In (k, v) (fst (snd x)) -> literal_eval (print v) = Ok v) ->
  (exists s, dget string_dec "ID"%string (f_arg (fit_of a)) = Some s) ->
  (forall p b m ts', In (b, m, ts') log -> has p (fit_of b) -> has p (fit_of a)) ->
  (has Results (fit_of a) -> forall x, In x l -> exists rd k v vs, snd (snd x) = Some rd /\ In (k, v :: vs) rd) ->
  exists cs,
  load_number literal_eval c n =
    Ok (Some (mkloaded (get_ID (get_ID (raw_id a))) (LMulti cs)
      (option_map (map CData) (some_rows (f_data (fit_of a)))) (option_map (map CData) (some_rows (f_aux (fit_of a)))) (f_arg (fit_of a)))) /\
  Forall2 (fun x y => fst y = fst x /\ fst (snd y) = fst (snd x) /\
    match snd (snd y) with
    | None => ~ has Results (fit_of a)
    | Some d => exists rd, snd (snd x) = Some rd /\ forall k, dget string_dec k d =
        match dget string_dec k rd with Some vs => match numbers vs with [] => None | w => Some w end | None => None end
    end) l cs.
Proof.
  intros A V D Arg print literal_eval raw_id feature_id ok fit_of c log a n ts l R L S I E NE NN VN P ID H HR.
  assert (HC : has_cfg c = true).
  { apply (cfg_true print raw_id feature_id ok fit_of c log R L a n ts S I). destruct l as [|x l]; [congruence|eauto]. }
  assert (T : table "init_dict" c <> []) by (apply (init_table print raw_id feature_id ok fit_of c log R L a n ts I); rewrite E; destruct l; [congruence|discriminate]).
  unfold load_number. rewrite HC.
  rewrite (part_here print raw_id feature_id ok fit_of c log R L true "init_dict" a n ts I T).
  rewrite (part_piece print raw_id feature_id ok fit_of c log R L Data a n ts I (H Data) : part true c "dataset" n = _).
  rewrite (part_piece print raw_id feature_id ok fit_of c log R L Aux a n ts I (H Aux) : part true c "aux_data" n = _).
  rewrite (part_piece print raw_id feature_id ok fit_of c log R L Results a n ts I (H Results) : part true c "res_dict" n = _).
  destruct (table "init_dict" c) as [|x0 t0]; [congruence|]. clear T x0 t0.
  rewrite (id_here raw_id feature_id ok c log R a n ts I). cbn [bind].
  rewrite (arg_here print raw_id feature_id ok fit_of c log R L a n ts _ I ID).
  pose proof (rows_has print Results n (fit_of a)) as RH.
  unfold rowsof in RH |- *. cbn [key String.eqb Ascii.eqb Bool.eqb app] in RH |- *. rewrite !app_nil_r. rewrite E in RH |- *. cbn [init_rows].
  set (rows0 := map (fun x => CInit (Some (fst x)) (printed print (fst (snd x)))) l).
  assert (Hl : loc rows0 = Ok rows0) by (unfold rows0; destruct l; [congruence|reflexivity]). rewrite Hl. cbn [bind]. rewrite !load_rows. unfold rows0. clear Hl rows0.
  set (cols := columns (map to_row (map p_val (table "res_dict" c)))).
  set (results := match res_rows n (Multi l) with [] => None | c0 :: l0 => Some (c0 :: l0) end).
  assert (G : exists cs, mapM (load_cfg literal_eval cols results) (map (fun x => CInit (Some (fst x)) (printed print (fst (snd x)))) l) = Ok cs /\
     Forall2 (fun x y => fst y = fst x /\ fst (snd y) = fst (snd x) /\
       match snd (snd y) with
       | None => ~ has Results (fit_of a)
       | Some d => exists rd, snd (snd x) = Some rd /\ forall k, dget string_dec k d =
           match dget string_dec k rd with Some vs => match numbers vs with [] => None | w => Some w end | None => None end
       end) l cs).
  2:{ destruct G as (cs & M & F). exists cs. rewrite M. cbn [bind]. split; [reflexivity|exact F]. }
  assert (One : forall x, In x l -> exists y, load_cfg literal_eval cols results (CInit (Some (fst x)) (printed print (fst (snd x)))) = Ok y /\
     fst y = fst x /\ fst (snd y) = fst (snd x) /\
     match snd (snd y) with
     | None => ~ has Results (fit_of a)
     | Some d => exists rd, snd (snd x) = Some rd /\ forall k, dget string_dec k d =
         match dget string_dec k rd with Some vs => match numbers vs with [] => None | w => Some w end | None => None end
     end).
  2:{ clearbody results. clear - One. induction l as [|x l IH]; [exists []; split; [reflexivity|constructor]|]. destruct (One x (or_introl eq_refl)) as (y & Ey & Py).
      destruct IH as (cs & Ec & Pc); [intros; apply One; right; assumption|]. exists (y :: cs). cbn [map mapM]. rewrite Ey. cbn [bind]. rewrite Ec. split; [reflexivity|]. constructor; assumption. }
  intros x Ix. unfold load_cfg. rewrite (attrs_ok print literal_eval (fst (snd x)) (fun k v => P x k v Ix)). cbn [bind].
  destruct (VN x Ix) as [V1 V2]. rewrite V1, (proj2 (inb_false string_dec (fst x) mf_dict) V2). cbn [negb andb].
  destruct (res_rows n (Multi l)) as [|q page] eqn:Er; unfold results; clear results.
  - cbn [bind]. eexists. split; [reflexivity|]. cbn. split; [reflexivity|]. split; [reflexivity|]. apply RH. reflexivity.
  - assert (HH : has Results (fit_of a)).
    { destruct (has_dec Results (fit_of a)) as [Q|Q]; [exact Q|]. apply RH in Q. discriminate Q. }
    destruct (HR HH x Ix) as (rd & k0 & v0 & vs0 & Ex & P0).
    cbn in Er. destruct (mapM _ l) as [cs|] eqn:M; [|discriminate]. destruct (multi_frame n cs) as [rs|] eqn:Mf; [|discriminate].
    assert (F : Forall2 (fun x y => fst y = fst x /\ snd (snd x) = Some (snd y)) l cs).
    { clear - M. revert cs M. induction l as [|x l IH]; intros cs E; cbn in E; [injection E as <-; constructor|]. destruct (snd (snd x)) as [rd|] eqn:Er; [|discriminate]. cbn in E.
      destruct (mapM _ l) as [cs'|]; [|discriminate]. cbn in E. injection E as <-. constructor; [cbn; auto|apply IH; reflexivity]. }
    assert (Kc : map fst cs = map fst l) by (clear - F; induction F as [|x y l cs [F1 _] F IH]; [reflexivity|cbn; rewrite F1, IH; reflexivity]).
    assert (Ic : In (fst x, rd) cs).
    { clear - F Ix Ex. induction F as [|x' y l cs [F1 F2] F IH]; [destruct Ix|]. destruct Ix as [->|Ix]; [|right; auto]. left. destruct y as [s0 r0]. cbn [fst snd] in F1, F2. subst s0. rewrite Ex in F2. injection F2 as ->. reflexivity. }
    rewrite <- Kc in NN. destruct (multi_frame_filter n cs rs Mf NN (fst x) rd Ic) as [MF1 MF2].
    assert (Hl : loc (q :: page) = Ok (q :: page)) by reflexivity. rewrite Hl. cbn [bind]. rewrite <- Er, reset_rows, (filter_cfg n rs (fst x) MF2).
    set (rs1 := filter (fun r => Z.eqb (r_id r) n && String.eqb (r_cfg r) (fst x)) rs) in *. symmetry in MF1.
    assert (N1 : rs1 <> []).
    { apply res_frame_rows in MF1 as [_ X]. rewrite X. assert (0 < height rd) by (apply height_pos; eauto). destruct (height rd); [lia|discriminate]. }
    assert (N2 : exists r1 t1, rs1 = r1 :: t1) by (destruct rs1 as [|r1 t1]; [congruence|eauto]). destruct N2 as (r1 & t1 & N2).
    rewrite N2. cbn [map bind]. eexists. split; [reflexivity|]. cbn [fst snd]. split; [reflexivity|]. split; [reflexivity|]. exists rd. split; [exact Ex|].
    intros k. unfold values.
    change (Mf_Model.mkrow 0 (r_cfg r1) (r_cells r1) :: map (fun r => Mf_Model.mkrow 0 (r_cfg r) (r_cells r)) t1) with (map (fun r => Mf_Model.mkrow 0 (r_cfg r) (r_cells r)) (r1 :: t1)).
    rewrite <- N2.
    rewrite (dget_filter_map (fun k => dropna (map (fun r => cell_at r k) (map (fun r => Mf_Model.mkrow 0 (r_cfg r) (r_cells r)) rs1))) cols k).
    assert (X : dropna (map (fun r => cell_at r k) (map (fun r => Mf_Model.mkrow 0 (r_cfg r) (r_cells r)) rs1)) = match dget string_dec k rd with Some vs => numbers vs | None => [] end).
    { rewrite map_map. apply (frame_values _ _ _ _ k MF1). }
    rewrite X. destruct (dget string_dec k rd) as [vs|] eqn:Ek; [|reflexivity]. destruct (numbers vs) as [|w ws]; [reflexivity|].
    destruct (in_dec string_dec k cols) as [|NC]; [reflexivity|]. exfalso. apply NC. unfold cols. apply columns_in.
    exists (Mf_Model.mkrow 0 (r_cfg r1) (r_cells r1)). split.
    + apply in_map_iff. exists (CRes (Some (r_cfg r1)) (r_cells r1)). split; [reflexivity|]. apply in_map_iff. exists (Pag_Model.mkrow n false (CRes (Some (r_cfg r1)) (r_cells r1))). split; [reflexivity|].
      apply (log_rows print raw_id feature_id ok fit_of c log R L a n ts "res_dict"%string _ I). unfold rowsof. cbn. rewrite E. cbn. rewrite M, Mf.
      apply (in_map (fun r => CRes (Some (r_cfg r)) (r_cells r))). assert (Z : In r1 rs1) by (rewrite N2; left; reflexivity). apply filter_In in Z. apply Z.
    + cbn [r_cells]. assert (Z : In r1 rs1) by (rewrite N2; left; reflexivity). apply res_frame_rows in MF1 as [_ MF1]. rewrite MF1 in Z. apply in_map_iff in Z as (i & <- & _). cbn [r_cells]. rewrite map_map. cbn.
      apply (proj2 (dget_in_keys string_dec k rd)). rewrite Ek. discriminate.
Qed.
Print Assumptions C181_multi.

(** By the ID of the feature, if IDs are told apart (default names, no ID twice in the arguments of a run). *)
Theorem C181_by_name : forall A V D Arg literal_eval (raw_id : Arg -> string) (c : @container (Lof_Model.content V D)) log a n ts,
  runs name_of raw_id (default_feature raw_id) (fun args => NoDup (map (fun a => get_ID (raw_id a)) args)) c log -> In (a, n, ts) log ->
  load_name (A := A) literal_eval c (get_ID (raw_id a)) = load_number literal_eval c n.
Proof.
  intros A V D Arg literal_eval raw_id c log a n ts R I. assert (J := runs_inv _ _ _ _ c log R). unfold load_name.
  assert (F := in_frame _ _ _ _ _ _ _ _ _ J I).
  assert (N : NoDup (map snd (ids_frame name_of c))) by (rewrite frame_names; apply (C91_stored_once Arg raw_id); apply (i_hist _ _ _ _ _ _ J)).
  assert (X : ID_to_IDnum (ids_frame name_of c) (get_ID (raw_id a)) = Ok n); [|rewrite X; reflexivity].
  unfold ID_to_IDnum. induction (ids_frame name_of c) as [|[m s] l IH]; [destruct F|]. cbn [filter snd]. cbn in N. inversion N as [|? ? N1 N2]; subst. destruct F as [F|F].
  - injection F as -> ->. rewrite String.eqb_refl. reflexivity.
  - destruct (String.eqb_spec s (get_ID (raw_id a))) as [->|_]; [exfalso; apply N1; apply (in_map snd) in F; exact F|apply IH; assumption].
Qed.
Print Assumptions C181_by_name.

(** A fit that lacks a part (dataset, auxiliary data, results) cannot be loaded as soon as any other fit in the container
    has this part, in whatever run it was stored. *)
Theorem C181_lacking_refuted : forall A V D Arg (print : A -> string) literal_eval (raw_id feature_id : Arg -> string) ok (fit_of : Arg -> fit A V D)
    (c : @container (Lof_Model.content V D)) log a n ts attrs r p b m ts',
  runs name_of raw_id feature_id ok c log -> (forall b m ts, In (b, m, ts) log -> ts = export print m (fit_of b)) ->
  (forall b m ts, In (b, m, ts) log -> exists x s, f_confs (fit_of b) = Single x s) ->
  In (a, n, ts) log -> f_confs (fit_of a) = Single attrs r -> (forall k x, In (k, x) attrs -> literal_eval (print x) = Ok x) ->
  In (b, m, ts') log -> has p (fit_of b) -> ~ has p (fit_of a) ->
  load_number literal_eval c n = Err KeyError.
Proof.
  intros A V D Arg print literal_eval raw_id feature_id ok fit_of c log a n ts attrs r p b m ts' R L S I E P J Hb Ha.
  assert (HC : has_cfg c = false) by (apply (cfg_false print raw_id feature_id ok fit_of c log R L); exact S).
  assert (T : table "init_dict" c <> []) by (apply (init_table print raw_id feature_id ok fit_of c log R L a n ts I); rewrite E; discriminate).
  assert (M := part_missing print raw_id feature_id ok fit_of c log R L p a n ts b m ts' I J Hb Ha).
  unfold load_number. rewrite HC. rewrite (part_here print raw_id feature_id ok fit_of c log R L false "init_dict" a n ts I T).
  destruct (table "init_dict" c) as [|x0 t0]; [congruence|]. clear T x0 t0.
  rewrite (id_here raw_id feature_id ok c log R a n ts I). cbn [bind].
  unfold rowsof. cbn [key String.eqb Ascii.eqb Bool.eqb app]. rewrite E. cbn [init_rows app loc bind].
  rewrite (attrs_ok print literal_eval attrs P). cbn [bind].
  assert (D0 : forall q, load_data (V := V) (D := D) q = Err KeyError \/ exists x, load_data q = Ok x) by (intros [[|? ?]|]; cbn; eauto).
  destruct p; cbn [key] in M; rewrite M.
  - reflexivity.
  - destruct (D0 (part true c "dataset" n)) as [X|[x X]]; rewrite X; reflexivity.
  - destruct (D0 (part true c "dataset" n)) as [X|[x X]]; rewrite X; [reflexivity|]. cbn [bind].
    destruct (D0 (part true c "aux_data" n)) as [Y|[y Y]]; rewrite Y; reflexivity.
Qed.
Print Assumptions C181_lacking_refuted.

(** The ID of the loaded fit: the one of the stored fit if this is an identifier (IDs made of letters, digits and
    underscores); otherwise the prefix "RT1_" is added a second time. *)
Lemma chars_app s t : list_ascii_of_string (s ++ t) = list_ascii_of_string s ++ list_ascii_of_string t.
Proof. induction s as [|x s IH]; [reflexivity|]. cbn. f_equal. exact IH. Qed.
Theorem C181_ID : forall s, forallb (fun d => is_letter d || is_digit d) (list_ascii_of_string s) = true -> get_ID (get_ID s) = get_ID s.
Proof.
  intros s H. unfold get_ID at 2 3. destruct (isidentifier s) eqn:E; [unfold get_ID; rewrite E; reflexivity|].
  unfold get_ID. assert (X : isidentifier ("RT1_" ++ s) = true); [|rewrite X; reflexivity].
  unfold isidentifier. rewrite chars_app. cbn [list_ascii_of_string app]. cbn [is_letter is_digit forallb]. rewrite H. reflexivity.
Qed.
Print Assumptions C181_ID.
Theorem C181_ID_refuted : forall s, isidentifier (get_ID s) = false -> get_ID (get_ID s) = ("RT1_RT1_" ++ s)%string /\ get_ID (get_ID s) <> get_ID s.
Proof.
  intros s H. assert (E : get_ID s = ("RT1_" ++ s)%string).
  { unfold get_ID in *. destruct (isidentifier s) eqn:E; [congruence|reflexivity]. }
  unfold get_ID at 1 3. rewrite H, E. split; [reflexivity|]. intros X. cbn in X. apply (f_equal String.length) in X. cbn in X. lia.
Qed.
Print Assumptions C181_ID_refuted.

(** ** a concrete history: a run for the feature "a-1" (with auxiliary data and results), then one for "7" without auxiliary data *)
Definition lo_fit (s : string) : fit nat nat nat :=
  mkfit (if String.eqb s "m" then Multi [("c0", ([("int_Q", 1)], Some [("tau", [Some 1; Some 2])])); ("c1", ([("sig0", 1)], Some [("N", [Some 4]); ("tau", [Some 3])]))]
         else Single [("int_Q", 1)] (Some [("tau", [Some 1; Some 2; Some 3]); ("N", [Some 9])])) (Some [5; 6])
        (if String.eqb s "a-1" then Some [8] else None) [("ID", s)].
Definition lo_print (x : nat) : string := if Nat.eqb x 1 then "True" else "None".
Definition lo_eval (s : string) : res nat := if String.eqb s "True" then Ok 1 else Err ValueError.
Definition lo_dict (j : string * Z) : @result (prow (Lof_Model.content nat nat)) :=
  map (fun t => ((if String.eqb (fst t) "reader_arg" then "const__reader_arg" else fst t), Leaf (Frame (snd t)))) (export lo_print (snd j) (lo_fit (fst j))).
Definition lo_params : @params (string * Z) (prow (Lof_Model.content nat nat)) := mkparams 1 1 1 1 1 (fun j => Returns (MDict (lo_dict j))).
Definition lo_events : list event :=
  (ex_start ++ ex_combine ++ [SStep 0; SStep 0; SStep 0; SStep 0; SStep 0; SStep 0; Main; CStep 0; CStep 0; Main; SStep 0; Main])%list.
Definition lo_ok (args : list string) : Prop := NoDup (map get_ID args).
Lemma lo_undisturbed : undisturbed lo_events.
Proof. split; [|intros w]; cbn; intros H; repeat (destruct H as [H|H]; [discriminate|]); exact H. Qed.
Lemma lo_good j : good_task ex_kind (what lo_params j).
Proof.
  split; [|split].
  - intros n c H. cbn in H. repeat (destruct H as [H|H]; [inversion H; subst; cbn; intuition discriminate|]). destruct H.
  - intros n d H. cbn in H. repeat (destruct H as [H|H]; [inversion H|]). destruct H.
  - intros k v H. cbn in H. repeat (destruct H as [H|H]; [inversion H; reflexivity|]). destruct H.
Qed.
Lemma lo_sound j : sound_task name_of (fun s : string => s) lo_params j.
Proof.
  split.
  - intros k r H. unfold job_rows in H. cbn in H. destruct (String.eqb (fst j) "m"), (String.eqb (fst j) "a-1"); cbn in H;
      repeat (destruct H as [H|H]; [inversion H; split; reflexivity|]); destruct H.
  - intros d E. injection E as <-. split; [|eexists; split; [|reflexivity]; reflexivity].
    cbn. repeat (constructor; [cbn; intuition discriminate|]). constructor.
Qed.
Lemma lo_run c log args todo s : runs name_of (fun s : string => s) (default_feature (fun s => s)) lo_ok c log -> lo_ok args ->
  check_IDs (default_feature (fun s => s)) (file_of name_of c) args = Ok todo -> executes lo_params todo lo_events s -> main s = PEnd ->
  runs name_of (fun s : string => s) (default_feature (fun s => s)) lo_ok (append_run false c (store s)) (log ++ map (fun j => (j, job_tables lo_params j)) todo).
Proof.
  intros R O C X M. assert (Z : map (fun j => (j, job_tables lo_params j)) todo = flat_map (fun j => match what lo_params j with Returns (MDict _) => [(j, job_tables lo_params j)] | _ => [] end) todo).
  { clear. induction todo as [|j l IH]; [reflexivity|]. cbn [map flat_map]. rewrite IH. reflexivity. }
  rewrite Z. eapply (runs_run name_of (fun s : string => s) (default_feature (fun s => s)) lo_ok c log args todo lo_params ex_kind lo_events s false); try eassumption; try (cbn; lia).
  - intros j _. apply lo_good.
  - intros j _. apply lo_sound.
  - apply lo_undisturbed.
Qed.
Lemma lo_tables j : job_tables lo_params j = export lo_print (snd j) (lo_fit (fst j)).
Proof. unfold job_tables, lo_params, lo_dict, export. cbn. destruct (String.eqb (fst j) "m"), (String.eqb (fst j) "a-1"); reflexivity. Qed.

Example C181_example : exists c log, runs name_of (fun s : string => s) (default_feature (fun s => s)) lo_ok c log /\
  (forall b m ts, In (b, m, ts) log -> ts = export lo_print m (lo_fit b)) /\ map fst log = [("a-1"%string, 0%Z); ("7"%string, 1%Z)] /\
  load_name lo_eval c "RT1_a-1" = Ok (Some (mkloaded "RT1_RT1_a-1" (LSingle [("int_Q", 1)] (Some [("tau", [1; 2; 3]); ("N", [9])]))
     (Some [CData 5; CData 6]) (Some [CData 8]) [("ID", "a-1")]))%string /\
  load_name lo_eval c "RT1_7" = Err KeyError.
Proof.
  eexists. eexists. split; [|split].
  - eapply (lo_run _ _ ["a-1"; "7"]%string [("7"%string, 1%Z)]).
    + eapply (lo_run None [] ["a-1"]%string [("a-1"%string, 0%Z)]); [apply runs_new| | | |].
      * unfold lo_ok. cbn. constructor; [intros []|constructor].
      * reflexivity.
      * vm_compute. reflexivity.
      * reflexivity.
    + unfold lo_ok. cbn. constructor; [intros [H|[]]; discriminate|]. constructor; [intros []|constructor].
    + vm_compute. reflexivity.
    + vm_compute. reflexivity.
    + reflexivity.
  - intros b m ts [H|[H|[]]]; injection H as <- <- <-; reflexivity.
  - split; [reflexivity|]. split; vm_compute; reflexivity.
Qed.
Example C181_example_multi : exists c log, runs name_of (fun s : string => s) (default_feature (fun s => s)) lo_ok c log /\
  (forall b m ts, In (b, m, ts) log -> ts = export lo_print m (lo_fit b)) /\ map fst log = [("m"%string, 0%Z)] /\
  load_name lo_eval c "m" = Ok (Some (mkloaded "m" (LMulti [("c0", ([("int_Q", 1)], Some [("tau", [1; 2])])); ("c1", ([("sig0", 1)], Some [("tau", [3]); ("N", [4])]))])
     (Some [CData 5; CData 6]) None [("ID", "m")]))%string.
Proof.
  eexists. eexists. split; [|split].
  - eapply (lo_run None [] ["m"]%string [("m"%string, 0%Z)]); [apply runs_new| | | |].
    + unfold lo_ok. cbn. constructor; [intros []|constructor].
    + reflexivity.
    + vm_compute. reflexivity.
    + reflexivity.
  - intros b m ts [H|[]]; injection H as <- <- <-; reflexivity.
  - split; [reflexivity|]. vm_compute; reflexivity.
Qed.
