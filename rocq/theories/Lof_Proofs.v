(** Proofs for C181 *)
From Coq Require Import String List ZArith Bool Arith Lia.
From Verif Require Import Base Base_Proofs Ids_Model Ids_Spec Ids_Props Pip_Model Pag_Model Pag_Spec E2e_Model E2e_Spec E2e_Proofs E2e_Props
  Mf_Model Mf_Spec Mf_Proofs Lof_Model Lof_Spec.
Import ListNotations.
Local Open Scope list_scope.

Section Lof.
Context {A V D Arg : Type}.
Variable print : A -> string.
Variable literal_eval : string -> res A.
Variable raw_id feature_id : Arg -> string.
Variable ok : list Arg -> Prop.
Variable fit_of : Arg -> fit A V D.
Notation content := (Lof_Model.content V D).
Notation container := (@E2e_Model.container content).
Notation init_rows := (@Lof_Model.init_rows A V D).

Definition logged (log : list (Arg * Z * list (string * list (prow content)))) : Prop :=
  forall b m ts, In (b, m, ts) log -> ts = export print m (fit_of b).

Variable c : container.
Variable log : list (Arg * Z * list (string * list (prow content))).
Hypothesis R : runs name_of raw_id feature_id ok c log.
Hypothesis L : logged log.

Definition rowsof (k : string) (n : Z) (f : fit A V D) : list content :=
  (if String.eqb "init_dict" k then init_rows print (f_confs f) else []) ++
  (if String.eqb "reader_arg" k then [CArg (f_arg f)] else []) ++
  (if String.eqb "dataset" k then data_rows (f_data f) else []) ++
  (if String.eqb "aux_data" k then data_rows (f_aux f) else []) ++
  (if String.eqb "res_dict" k then res_rows n (f_confs f) else []).

Lemma select_export k n f : select k (export print n f) = map (Pag_Model.mkrow n false) (rowsof k n f).
Proof.
  unfold select, export, rowsof. cbn [map flat_map fst snd]. rewrite !map_app, app_nil_r.
  destruct (String.eqb "init_dict" k), (String.eqb "reader_arg" k), (String.eqb "dataset" k), (String.eqb "aux_data" k), (String.eqb "res_dict" k); reflexivity.
Qed.

Lemma table_some k x : In x (table k c) -> exists b m ts, In (b, m, ts) log /\ In (p_val x) (rowsof k m (fit_of b)).
Proof.
  unfold table. intros H. apply in_map_iff in H as ([k' r] & <- & H). apply filter_In in H as [H E]. apply String.eqb_eq in E. cbn in E. subst k'.
  destruct (C178_nothing_else _ _ _ _ _ _ _ _ k r R H) as (b & m & ts & l & I & N & T & J). exists b, m, ts. split; [exact I|].
  rewrite (L _ _ _ I) in T. cbn [snd].
  assert (S : In r (select k (export print m (fit_of b)))).
  { unfold select. apply in_flat_map. exists (k, l). split; [exact T|]. cbn. rewrite String.eqb_refl. exact J. }
  rewrite select_export in S. apply in_map_iff in S as (y & <- & S). exact S.
Qed.

Lemma log_rows a n ts k y : In (a, n, ts) log -> In y (rowsof k n (fit_of a)) -> In (Pag_Model.mkrow n false y) (table k c).
Proof.
  intros I H. assert (J := i_log _ _ _ _ _ _ (runs_inv _ _ _ _ _ _ R) a n ts I). destruct J as [_ J]. specialize (J k).
  rewrite (L _ _ _ I), select_export in J. assert (X : In (k, Pag_Model.mkrow n false y) (filter (hits k n) (rows c))).
  { rewrite J. apply (in_map (pair k)). apply (in_map (Pag_Model.mkrow n false)). exact H. }
  apply filter_In in X as [X _]. unfold table. apply in_map_iff. exists (k, Pag_Model.mkrow n false y). split; [reflexivity|].
  apply filter_In. split; [exact X|]. cbn. apply String.eqb_refl.
Qed.

Lemma part_here multi k a n ts : In (a, n, ts) log -> table k c <> [] -> part multi c k n = Some (rowsof k n (fit_of a)).
Proof.
  intros I T. unfold part. destruct (C178_by_number _ _ _ _ _ _ _ _ _ _ _ multi false k R I) as (pg & E & C & _).
  destruct (table k c) as [|x l]; [congruence|]. rewrite E. f_equal.
  rewrite (L _ _ _ I), select_export in C. assert (X : map snd (map Pag_Spec.content pg) = map snd (map Pag_Spec.content (map (Pag_Model.mkrow n false) (rowsof k n (fit_of a))))) by (rewrite C; reflexivity).
  rewrite !map_map in X. cbn in X. rewrite map_id in X. exact X.
Qed.

Lemma id_here a n ts : In (a, n, ts) log -> id_of c n = Ok (get_ID (raw_id a)).
Proof.
  intros I. assert (J := runs_inv _ _ _ _ _ _ R). assert (F := in_frame _ _ _ _ _ _ _ _ _ J I). unfold id_of.
  assert (N : NoDup (map fst (ids_frame name_of c))).
  { rewrite frame_numbers. apply (C53_unique_numbers Arg raw_id feature_id ok). apply (i_hist _ _ _ _ _ _ J). }
  induction (ids_frame name_of c) as [|[m s] l IH]; [destruct F|]. cbn [filter fst]. cbn in N. inversion N as [|? ? N1 N2]; subst. destruct F as [F|F].
  - injection F as -> ->. rewrite Z.eqb_refl. reflexivity.
  - destruct (Z.eqb_spec m n) as [->|_]; [exfalso; apply N1; apply (in_map fst) in F; exact F|apply IH; assumption].
Qed.

Lemma arg_here a n ts ID : In (a, n, ts) log -> (exists s, dget string_dec "ID"%string (f_arg (fit_of a)) = Some s) -> load_arg c n ID = f_arg (fit_of a).
Proof.
  intros I [s S]. unfold load_arg. rewrite (part_here _ _ a n ts I).
  - unfold rowsof. cbn [String.eqb Ascii.eqb Bool.eqb app]. unfold dmem. rewrite S. reflexivity.
  - intros E. assert (X := log_rows a n ts "reader_arg"%string (CArg (f_arg (fit_of a))) I (or_introl eq_refl)). rewrite E in X. destruct X.
Qed.

Lemma init_table a n ts : In (a, n, ts) log -> init_rows print (f_confs (fit_of a)) <> [] -> table "init_dict" c <> [].
Proof.
  intros I N E. destruct (init_rows print (f_confs (fit_of a))) as [|y l] eqn:X; [congruence|].
  assert (Z := log_rows a n ts "init_dict"%string y I). rewrite E in Z. apply Z. unfold rowsof. rewrite X. left. reflexivity.
Qed.

Lemma height_cons k (l : list (cell V)) (rd : resdict V) : height ((k, l) :: rd) = Nat.max (List.length l) (height rd).
Proof. reflexivity. Qed.
Lemma height_pos (rd : resdict V) : 0 < height rd <-> exists k x l, In (k, x :: l) rd.
Proof.
  induction rd as [|[k l] rd IH]; [split; [cbn; lia|intros (k & x & l & [])]|]. rewrite height_cons. split.
  - intros H. destruct l as [|x l]; [|exists k, x, l; left; reflexivity]. destruct (proj1 IH) as (k' & x & l & I); [cbn [List.length] in H; lia|]. exists k', x, l. right. exact I.
  - intros (k' & x & l' & [E|I]); [injection E as -> ->; cbn [List.length]; lia|]. assert (0 < height rd) by (apply IH; eauto). lia.
Qed.
Lemma frame_ok id cfg (rd : resdict V) : rd <> [] -> exists t, res_frame id cfg rd = Ok t /\ List.length t = height rd.
Proof. unfold res_frame. destruct rd as [|x r]; [congruence|]. intros _. eexists. split; [reflexivity|]. rewrite map_length, seq_length. reflexivity. Qed.
Lemma data_nil (d : option (list D)) : data_rows (V := V) d = [] <-> ~ exists x l, d = Some (x :: l).
Proof. destruct d as [[|x l]|]; cbn; split; intros H; try reflexivity; try (intros (y & m & E); discriminate); try discriminate. destruct H. eauto. Qed.

Lemma res_nil_single n attrs r : res_rows (A := A) (V := V) (D := D) n (Single attrs r) = [] <-> ~ exists rd, r = Some rd /\ exists k x l, In (k, x :: l) rd.
Proof.
  cbn. destruct r as [rd|]; [|split; [intros _ (rd & E & _); discriminate|reflexivity]]. destruct rd as [|x r] eqn:E.
  - cbn. split; [|reflexivity]. intros _ (rd' & X & k & y & l & I). injection X as <-. destruct I.
  - destruct (frame_ok n "" (x :: r)) as (t & Et & Lt); [discriminate|]. rewrite Et. split.
    + intros H (rd' & X & Y). injection X as <-. apply height_pos in Y. destruct t; [cbn [List.length] in Lt; lia|discriminate].
    + intros H. destruct t as [|y t]; [reflexivity|]. exfalso. apply H. exists (x :: r). split; [reflexivity|]. apply height_pos. cbn [List.length] in Lt. lia.
Qed.
Lemma strip_ok (l : list (string * (dict string A * option (resdict V)))) :
  (forall cfg a r, In (cfg, (a, r)) l -> exists rd, r = Some rd /\ rd <> []) ->
  exists cs, mapM (fun x : string * (dict string A * option (resdict V)) => match snd (snd x) with Some rd => Ok (fst x, rd) | None => Err AttributeError end) l = Ok cs /\
    Forall2 (fun x y => fst y = fst x /\ snd (snd x) = Some (snd y) /\ snd y <> []) l cs.
Proof.
  induction l as [|[cfg [a r]] l IH]; intros H; [exists []; split; [reflexivity|constructor]|]. destruct (H cfg a r (or_introl eq_refl)) as (rd & -> & Nn).
  destruct IH as (cs & E & F); [intros; eapply H; right; eassumption|]. exists ((cfg, rd) :: cs). cbn. rewrite E. cbn. split; [reflexivity|]. constructor; [cbn; auto|exact F].
Qed.
Lemma frames_ok n (cs : list (string * resdict V)) : (forall x, In x cs -> snd x <> []) ->
  exists ts, mapM (fun c => res_frame n (fst c) (snd c)) cs = Ok ts /\ List.length (List.concat ts) = list_sum (map (fun x => height (snd x)) cs).
Proof.
  induction cs as [|x cs IH]; intros H; [exists []; split; reflexivity|]. destruct (frame_ok n (fst x) (snd x) (H x (or_introl eq_refl))) as (t & E & Lt).
  destruct IH as (ts & Es & Ls); [intros; apply H; right; assumption|]. exists (t :: ts). cbn. rewrite E, Es. cbn. split; [reflexivity|]. rewrite app_length, Lt, Ls. reflexivity.
Qed.
Lemma sum_pos l x : In x l -> x <= list_sum l.
Proof. induction l as [|y l IH]; intros []; cbn; [subst; unfold list_sum; lia|]. specialize (IH H). unfold list_sum in *. lia. Qed.

Lemma rows_has p n f : rowsof (key p) n f = [] <-> ~ has p f.
Proof.
  destruct p; unfold rowsof; cbn [key String.eqb Ascii.eqb Bool.eqb app].
  - rewrite app_nil_r. apply data_nil.
  - rewrite app_nil_r. apply data_nil.
  - cbn [has]. destruct (f_confs f) as [attrs r|l]; [apply res_nil_single|]. cbn. split.
    + intros H [H1 (cfg & a & rd & I & P)]. destruct (strip_ok l H1) as (cs & E & F). rewrite E in H.
      assert (J : In (cfg, rd) cs).
      { clear - F I. induction F as [|x y l cs (F1 & F2 & _) F IH]; [destruct I|]. destruct I as [->|I]; [|right; auto]. left. destruct y as [s0 r0]. cbn [fst snd] in F1, F2. subst s0. injection F2 as ->. reflexivity. }
      assert (NN : forall x, In x cs -> snd x <> []).
      { clear - F. induction F as [|x y l cs (_ & _ & F1) F IH]; [intros ? []|]. intros z [<-|Z]; [exact F1|auto]. }
      destruct (frames_ok n cs NN) as (ts & Et & Lt). unfold multi_frame in H. destruct cs as [|x cs']; [destruct J|]. set (cs := x :: cs') in *. clearbody cs. rewrite Et in H. cbn in H.
      apply height_pos in P. assert (height rd <= list_sum (map (fun x => height (snd x)) cs)) by (apply sum_pos; apply (in_map (fun x : string * resdict V => height (snd x)) _ _ J)).
      destruct (List.concat ts); [cbn [List.length] in Lt; lia|discriminate].
    + intros H. destruct (mapM _ l) as [cs|] eqn:E; [|reflexivity]. destruct (multi_frame n cs) as [rs|] eqn:M; [|reflexivity]. destruct rs as [|r rs]; [reflexivity|]. exfalso. apply H. clear H.
      assert (F : Forall2 (fun x y => fst y = fst x /\ snd (snd x) = Some (snd y)) l cs).
      { clear - E. revert cs E. induction l as [|x l IH]; intros cs E; cbn in E; [injection E as <-; constructor|]. destruct (snd (snd x)) as [rd|] eqn:Er; [|discriminate]. cbn in E.
        destruct (mapM _ l) as [cs'|]; [|discriminate]. cbn in E. injection E as <-. constructor; [cbn; auto|apply IH; reflexivity]. }
      unfold multi_frame in M. destruct cs as [|c0 cs']; [discriminate|]. set (cs := c0 :: cs') in *. clearbody cs.
      destruct (mapM (fun c => res_frame n (fst c) (snd c)) cs) as [ts|] eqn:Et; [|discriminate]. cbn in M. injection M as M.
      assert (G : (forall y, In y cs -> snd y <> []) /\ exists y, In y cs /\ 0 < height (snd y)).
      { assert (Q : List.concat ts <> []) by (rewrite M; discriminate). clear - Et Q. revert ts Et Q. induction cs as [|y cs IH]; intros ts Et Q; cbn in Et; [injection Et as <-; cbn in Q; congruence|].
        destruct (res_frame n (fst y) (snd y)) as [t|] eqn:E; [|discriminate]. cbn in Et. destruct (mapM _ cs) as [ts'|] eqn:E'; [|discriminate]. cbn in Et. injection Et as <-.
        assert (Ny : snd y <> []) by (intros X; rewrite X in E; discriminate).
        assert (NN : forall z, In z cs -> snd z <> []).
        { clear - E'. revert ts' E'. induction cs as [|z cs IH]; intros ts' E'; [intros ? []|]. cbn in E'. destruct (res_frame n (fst z) (snd z)) as [t|] eqn:E; [|discriminate]. cbn in E'.
          destruct (mapM _ cs) as [ts|]; [|discriminate]. intros w [<-|W]; [intros X; rewrite X in E; discriminate|]. apply (IH ts eq_refl w W). }
        split; [intros z [<-|Z]; auto|]. destruct (frame_ok n (fst y) (snd y) Ny) as (t' & E1 & L1). rewrite E in E1. injection E1 as <-.
        destruct t as [|r t]; [|exists y; split; [left; reflexivity|cbn [List.length] in L1; lia]]. cbn in Q. destruct (IH ts' eq_refl Q) as [_ (z & Z & P)]. exists z. split; [right; exact Z|exact P]. }
      destruct G as [G1 (y & Y & P)]. split.
      * intros cfg a r0 I. assert (X : exists y, In y cs /\ r0 = Some (snd y)).
        { clear - F I. induction F as [|x y l cs [F1 F2] F IH]; [destruct I|]. destruct I as [->|I]; [exists y; split; [left; reflexivity|exact F2]|]. destruct (IH I) as (z & Z & E). exists z. split; [right|]; assumption. }
        destruct X as (z & Z & ->). exists (snd z). split; [reflexivity|apply G1, Z].
      * apply height_pos in P. assert (X : exists x, In x l /\ snd (snd x) = Some (snd y)).
        { clear - F Y. induction F as [|x z l cs [F1 F2] F IH]; [destruct Y|]. destruct Y as [<-|Y]; [exists x; split; [left; reflexivity|exact F2]|]. destruct (IH Y) as (w & W & E). exists w. split; [right|]; assumption. }
        destruct X as ([cfg [a r0]] & I & X). cbn in X. subst r0. exists cfg, a, (snd y). split; assumption.
Qed.

Lemma has_dec p (f : fit A V D) : has p f \/ ~ has p f.
Proof.
  destruct p; cbn [has].
      - destruct (f_data f) as [[|x l]|]; [right|left|right]; [intros (? & ? & ?); discriminate|eauto|intros (? & ? & ?); discriminate].
      - destruct (f_aux f) as [[|x l]|]; [right|left|right]; [intros (? & ? & ?); discriminate|eauto|intros (? & ? & ?); discriminate].
      - destruct (f_confs f) as [attrs r|l].
        + destruct r as [rd|]; [|right; intros (? & ? & ?); discriminate]. destruct (Nat.eq_dec (height rd) 0) as [Z|Z].
          * right. intros (rd' & X & Y). injection X as <-. apply height_pos in Y. lia.
          * left. exists rd. split; [reflexivity|]. apply height_pos. lia.
        + assert (P1 : (forall cfg a r, In (cfg, (a, r)) l -> exists rd, r = Some rd /\ rd <> []) \/ ~ (forall cfg a r, In (cfg, (a, r)) l -> exists rd, r = Some rd /\ rd <> [])).
          { induction l as [|[cfg [a r]] l IH]; [left; intros ? ? ? []|]. destruct r as [[|x rd]|].
            - right. intros X. destruct (X cfg a (Some []) (or_introl eq_refl)) as (rd & E & N). injection E as <-. congruence.
            - destruct IH as [IH|IH]; [left; intros c0 a0 r0 [E|I0]; [injection E as <- <- <-; eexists; split; [reflexivity|discriminate]|eauto]|right; intros X; apply IH; intros; eapply X; right; eassumption].
            - right. intros X. destruct (X cfg a None (or_introl eq_refl)) as (rd & E & N). discriminate. }
          assert (P2 : (exists cfg a rd, In (cfg, (a, Some rd)) l /\ exists k x vs, In (k, x :: vs) rd) \/ ~ (exists cfg a rd, In (cfg, (a, Some rd)) l /\ exists k x vs, In (k, x :: vs) rd)).
          { clear P1. induction l as [|[cfg [a r]] l IH]; [right; intros (? & ? & ? & [] & _)|]. destruct IH as [(c0 & a0 & rd0 & I0 & P0)|IH]; [left; exists c0, a0, rd0; split; [right; exact I0|exact P0]|].
            destruct r as [rd|].
            - destruct (Nat.eq_dec (height rd) 0) as [Z|Z].
              + right. intros (c0 & a0 & rd0 & [E|I0] & P0); [injection E as <- <- <-; apply height_pos in P0; lia|apply IH; eauto 8].
              + left. exists cfg, a, rd. split; [left; reflexivity|apply height_pos; lia].
            - right. intros (c0 & a0 & rd0 & [E|I0] & P0); [discriminate|apply IH; eauto 8]. }
          destruct P1; [|right; tauto]. destruct P2; [left; auto|right; tauto].
Qed.

(** the part of a fit, if no other fit has parts that this one lacks *)
Lemma part_piece p a n ts : In (a, n, ts) log -> (forall b m ts', In (b, m, ts') log -> has p (fit_of b) -> has p (fit_of a)) ->
  part true c (key p) n = match rowsof (key p) n (fit_of a) with [] => None | l => Some l end.
Proof.
  intros I H. destruct (rowsof (key p) n (fit_of a)) as [|y l] eqn:E.
  - unfold part. destruct (table (key p) c) as [|x t] eqn:T; [reflexivity|]. exfalso.
    destruct (table_some (key p) x) as (b & m & ts' & J & K); [rewrite T; left; reflexivity|].
    apply rows_has in E. apply E. apply (H b m ts' J). destruct (rowsof (key p) m (fit_of b)) eqn:Z; [destruct K|].
    assert (Q := has_dec p (fit_of b)).
    destruct Q as [Q|Q]; [exact Q|]. rewrite (proj2 (rows_has p m (fit_of b)) Q) in Z. discriminate Z.
  - rewrite (part_here true (key p) a n ts I); [rewrite E; reflexivity|]. intros T.
    assert (X := log_rows a n ts (key p) y I). rewrite E, T in X. apply X. left. reflexivity.
Qed.
(** ... and if another one has *)
Lemma part_missing p a n ts b m ts' : In (a, n, ts) log -> In (b, m, ts') log -> has p (fit_of b) -> ~ has p (fit_of a) ->
  part true c (key p) n = Some [].
Proof.
  intros I J Hb Ha. rewrite (part_here true (key p) a n ts I).
  - f_equal. apply rows_has. exact Ha.
  - intros T. destruct (rowsof (key p) m (fit_of b)) as [|y l] eqn:E; [apply rows_has in E; contradiction|].
    assert (X := log_rows b m ts' (key p) y J). rewrite E, T in X. apply X. left. reflexivity.
Qed.
End Lof.
