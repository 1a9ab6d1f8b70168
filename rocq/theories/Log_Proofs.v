(** Proofs about logging. *)
From Coq Require Import String Ascii Arith Bool Lia Permutation List.
From Verif Require Import Base Log_Model Log_Spec.
Import ListNotations.
Local Open Scope list_scope.

Section S.
Variable openable : string -> bool.
Notation st_after := (session openable).

Lemma status_app n ops : forall ops' cur, status openable n (ops ++ ops') cur = status openable n ops' (status openable n ops cur).
Proof. induction ops as [|o r IH]; intros; simpl; auto. Qed.
Lemma console_app ops : forall ops' cur, console_level (ops ++ ops') cur = console_level ops' (console_level ops cur).
Proof. induction ops as [|o r IH]; intros; simpl; auto; destruct o; auto. Qed.
Lemma session_app rl rh ops o : st_after rl rh (ops ++ [o]) = fst (step openable (st_after rl rh ops) o).
Proof. unfold session. rewrite fold_left_app. reflexivity. Qed.

(** ** the open log-files *)
Definition lookup (n : string) (hs : list handler) : option (string * nat) :=
  match find (fun h => String.eqb (h_name h) n) hs with
  | Some h => match h_sink h with File p => Some (p, h_level h) | _ => None end
  | None => None
  end.
Definition is_file (h : handler) : Prop := h_name h <> console_name /\ exists p, h_sink h = File p.
Record inv (st : lst) (ops : list op) : Prop := mkinv {
  i_level : level st = 10;
  i_root : Forall (fun h => exists s, h_sink h = Custom s) (root_handlers st);
  i_ids : Forall (fun h => h_id h < next st) (handlers st);
  i_nodup : NoDup (map h_id (handlers st));
  i_hs : exists i fs, handlers st = mkh i console_name (console_level ops 21) Console :: fs /\ Forall is_file fs /\
    NoDup (map h_name fs) /\ forall n, n <> console_name -> status openable n ops None = lookup n fs }.

Lemma emit_same l m st : root_level (emit l m st) = root_level st /\ root_handlers (emit l m st) = root_handlers st /\
  level (emit l m st) = level st /\ handlers (emit l m st) = handlers st /\ next (emit l m st) = next st.
Proof. unfold emit. destruct (l <? effective st); repeat split. Qed.

Lemma inv_same st st' ops : inv st ops -> root_handlers st' = root_handlers st -> level st' = level st -> handlers st' = handlers st -> next st' = next st -> inv st' ops.
Proof. intros [A B C D E] H1 H2 H3 H4. constructor; rewrite ?H1, ?H2, ?H3, ?H4; assumption. Qed.
Lemma inv_emit l m st ops : inv st ops -> inv (emit l m st) ops.
Proof. intros H. destruct (emit_same l m st) as (A & B & C & D & E). eapply inv_same; eauto. Qed.
Lemma inv_setup st ops : inv st ops -> setup_logger st = st.
Proof. intros [_ _ _ _ (i & fs & E & _)]. unfold setup_logger. rewrite E. reflexivity. Qed.

Lemma filter_ids (i : nat) hs : ~ In i (map h_id hs) -> filter (fun h => negb (h_id h =? i)) hs = hs.
Proof.
  induction hs as [|h hs IH]; simpl; [reflexivity|]. intros H. destruct (Nat.eqb_spec (h_id h) i); [tauto|]. simpl. rewrite IH; tauto.
Qed.
Lemma filter_names (n : string) hs : ~ In n (map h_name hs) -> filter (fun h => String.eqb (h_name h) n) hs = [].
Proof.
  induction hs as [|h hs IH]; simpl; [reflexivity|]. intros H. destruct (String.eqb_spec (h_name h) n); [tauto|]. apply IH; tauto.
Qed.
Lemma filter_one (n : string) hs h : NoDup (map h_name hs) -> In h hs -> h_name h = n -> filter (fun h => String.eqb (h_name h) n) hs = [h].
Proof.
  induction hs as [|g hs IH]; simpl; [tauto|]. intros N. inversion N as [|? ? N1 N2]; subst. intros [->|H] E.
  - rewrite E, String.eqb_refl. f_equal. apply filter_names. rewrite <- E. exact N1.
  - destruct (String.eqb_spec (h_name g) n) as [e|e]; [|apply IH; assumption]. exfalso. apply N1. rewrite e, <- E. apply in_map, H.
Qed.
Lemma lookup_none n hs : ~ In n (map h_name hs) -> lookup n hs = None.
Proof.
  unfold lookup. destruct (find _ hs) as [h|] eqn:F; [|reflexivity]. apply find_some in F. destruct F as [F E]. apply String.eqb_eq in E.
  intros H. exfalso. apply H. rewrite <- E. apply in_map, F.
Qed.
Lemma lookup_in n hs h p : NoDup (map h_name hs) -> In h hs -> h_name h = n -> h_sink h = File p -> lookup n hs = Some (p, h_level h).
Proof.
  induction hs as [|g hs IH]; simpl; [tauto|]. intros N. inversion N as [|? ? N1 N2]; subst. intros [->|H] E S; unfold lookup; simpl.
  - rewrite E, String.eqb_refl, S. reflexivity.
  - destruct (String.eqb_spec (h_name g) n) as [e|e]; [exfalso; apply N1; rewrite e, <- E; apply in_map, H|]. apply IH; assumption.
Qed.
Lemma lookup_remove n m hs i h : NoDup (map h_name hs) -> NoDup (map h_id hs) -> In h hs -> h_name h = m -> h_id h = i ->
  lookup n (filter (fun h => negb (h_id h =? i)) hs) = if String.eqb m n then None else lookup n hs.
Proof.
  intros N1 N2 H E1 E2. revert N1 N2 H. induction hs as [|g hs IH]; intros N1 N2 H; [destruct H|]. inversion N1 as [|? ? N1a N1b]; subst. inversion N2 as [|? ? N2a N2b]; subst.
  simpl in H. destruct H as [->|H].
  - simpl. rewrite Nat.eqb_refl. simpl. rewrite filter_ids by exact N2a.
    destruct (String.eqb_spec (h_name h) n) as [e|e].
    + apply lookup_none. rewrite <- e. exact N1a.
    + unfold lookup. simpl. destruct (String.eqb_spec (h_name h) n); [congruence|reflexivity].
  - simpl. destruct (Nat.eqb_spec (h_id g) (h_id h)) as [e|e]; [exfalso; apply N2a; rewrite e; apply in_map, H|]. simpl.
    unfold lookup in *. simpl. destruct (String.eqb_spec (h_name g) n) as [e'|e'].
    + destruct (String.eqb_spec (h_name h) n) as [e2|e2]; [exfalso; apply N1a; rewrite e', <- e2; apply in_map, H|reflexivity].
    + apply IH; assumption.
Qed.
Lemma lookup_add n hs i m l p : ~ In m (map h_name hs) ->
  lookup n (hs ++ [mkh i m l (File p)]) = if String.eqb m n then Some (p, l) else lookup n hs.
Proof.
  induction hs as [|g hs IH]; simpl; intros H; unfold lookup in *; simpl.
  - destruct (String.eqb m n); reflexivity.
  - destruct (String.eqb_spec (h_name g) n) as [e|e]; [|apply IH; tauto].
    destruct (String.eqb_spec m n); [|reflexivity]. exfalso. apply H. left. congruence.
Qed.

Lemma NoDup_filter' {A B} (f : A -> B) (P : A -> bool) l : NoDup (map f l) -> NoDup (map f (filter P l)).
Proof.
  induction l as [|a l IH]; simpl; [constructor|]. intros N. inversion N; subst. destruct (P a); simpl; [|auto]. constructor; [|auto].
  intros H. apply in_map_iff in H. destruct H as (b & E & H). apply filter_In in H. apply H1. rewrite <- E. apply in_map, H.
Qed.
Lemma not_in_filtered n hs i h : NoDup (map h_name hs) -> In h hs -> h_name h = n -> h_id h = i -> NoDup (map h_id hs) ->
  ~ In n (map h_name (filter (fun h => negb (h_id h =? i)) hs)).
Proof.
  intros N H E1 E2 N2 C. apply in_map_iff in C. destruct C as (g & Eg & Hg). apply filter_In in Hg. destruct Hg as [Hg F].
  assert (g = h).
  { clear - N H Hg E1 Eg. induction hs as [|x hs IH]; [destruct H|]. inversion N; subst. destruct H as [->|H], Hg as [->|Hg]; auto.
    - exfalso. apply H2. rewrite <- Eg. apply in_map, Hg.
    - exfalso. apply H2. rewrite Eg. apply in_map, H. }
  subst g. rewrite E2, Nat.eqb_refl in F. discriminate.
Qed.

(** stop_log_to_file: the effect on the handlers *)
Lemma stop_inv n st ops : inv st ops -> n <> console_name -> exists st',
  stop_log_to_file n st = (st', Ok tt) /\ inv st' (ops ++ [Stop n]) /\ ~ In n (map h_name (handlers st')) /\ root_level st' = root_level st /\
  exists o, out st' = out st ++ o /\ forall e, In e o -> match snd e with Text _ => False | _ => True end.
Proof.
  intros I Hn. unfold stop_log_to_file. rewrite (inv_setup _ _ I). pose proof I as [A B C D (i & fs & E & F & N & L)].
  rewrite E. cbn [filter h_name]. destruct (String.eqb_spec console_name n) as [e|_]; [congruence|].
  destruct (in_dec string_dec n (map h_name fs)) as [Hin|Hout].
  - apply in_map_iff in Hin. destruct Hin as (h & En & Hh). rewrite (filter_one n fs h N Hh En).
    cbn [close_all]. rewrite Forall_forall in F. destruct (F h Hh) as [_ [p Hp]]. rewrite Hp.
    set (st1 := remove_handler (h_id h) st). exists (emit 10 (Removed 1 n p) st1). split; [reflexivity|].
    rewrite E in D. simpl in D. inversion D as [|? ? D1 D2]; subst.
    assert (Eh : handlers st1 = mkh i console_name (console_level ops 21) Console :: filter (fun g => negb (h_id g =? h_id h)) fs).
    { unfold st1, remove_handler. cbn [handlers]. rewrite E. cbn [filter h_id]. destruct (Nat.eqb_spec i (h_id h)) as [e|_]; [|reflexivity].
      exfalso. apply D1. simpl. rewrite e. apply in_map, Hh. }
    assert (I1 : inv st1 (ops ++ [Stop (h_name h)])).
    { constructor.
      - exact A.
      - exact B.
      - rewrite Forall_forall in C |- *. intros g Hg. unfold st1, remove_handler in Hg |- *. cbn [handlers next] in *. apply filter_In in Hg. apply C, Hg.
      - unfold st1, remove_handler. cbn [handlers]. apply NoDup_filter'. rewrite E. exact D.
      - exists i, (filter (fun g => negb (h_id g =? h_id h)) fs). split; [rewrite Eh, console_app; reflexivity|]. split; [|split].
        + rewrite Forall_forall. intros g Hg. apply filter_In in Hg. apply F, Hg.
        + apply NoDup_filter', N.
        + intros n' Hn'. rewrite status_app. simpl. rewrite (lookup_remove n' (h_name h) fs (h_id h) h); auto. destruct (String.eqb (h_name h) n'); [reflexivity|apply L, Hn']. }
    split; [apply inv_emit, I1|]. destruct (emit_same 10 (Removed 1 (h_name h) p) st1) as (R1 & _ & _ & R2 & _). split; [|split].
    + rewrite R2, Eh. simpl. intros [e|e]; [congruence|]. revert e. apply (not_in_filtered _ fs (h_id h) h); auto.
    + rewrite R1. reflexivity.
    + unfold emit. destruct (10 <? effective st1).
      * exists []. rewrite app_nil_r. split; [reflexivity|intros ? []].
      * eexists. cbn [out]. split; [reflexivity|]. intros e He. apply in_map_iff in He. destruct He as (s & <- & _). exact Logic.I.
  - rewrite filter_names by exact Hout. cbn [close_all]. exists st. split; [reflexivity|]. split; [|split; [|split; [reflexivity|exists []; rewrite app_nil_r; split; [reflexivity|intros ? []]]]].
    + constructor; auto. exists i, fs. rewrite console_app. simpl. repeat split; auto. intros n' Hn'. rewrite status_app. simpl.
      destruct (String.eqb_spec n n') as [<-|_]; [symmetry; apply lookup_none, Hout|apply L, Hn'].
    + rewrite E. simpl. intros [e|e]; [congruence|tauto].
Qed.

Lemma set_first_fs n l fs : forall i cl, n <> console_name -> set_first n l (mkh i console_name cl Console :: fs) =
  match set_first n l fs with Some r => Some (mkh i console_name cl Console :: r) | None => None end.
Proof. intros i cl H. cbn [set_first h_name]. destruct (String.eqb_spec console_name n); [congruence|reflexivity]. Qed.
Lemma set_first_none n l fs : set_first n l fs = None <-> ~ In n (map h_name fs).
Proof.
  induction fs as [|h fs IH]; simpl; [tauto|]. destruct (String.eqb_spec (h_name h) n) as [e|e].
  - split; [discriminate|]. intros H. exfalso. auto.
  - destruct (set_first n l fs) as [r|]; [|tauto]. split; [discriminate|]. intros H. exfalso. assert (X : @Some (list handler) r = None) by (apply IH; tauto). discriminate.
Qed.
Lemma set_first_some n l fs r : set_first n l fs = Some r -> map h_name r = map h_name fs /\ map h_id r = map h_id fs /\ map h_sink r = map h_sink fs /\
  forall n', lookup n' r = if String.eqb n n' then match lookup n' fs with Some (p, _) => Some (p, l) | None => None end else lookup n' fs.
Proof.
  revert r; induction fs as [|h fs IH]; simpl; intros r H; [discriminate|]. destruct (String.eqb_spec (h_name h) n) as [e|e].
  - injection H as <-. simpl. repeat split. intros n'. unfold lookup; simpl. rewrite e. destruct (String.eqb n n'); [|reflexivity]. destruct (h_sink h); reflexivity.
  - destruct (set_first n l fs) as [r'|]; [|discriminate]. injection H as <-. destruct (IH _ eq_refl) as (A & B & C & D). simpl. repeat split; try congruence.
    intros n'. unfold lookup in *; simpl. destruct (String.eqb_spec (h_name h) n') as [e'|e']; [|apply D].
    destruct (String.eqb_spec n n'); [congruence|reflexivity].
Qed.

Definition quiet (o : list (sink * msg)) : Prop := forall e, In e o -> match snd e with Text _ => False | _ => True end.

Lemma step_inv st ops o : inv st ops -> files_only o -> inv (fst (step openable st o)) (ops ++ [o]) /\
  (is_log o = false -> exists w, out (fst (step openable st o)) = out st ++ w /\ quiet w).
Proof.
  intros I Ho. destruct o as [p n l|n|l n|l s|l s]; cbn [step files_only is_log] in *.
  - (* Start *)
    unfold start_log_to_file. destruct (stop_inv n st ops I Ho) as (st' & E & I' & Hn & _ & (w & Ew & Qw)). rewrite E.
    rewrite (inv_setup _ _ I'). pose proof I' as [A B C D (i & fs & E' & F & N & L)]. destruct (openable p) eqn:Op; cbn [fst].
    + split.
      * apply inv_emit. constructor.
        -- exact A.
        -- exact B.
        -- unfold add_handler; cbn [handlers next]. apply Forall_app. split; [|constructor; [simpl; lia|constructor]].
           eapply Forall_impl; [|exact C]. simpl. intros; lia.
        -- unfold add_handler; cbn [handlers next]. rewrite map_app. simpl. apply (Permutation_NoDup (l := next st' :: map h_id (handlers st'))).
           ++ apply Permutation_cons_append.
           ++ constructor; [|exact D]. intros X. apply in_map_iff in X. destruct X as (g & Eg & Hg). rewrite Forall_forall in C. specialize (C g Hg). simpl in C. lia.
        -- exists i, (fs ++ [mkh (next st') n l (File p)]). unfold add_handler; cbn [handlers]. split; [|split; [|split]].
           ++ rewrite E'. rewrite !console_app. reflexivity.
           ++ apply Forall_app. split; [exact F|]. constructor; [|constructor]. split; [exact Ho|eexists; reflexivity].
           ++ rewrite map_app. simpl. apply (Permutation_NoDup (l := n :: map h_name fs)); [apply Permutation_cons_append|]. constructor; [|exact N].
              intros X. apply Hn. rewrite E'. right. exact X.
           ++ intros n' Hn'. rewrite status_app. cbn [status]. rewrite Op, lookup_add.
              ** specialize (L n' Hn'). rewrite status_app in L. simpl in L. destruct (String.eqb n n'); [reflexivity|exact L].
              ** intros X. apply Hn. rewrite E'. right. exact X.
      * intros _. unfold emit. destruct (10 <? effective (add_handler n l (File p) st')).
        -- exists w. split; [exact Ew|exact Qw].
        -- eexists. cbn [out]. unfold add_handler at 1; cbn [out]. rewrite Ew, <- app_assoc. split; [reflexivity|].
           intros e He. apply in_app_or in He. destruct He as [He|He]; [apply Qw, He|]. apply in_map_iff in He. destruct He as (x & <- & _). exact Logic.I.
    + split; [|intros _; exists w; split; [exact Ew|exact Qw]].
      constructor; auto. exists i, fs. split; [rewrite E', !console_app; reflexivity|]. split; [exact F|]. split; [exact N|].
      intros n' Hn'. specialize (L n' Hn'). rewrite status_app in L |- *. simpl in L |- *. rewrite Op. exact L.
  - (* Stop *)
    destruct (stop_inv n st ops I Ho) as (st' & E & I' & _ & _ & (w & Ew & Qw)). rewrite E. split; [exact I'|]. intros _. exists w. split; [exact Ew|exact Qw].
  - (* SetLevel *)
    unfold set_log_handler_level. rewrite (inv_setup _ _ I). pose proof I as [A B C D (i & fs & E & F & N & L)]. rewrite E.
    destruct (String.eqb_spec n console_name) as [->|Hn].
    + cbn [set_first h_name h_id h_sink fst]. rewrite String.eqb_refl. cbn [fst]. split; [|intros _; exists []; rewrite app_nil_r; split; [reflexivity|intros ? []]]. constructor.
      * exact A.
      * exact B.
      * cbn [handlers next]. rewrite E in C. inversion C; subst. constructor; assumption.
      * cbn [handlers]. rewrite E in D. exact D.
      * cbn [handlers]. exists i, fs. split; [rewrite console_app; cbn [console_level]; rewrite String.eqb_refl; reflexivity|]. split; [exact F|]. split; [exact N|].
        intros n' Hn'. rewrite status_app. cbn [status]. destruct (String.eqb_spec console_name n'); [congruence|apply L, Hn'].
    + rewrite set_first_fs by exact Hn. destruct (set_first n l fs) as [r|] eqn:S; cbn [fst].
      * split; [|intros _; exists []; rewrite app_nil_r; split; [reflexivity|intros ? []]].
        destruct (set_first_some _ _ _ _ S) as (S1 & S2 & S3 & S4). constructor.
        -- exact A.
        -- exact B.
        -- cbn [handlers next]. rewrite E in C. inversion C as [|? ? C1 C2]; subst. constructor; [exact C1|].
           rewrite Forall_forall in C2 |- *. intros h Hh. assert (X : In (h_id h) (map h_id fs)) by (rewrite <- S2; apply in_map, Hh).
           apply in_map_iff in X. destruct X as (g & Eg & Hg). rewrite <- Eg. apply C2, Hg.
        -- cbn [handlers]. rewrite E in D. simpl in D |- *. rewrite S2. exact D.
        -- cbn [handlers]. exists i, r. split; [rewrite console_app; cbn [console_level]; destruct (String.eqb_spec n console_name); [congruence|reflexivity]|]. split; [|split].
           ++ rewrite Forall_forall in F |- *. intros h Hh.
              assert (X : In (h_name h, h_sink h) (map (fun h => (h_name h, h_sink h)) fs)).
              { assert (Y : map (fun h => (h_name h, h_sink h)) r = map (fun h => (h_name h, h_sink h)) fs).
                { clear - S1 S3. revert fs S1 S3. induction r as [|x r IH]; intros [|y fs]; simpl; intros; try discriminate; [reflexivity|]. injection S1 as e1 S1. injection S3 as e3 S3. rewrite e1, e3, (IH fs); auto. }
                rewrite <- Y. apply (in_map (fun h => (h_name h, h_sink h))), Hh. }
              apply in_map_iff in X. destruct X as (g & Eg & Hg). injection Eg as e1 e2. specialize (F g Hg). unfold is_file in *. rewrite <- e1, <- e2. exact F.
           ++ rewrite S1. exact N.
           ++ intros n' Hn'. rewrite status_app. cbn [status]. rewrite S4, (L n' Hn'). reflexivity.
      * split; [|intros _; exists []; rewrite app_nil_r; split; [reflexivity|intros ? []]].
        apply set_first_none in S. constructor; auto. exists i, fs. split; [rewrite E, console_app; cbn [console_level]; destruct (String.eqb_spec n console_name); [congruence|reflexivity]|].
        split; [exact F|]. split; [exact N|]. intros n' Hn'. rewrite status_app. cbn [status]. rewrite (L n' Hn').
        destruct (String.eqb_spec n n') as [<-|]; [rewrite lookup_none by exact S|]; reflexivity.
  - (* Log *)
    split; [|discriminate]. cbn [fst]. apply inv_emit. destruct I as [A B C D (i & fs & E & F & N & L)]. constructor; auto.
    exists i, fs. rewrite console_app. split; [exact E|]. split; [exact F|]. split; [exact N|]. intros n' Hn'. rewrite status_app. apply L, Hn'.
  - (* BasicConfig *)
    destruct I as [A B C D (i & fs & E & F & N & L)].
    split; [|intros _; exists []; rewrite app_nil_r; split; [destruct (root_handlers st); reflexivity|intros ? []]].
    assert (X : exists i fs, handlers st = mkh i console_name (console_level (ops ++ [BasicConfig l s]) 21) Console :: fs /\ Forall is_file fs /\
       NoDup (map h_name fs) /\ forall n, n <> console_name -> status openable n (ops ++ [BasicConfig l s]) None = lookup n fs).
    { exists i, fs. rewrite console_app. split; [exact E|]. split; [exact F|]. split; [exact N|]. intros n' Hn'. rewrite status_app. apply L, Hn'. }
    destruct (root_handlers st) as [|h rh] eqn:Er; cbn [fst]; constructor; cbn [level root_handlers handlers next]; auto.
    + constructor; [eexists; reflexivity|constructor].
    + eapply Forall_impl; [|exact C]. simpl. intros; lia.
    + rewrite Er. exact B.
Qed.

Lemma session_inv rl ops : Forall files_only ops -> inv (st_after rl [] ops) ops.
Proof.
  induction ops as [|o ops IH] using rev_ind; intros H.
  - unfold session. cbn [fold_left]. unfold setup_logger, start. cbn [handlers root_handlers app]. apply inv_emit.
    constructor; cbn; try reflexivity; try constructor; try constructor; try lia.
    + intros [].
    + exists 1, []. repeat split; constructor.
  - apply Forall_app in H. destruct H as [H1 H2]. inversion H2; subst. rewrite session_app. apply step_inv; auto.
Qed.

(** ** where a message goes *)
Definition sink_dec : forall a b : sink, {a = b} + {a <> b}.
Proof. decide equality; try apply string_dec; apply Nat.eq_dec. Defined.

Lemma count_files fs l p : Forall is_file fs -> NoDup (map h_name fs) ->
  count_occ sink_dec (map h_sink (filter (fun h => h_level h <=? l) fs)) (File p) =
  length (filter (fun n => match lookup n fs with Some (q, lv) => String.eqb q p && (lv <=? l) | None => false end) (map h_name fs)).
Proof.
  intros F N.
  assert (X : forall gs, incl gs fs -> count_occ sink_dec (map h_sink (filter (fun h => h_level h <=? l) gs)) (File p) =
    length (filter (fun n => match lookup n fs with Some (q, lv) => String.eqb q p && (lv <=? l) | None => false end) (map h_name gs))).
  { induction gs as [|g gs IH]; intros H; [reflexivity|]. cbn [map filter].
    assert (Hg : In g fs) by (apply H; left; reflexivity). rewrite Forall_forall in F. destruct (F g Hg) as [_ [q Eq]].
    rewrite (lookup_in (h_name g) fs g q N Hg eq_refl Eq). assert (IH' := IH (fun x hx => H x (or_intror hx))).
    destruct (h_level g <=? l) eqn:El.
    - cbn [map]. rewrite Eq, andb_true_r. cbn [count_occ]. destruct (sink_dec (File q) (File p)) as [e|e]; destruct (String.eqb_spec q p) as [e'|e']; try congruence; cbn [length]; rewrite IH'; reflexivity.
    - rewrite andb_false_r. exact IH'. }
  apply X. apply incl_refl.
Qed.

Lemma length_filter_perm {A} (P : A -> bool) l l' : Permutation l l' -> length (filter P l) = length (filter P l').
Proof. intros H. induction H; simpl; try congruence; repeat match goal with |- context [P ?z] => destruct (P z) end; simpl; congruence. Qed.
Lemma length_filter_same {A} (eqd : forall a b : A, {a = b} + {a <> b}) (P : A -> bool) l l' : NoDup l -> NoDup l' -> (forall a, P a = true -> (In a l <-> In a l')) ->
  length (filter P l) = length (filter P l').
Proof.
  intros N N' H. apply Permutation_length. apply NoDup_Permutation; [apply NoDup_filter, N|apply NoDup_filter, N'|].
  intros a. rewrite !filter_In. split; intros [A1 A2]; (split; [apply H; assumption|assumption]).
Qed.
Lemma status_used n : forall ops cur, status openable n ops cur <> None -> cur <> None \/ In n (file_names ops).
Proof.
  induction ops as [|o ops IH]; intros cur H; [left; exact H|]. cbn [status] in H. apply IH in H. destruct H as [H|H]; [|right; unfold file_names; cbn [flat_map]; apply in_or_app; right; exact H].
  destruct o as [p m l|m|l m|l s|l s]; auto.
  - destruct (String.eqb_spec m n) as [<-|]; auto. right. left. reflexivity.
  - destruct (String.eqb m n); auto.
  - destruct (String.eqb m n); auto. destruct cur; [left; discriminate|congruence].
Qed.

Lemma log_step st ops l s : inv st ops -> 10 <= l -> Forall files_only ops -> exists w, out (emit l (Text s) st) = out st ++ map (fun k => (k, Text s)) w /\
  (forall p, count_occ sink_dec w (File p) = copies openable ops l p) /\
  count_occ sink_dec w Console = (if console_level ops 21 <=? l then 1 else 0).
Proof.
  intros [A B C D (i & fs & E & F & N & L)] Hl Ho. unfold emit, effective. rewrite A. cbn [Nat.eqb]. destruct (Nat.ltb_spec l 10); [lia|]. cbn [out].
  exists (targets st l). split; [reflexivity|]. unfold targets. rewrite E. cbn [app]. cbn [filter h_level].
  assert (Hr : forall x, (forall k, x <> Custom k) -> count_occ sink_dec (map h_sink (filter (fun h => h_level h <=? l) (root_handlers st))) x = 0).
  { intros x Hx. apply count_occ_not_In. intros X. apply in_map_iff in X. destruct X as (h & Eh & Hh). apply filter_In in Hh. rewrite Forall_forall in B.
    destruct (B h (proj1 Hh)) as [k Ek]. apply (Hx k). congruence. }
  assert (Hc : count_occ sink_dec (map h_sink (filter (fun h => h_level h <=? l) fs)) Console = 0).
  { apply count_occ_not_In. intros X. apply in_map_iff in X. destruct X as (h & Eh & Hh). apply filter_In in Hh. rewrite Forall_forall in F.
    destruct (F h (proj1 Hh)) as [_ [q Eq]]. congruence. }
  rewrite filter_app.
  split.
  - intros p. assert (X : count_occ sink_dec (map h_sink (filter (fun h => h_level h <=? l) fs ++ filter (fun h => h_level h <=? l) (root_handlers st))) (File p) = copies openable ops l p).
    { rewrite map_app, count_occ_app, (Hr (File p)) by discriminate. rewrite Nat.add_0_r, count_files by assumption. unfold copies.
      assert (Hf : forall n, In n (map h_name fs) -> status openable n ops None = lookup n fs).
      { intros n Hn. apply L. apply in_map_iff in Hn. destruct Hn as (h & <- & Hh). rewrite Forall_forall in F. apply F, Hh. }
      rewrite (filter_ext_in _ (fun n => match status openable n ops None with Some (q, lv) => String.eqb q p && (lv <=? l) | None => false end)).
      - apply (length_filter_same string_dec); [exact N|apply NoDup_nodup|]. intros n Hn. destruct (status openable n ops None) as [[q lv]|] eqn:S; [|discriminate].
        rewrite nodup_In. split; intros _.
        + destruct (status_used n ops None) as [|]; [congruence|congruence|assumption].
        + destruct (string_dec n console_name) as [->|Hc'].
          * exfalso. destruct (status_used console_name ops None) as [X|X]; [congruence|congruence|]. clear - X Ho. unfold file_names in X. apply in_flat_map in X. destruct X as (o & Io & Hn).
            rewrite Forall_forall in Ho. specialize (Ho o Io). destruct o; simpl in *; try contradiction. destruct Hn as [->|[]]. congruence.
          * rewrite (L n Hc') in S. unfold lookup in S. destruct (find _ fs) as [h|] eqn:Fd; [|discriminate]. apply find_some in Fd. destruct Fd as [Fd Fe]. apply String.eqb_eq in Fe. rewrite <- Fe. apply in_map, Fd.
      - intros n Hn. rewrite Hf by exact Hn. reflexivity. }
    destruct (console_level ops 21 <=? l); cbn [app map h_sink]; [cbn [count_occ]; destruct (sink_dec Console (File p)); [discriminate|]|]; exact X.
  - assert (X : count_occ sink_dec (map h_sink (filter (fun h => h_level h <=? l) fs ++ filter (fun h => h_level h <=? l) (root_handlers st))) Console = 0).
    { rewrite map_app, count_occ_app, (Hr Console) by discriminate. rewrite Hc. reflexivity. }
    destruct (console_level ops 21 <=? l); cbn [app map h_sink]; [cbn [count_occ]; destruct (sink_dec Console Console); [|congruence]; f_equal|]; exact X.
Qed.

(** ** a root logger with handlers *)
Definition rooted (rl : nat) (rh : list handler) (st : lst) : Prop :=
  root_level st = rl /\ root_handlers st = rh /\ level st = 0.
Lemma setup_rooted rh st : rh <> [] -> root_handlers st = rh -> setup_logger st = st.
Proof. intros H E. unfold setup_logger. destruct (handlers st); cbn [app]; [|reflexivity]. rewrite E. destruct rh; [congruence|reflexivity]. Qed.
Lemma emit_rooted rl rh l m st : rooted rl rh st -> rooted rl rh (emit l m st).
Proof. intros (A & B & C). destruct (emit_same l m st) as (E1 & E2 & E3 & _). unfold rooted. rewrite E1, E2, E3. auto. Qed.
Lemma close_rooted rl rh n : forall hs i st, rooted rl rh st -> rooted rl rh (fst (close_all n i hs st)).
Proof.
  induction hs as [|h hs IH]; intros i st H; [exact H|]. cbn [close_all]. set (st1 := remove_handler (h_id h) st).
  assert (R : rooted rl rh st1) by exact H. destruct (h_sink h); try exact R. apply IH, emit_rooted, R.
Qed.
Lemma step_rooted rl rh st o : rh <> [] -> rooted rl rh st -> rooted rl rh (fst (step openable st o)).
Proof.
  intros Hr R. pose proof R as (A & B & C). destruct o as [p n l|n|l n|l s|l s]; cbn [step].
  - unfold start_log_to_file. destruct (stop_log_to_file n st) as [st' r] eqn:E.
    assert (R' : rooted rl rh st').
    { unfold stop_log_to_file in E. rewrite (setup_rooted rh) in E by assumption. pose proof (close_rooted rl rh n (filter (fun h => String.eqb (h_name h) n) (handlers st)) 0 st R) as X. rewrite E in X. exact X. }
    destruct r; [|exact R']. pose proof R' as (A' & B' & C'). rewrite (setup_rooted rh) by assumption. destruct (openable p); cbn [fst]; [|exact R'].
    apply emit_rooted. exact R'.
  - unfold stop_log_to_file. rewrite (setup_rooted rh) by assumption. apply close_rooted, R.
  - unfold set_log_handler_level. rewrite (setup_rooted rh) by assumption. destruct (set_first n l (handlers st)); exact R.
  - apply emit_rooted, R.
  - rewrite B. destruct rh; [congruence|exact R].
Qed.
Lemma session_rooted rl rh ops : rh <> [] -> rooted rl rh (st_after rl rh ops).
Proof.
  intros H. induction ops as [|o ops IH] using rev_ind.
  - unfold session. cbn [fold_left]. rewrite (setup_rooted rh); [repeat split|exact H|reflexivity].
  - rewrite session_app. apply step_rooted; assumption.
Qed.
End S.
