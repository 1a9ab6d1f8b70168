(** C191: the final output of a feature *)
From Coq Require Import String Ascii List Arith Bool Lia.
From Verif Require Import Base Base_Proofs Ppr_Model Ppr_Spec.
Import ListNotations.
Local Open Scope string_scope.
Local Open Scope list_scope.

Section PprProofs.
Context {F N T : Type}.
Notation fit := (fit F N).
Notation pfunc := (pfunc F N T).
Lemma collect_ok (p : pfunc) (l : list (string * fit)) : p_arg p = "fit" -> works p l -> NoDup (map fst l) -> forall acc,
  exists ret, collect F N T p l acc = Ok ret /\ (forall n, In n (keys ret) <-> In n (map fst l) \/ In n (keys acc)) /\
    (forall n f, In (n, f) l -> exists v, p_one p f = Ok v /\ dget string_dec n ret = Some (ByConfig v)) /\
    (forall n, ~ In n (map fst l) -> dget string_dec n ret = dget string_dec n acc).
Proof.
  intros A. induction l as [|[n f] l IH]; intros W D acc.
  - exists acc. split; [reflexivity|]. split; [intros n; cbn; tauto|]. split; [intros n f []|reflexivity].
  - inversion D as [|? ? D1 D2]; subst. destruct (W n f) as (v & Ev); [left; reflexivity|]. cbn [collect]. unfold call_kw. rewrite A, String.eqb_refl, Ev. cbn [bind].
    destruct (IH (fun a b I => W a b (or_intror I)) D2 (dset string_dec n (ByConfig v) acc)) as (ret & E & K & G & O). exists ret. split; [exact E|]. split; [|split].
    + intros m. rewrite K, in_keys_dset. cbn. intuition congruence.
    + intros m g [I|I]; [|exact (G m g I)]. injection I as <- <-. exists v. split; [exact Ev|]. rewrite (O n D1). apply dget_dset_same.
    + intros m Hm. cbn in Hm. rewrite (O m) by tauto. apply dget_dset_other. intros ->. tauto.
Qed.
Lemma picked_ok (p : pfunc) (l cfgs : list (string * fit)) : (forall n f, In (n, f) cfgs -> dget string_dec n l = Some f) -> forall acc,
  collect_picked F N T p (picked F N l (map fst cfgs)) acc = collect F N T p cfgs acc.
Proof.
  induction cfgs as [|[n f] r IH]; intros H acc; [reflexivity|]. cbn. rewrite (H n f) by (left; reflexivity). cbn [bind]. destruct (call_kw F N T p f) as [v|e]; [|reflexivity]. cbn [bind]. apply IH. intros m g I. apply H. right. exact I.
Qed.
Lemma with_reader_arg (p : pfunc) (cfgs : list (string * fit)) (ret : dict string (entry T)) : plain cfgs ->
  (forall n, In n (keys ret) <-> In n (map fst cfgs) \/ In n []) -> (forall n f, In (n, f) cfgs -> exists v, p_one p f = Ok v /\ dget string_dec n ret = Some (ByConfig v)) ->
  output_of p cfgs (if dmem string_dec "const__reader_arg" ret then ret else dset string_dec "const__reader_arg" ReaderArg ret).
Proof.
  intros P K G. assert (M : dmem string_dec "const__reader_arg" ret = false).
  { unfold dmem. destruct (dget string_dec "const__reader_arg" ret) eqn:E; [|reflexivity]. exfalso. assert (I : In "const__reader_arg" (keys ret)) by (apply (dget_in_keys string_dec); congruence). apply K in I. destruct I as [I|[]]. exact (P I). }
  rewrite M. split; [|split].
  - intros n. rewrite in_keys_dset, K. cbn. tauto.
  - intros n f I. destruct (G n f I) as (v & E & D). exists v. split; [exact E|]. rewrite dget_dset_other; [exact D|]. intros ->. apply P. apply in_map_iff. exists ("const__reader_arg", f). split; [reflexivity|exact I].
  - apply dget_dset_same.
Qed.

(** all configurations (use_config=None), with the given function or the one of the class *)
Theorem C191_all : forall cls post (p : pfunc) (l : list (string * fit)),
  (match post with Some q => Some q | None => cls end) = Some p -> p_arg p = "fit" -> works p l -> NoDup (map fst l) -> plain l ->
  exists ret, run_postprocess cls (Many l) UNone post = Ok ret /\ output_of p l ret.
Proof.
  intros cls post p l Hp A W D P. destruct (collect_ok p l A W D []) as (ret & E & K & G & _).
  exists (if dmem string_dec "const__reader_arg" ret then ret else dset string_dec "const__reader_arg" ReaderArg ret). split; [|apply with_reader_arg; assumption].
  unfold run_postprocess. cbv zeta. cbn [apply_dict]. destruct post as [q|]; [injection Hp as ->|rewrite Hp]; cbn [apply_dict]; rewrite E; reflexivity.
Qed.

(** the configurations of a list, whatever others there are *)
Theorem C191_list : forall cls post (p : pfunc) (l cfgs : list (string * fit)),
  (match post with Some q => Some q | None => cls end) = Some p -> p_arg p = "fit" -> works p cfgs -> NoDup (map fst cfgs) -> plain cfgs ->
  (forall n f, In (n, f) cfgs -> dget string_dec n l = Some f) ->
  exists ret, run_postprocess cls (Many l) (UList (map fst cfgs)) post = Ok ret /\ output_of p cfgs ret.
Proof.
  intros cls post p l cfgs Hp A W D P H. destruct (collect_ok p cfgs A W D []) as (ret & E & K & G & _).
  exists (if dmem string_dec "const__reader_arg" ret then ret else dset string_dec "const__reader_arg" ReaderArg ret). split; [|apply with_reader_arg; assumption].
  unfold run_postprocess. cbv zeta. destruct post as [q|]; [injection Hp as ->|rewrite Hp]; cbn [apply_dict]; rewrite (picked_ok p l cfgs H), E; reflexivity.
Qed.

(** a result with a single fit: its own name or "default", whatever is asked for (except for from_postprocess) *)
Theorem C191_single : forall cls post (p : pfunc) (c : option string) (f : fit) u,
  (match post with Some q => Some q | None => cls end) = Some p -> works p [(match c with Some n => n | None => "default" end, f)] ->
  c <> Some "const__reader_arg" -> u <> UStr "from_postprocess" ->
  exists ret, run_postprocess cls (One c f) u post = Ok ret /\ output_of p [(match c with Some n => n | None => "default" end, f)] ret.
Proof.
  intros cls post p c f u Hp W Hc Hu. set (name := match c with Some n => n | None => "default" end) in *. destruct (W name f) as (v & Ev); [left; reflexivity|].
  assert (U : match u with UStr s => String.eqb s "from_postprocess" | _ => false end = false).
  { destruct u as [|s| |]; try reflexivity. apply String.eqb_neq. intros ->. apply Hu. reflexivity. }
  exists (if dmem string_dec "const__reader_arg" [(name, @ByConfig T v)] then [(name, ByConfig v)] else dset string_dec "const__reader_arg" ReaderArg [(name, ByConfig v)]). split.
  - unfold run_postprocess. cbv zeta. rewrite U, Hp, Ev. reflexivity.
  - apply with_reader_arg.
    + intros [E|[]]. unfold name in E. cbn in E. destruct c as [n|]; [apply Hc; congruence|discriminate].
    + intros n. cbn. tauto.
    + intros n g [I|[]]. injection I as <- <-. exists v. split; [exact Ev|]. cbn. destruct (string_dec name name); [reflexivity|congruence].
Qed.

(** use_config="from_postprocess": the return of the given function itself *)
Theorem C191_direct : forall cls (p : pfunc) (l : list (string * fit)) d, p_many p l = Ok (Some d) -> NoDup (keys d) ->
  exists ret, run_postprocess cls (Many l) (UStr "from_postprocess") (Some p) = Ok ret /\
    (forall k t, In (k, t) d -> dget string_dec k ret = Some (Layer t)) /\ forall k, In k (keys ret) <-> In k (keys d) \/ k = "const__reader_arg".
Proof.
  intros cls p l d E D. unfold run_postprocess. cbv zeta. cbn. unfold direct. rewrite E. cbn [bind].
  set (m := map (fun e : string * T => (fst e, Layer (snd e))) d). assert (Km : keys m = keys d) by (unfold m, keys; rewrite map_map; reflexivity).
  assert (G : forall k t, In (k, t) d -> dget string_dec k m = Some (Layer t)).
  { intros k t I. apply dget_in_nodup; [rewrite Km; exact D|]. unfold m. apply in_map_iff. exists (k, t). split; [reflexivity|exact I]. }
  eexists. split; [reflexivity|]. destruct (dmem string_dec "const__reader_arg" m) eqn:M.
  - split; [exact G|]. intros k. rewrite Km. split; [tauto|]. intros [I| ->]; [exact I|]. rewrite <- Km. apply (dget_in_keys string_dec). unfold dmem in M. destruct (dget string_dec "const__reader_arg" m); congruence.
  - split.
    + intros k t I. rewrite dget_dset_other; [exact (G k t I)|]. intros ->. unfold dmem in M. rewrite (G _ _ I) in M. discriminate.
    + intros k. rewrite in_keys_dset, Km. tauto.
Qed.

Lemma collect_err (p : pfunc) (l : list (string * fit)) n f e : In (n, f) l -> p_one p f = Err e -> forall acc, exists e', collect F N T p l acc = Err e'.
Proof.
  induction l as [|[m g] l IH]; intros I E acc; [destruct I|]. cbn [collect]. unfold call_kw. destruct (String.eqb (p_arg p) "fit"); [|eexists; reflexivity].
  destruct I as [I|I]; [injection I as -> ->; rewrite E; eexists; reflexivity|]. destruct (p_one p g) as [v|e']; [|eexists; reflexivity]. cbn [bind]. exact (IH I E _).
Qed.
Lemma picked_err (p : pfunc) (l : list (string * fit)) names n : In n names -> (dget string_dec n l = None \/ exists f e, dget string_dec n l = Some f /\ p_one p f = Err e) ->
  forall acc, exists e', collect_picked F N T p (picked F N l names) acc = Err e'.
Proof.
  induction names as [|m r IH]; intros I H acc; [destruct I|]. cbn [picked collect_picked]. destruct I as [->|I].
  - destruct H as [H|(f & e & H & E)]; rewrite H; [eexists; reflexivity|]. cbn [bind]. unfold call_kw. destruct (String.eqb (p_arg p) "fit"); [rewrite E|]; eexists; reflexivity.
  - destruct (dget string_dec m l) as [g|]; [|eexists; reflexivity]. cbn [bind]. destruct (call_kw F N T p g) as [v|e]; [|eexists; reflexivity]. cbn [bind]. exact (IH I H _).
Qed.

(** one configuration whose postprocess raises (or that does not exist) and there is no output at all for the feature;
    configurations that are not asked for do not matter *)
Theorem C191_error : forall cls post (p : pfunc) (l : list (string * fit)), (match post with Some q => Some q | None => cls end) = Some p ->
  (forall n f e, In (n, f) l -> p_one p f = Err e -> exists e', run_postprocess cls (Many l) UNone post = Err e') /\
  (forall n names, In n names -> (dget string_dec n l = None \/ exists f e, dget string_dec n l = Some f /\ p_one p f = Err e) ->
     exists e', run_postprocess cls (Many l) (UList names) post = Err e').
Proof.
  intros cls post p l Hp. split.
  - intros n f e I E. destruct (collect_err p l n f e I E []) as (e' & C). exists e'.
    unfold run_postprocess. cbv zeta. destruct post as [q|]; [injection Hp as ->|rewrite Hp]; cbn [apply_dict]; rewrite C; reflexivity.
  - intros n names I H. destruct (picked_err p l names n I H []) as (e' & C). exists e'.
    unfold run_postprocess. cbv zeta. destruct post as [q|]; [injection Hp as ->|rewrite Hp]; cbn [apply_dict]; rewrite C; reflexivity.
Qed.

(** nothing to apply: no function given and none in the class; a tuple of names; None as the return of a direct function *)
Theorem C191_rejects : forall (cls : option pfunc) (p : pfunc) (l : list (string * fit)) c (f : fit) u t,
  run_postprocess (N := N) (T := T) None (Many l) u None = Err AssertionError /\ run_postprocess (T := T) None (One c f) u None = Err AttributeError /\
  run_postprocess cls (Many l) (UTuple t) (Some p) = Err AssertionError /\
  (p_many p l = Ok None -> run_postprocess cls (Many l) (UStr "from_postprocess") (Some p) = Err TypeError).
Proof.
  intros cls p l c f u t. split; [destruct u; reflexivity|]. split; [destruct u; reflexivity|]. split; [reflexivity|]. intros E. unfold run_postprocess. cbn. unfold direct. rewrite E. reflexivity.
Qed.

(** the function of the class is never used directly for a MultiFits result: from_postprocess means None for it *)
Theorem C191_direct_class_refuted : forall (p : pfunc) (l : list (string * fit)),
  run_postprocess (Some p) (Many l) (UStr "from_postprocess") None = run_postprocess (Some p) (Many l) UNone None.
Proof. reflexivity. Qed.

(** the parameter of a postprocess function: any name for single fits, only "fit" for MultiFits *)
Theorem C191_parameter_refuted : forall cls (p q : pfunc) c (f : fit) n l u, p_arg q <> "fit" -> p_one q = p_one p -> p_many q = p_many p ->
  run_postprocess cls (One c f) u (Some q) = run_postprocess cls (One c f) u (Some p) /\
  run_postprocess cls (Many ((n, f) :: l)) UNone (Some q) = Err TypeError.
Proof.
  intros cls p q c f n l u A E1 E2. split.
  - unfold run_postprocess. cbv zeta. rewrite E1. reflexivity.
  - unfold run_postprocess. cbv zeta. cbn [apply_dict collect]. unfold call_kw. apply String.eqb_neq in A. rewrite A. reflexivity.
Qed.

(** *** the parent *)
Variable coefs : F -> N.
Lemma pre_loop_spec (names : list string) : forall l l', pre_loop F N coefs names l = Ok l' ->
  (forall n, In n names -> In n (keys l)) /\
  (forall n, dget string_dec n l' = match dget string_dec n l with Some f => Some (if inb string_dec n names then pre_fit F N coefs f else f) | None => None end).
Proof.
  induction names as [|m r IH]; intros l l' E.
  - injection E as <-. split; [intros n []|]. intros n. destruct (dget string_dec n l); reflexivity.
  - cbn [pre_loop] in E. destruct (dget string_dec m l) as [f|] eqn:G; [|discriminate]. destruct (IH _ _ E) as (K & V).
    assert (Im : In m (keys l)) by (apply (dget_in_keys string_dec); congruence). split.
    + intros n [<-|I]; [exact Im|]. apply K in I. rewrite in_keys_dset in I. destruct I as [->|I]; assumption.
    + intros n. rewrite V. destruct (string_dec m n) as [<-|Hn].
      * rewrite dget_dset_same, G. assert (B : inb string_dec m (m :: r) = true) by (apply inb_iff; left; reflexivity). rewrite B. destruct (inb string_dec m r); [|reflexivity].
        unfold pre_fit. destruct (int_Q f) eqn:Q; cbn; [reflexivity|rewrite Q; reflexivity].
      * rewrite dget_dset_other by congruence. replace (inb string_dec n (m :: r)) with (inb string_dec n r); [reflexivity|].
        destruct (inb string_dec n r) eqn:B; symmetry; [apply inb_iff in B; apply inb_iff; right; exact B|]. apply inb_false in B. apply inb_false. intros [H|H]; contradiction.
Qed.
Lemma pre_loop_total (names : list string) : forall l, (forall n, In n names -> In n (keys l)) -> exists l', pre_loop F N coefs names l = Ok l'.
Proof.
  induction names as [|m r IH]; intros l H; [eexists; reflexivity|]. cbn [pre_loop]. destruct (dget string_dec m l) as [f|] eqn:G.
  - apply IH. intros n I. rewrite in_keys_dset. right. apply H. right. exact I.
  - exfalso. apply (dget_none string_dec) in G. apply G, H. left. reflexivity.
Qed.
Lemma pre_loop_missing (names : list string) n : In n names -> forall l, ~ In n (keys l) -> pre_loop F N coefs names l = Err KeyError.
Proof.
  induction names as [|m r IH]; intros I l H; [destruct I|]. cbn [pre_loop]. destruct (dget string_dec m l) as [f|] eqn:G; [|reflexivity].
  assert (Im : In m (keys l)) by (apply (dget_in_keys string_dec); congruence). destruct I as [->|I]; [contradiction|]. apply (IH I). rewrite in_keys_dset. intros [->|J]; contradiction.
Qed.
Lemma assign_spec (parent l l' : list (string * fit)) : assign_loop F N parent l = Ok l' ->
  Forall2 (fun a b => fst a = fst b /\ exists g, dget string_dec (fst a) parent = Some g /\ snd b = (if int_Q g then mkfit (def (snd a)) (int_Q (snd a)) (fn g) else snd a)) l l'.
Proof.
  revert l'. induction l as [|[n f] l IH]; intros l' E; [injection E as <-; constructor|]. cbn [assign_loop] in E. destruct (dget string_dec n parent) as [g|] eqn:G; [|discriminate].
  destruct (assign_loop F N parent l) as [r|] eqn:R; [|discriminate]. injection E as <-. constructor; [|apply IH; reflexivity]. split; [reflexivity|]. exists g. split; [exact G|reflexivity].
Qed.
Lemma assign_names (parent l l' : list (string * fit)) : assign_loop F N parent l = Ok l' -> map fst l' = map fst l.
Proof. intros E. apply assign_spec in E. induction E as [|a b l l' (E1 & _) _ IH]; [reflexivity|]. cbn. rewrite E1, IH. reflexivity. Qed.
Lemma assign_missing (parent l : list (string * fit)) n : In n (map fst l) -> ~ In n (keys parent) -> exists e, assign_loop F N parent l = Err e.
Proof.
  induction l as [|[m f] l IH]; intros I H; [destruct I|]. cbn [assign_loop]. destruct (dget string_dec m parent) as [g|] eqn:G; [|eexists; reflexivity].
  assert (Im : In m (keys parent)) by (apply (dget_in_keys string_dec); congruence). cbn in I. destruct I as [->|I]; [contradiction|]. destruct (IH I H) as (e & E). rewrite E. eexists; reflexivity.
Qed.

(** the coefficients a postprocess function works with: those of the configuration with the same name in the parent, evaluated
    from this configuration's definition when it was asked for, else the ones it already had; nothing else of a fit changes *)
Theorem C191_coefficients : forall (parent l : list (string * fit)) names parent' o, pre_evaluate coefs (Many parent) (UList names) = Ok parent' ->
  finalout_reader parent' (Ok (Many l)) = Some o ->
  exists l', o = Many l' /\ Forall2 (fun a b => fst a = fst b /\ def (snd b) = def (snd a) /\ int_Q (snd b) = int_Q (snd a) /\
    exists g, dget string_dec (fst a) parent = Some g /\
      fn (snd b) = (if int_Q g then (if inb string_dec (fst a) names then Some (coefs (def g)) else fn g) else fn (snd a))) l l'.
Proof.
  intros parent l names parent' o E R. unfold pre_evaluate in E. destruct (pre_loop F N coefs names parent) as [q|] eqn:Q; [|discriminate]. injection E as <-.
  destruct (pre_loop_spec _ _ _ Q) as (_ & V). unfold finalout_reader in R. cbn [bind] in R. destruct (assign_loop F N q l) as [l'|] eqn:A; [|discriminate]. injection R as <-.
  exists l'. split; [reflexivity|]. apply assign_spec in A. induction A as [|a b l l' (E1 & g & Hg & Eb) A IH]; constructor; [|exact IH].
  rewrite V in Hg. destruct (dget string_dec (fst a) parent) as [h|] eqn:Hh; [|discriminate]. injection Hg as <-. rewrite Eb.
  split; [exact E1|]. destruct (inb string_dec (fst a) names) eqn:I.
  - unfold pre_fit. destruct (int_Q h) eqn:Qh; cbn; [|rewrite Qh]; (split; [reflexivity|]; split; [reflexivity|]; exists h; split; [reflexivity|]; rewrite Qh; reflexivity).
  - destruct (int_Q h) eqn:Qh; cbn; (split; [reflexivity|]; split; [reflexivity|]; exists h; split; [reflexivity|]; rewrite Qh; reflexivity).
Qed.

(** the whole run: for a parent with the configurations of every stored result, and a list of some of them, each readable file
    gives exactly the configurations of the list *)
Theorem C191_run : forall cls post (p : pfunc) (parent : list (string * fit)) (files : list (res (obj F N))) names,
  (match post with Some q => Some q | None => cls end) = Some p -> p_arg p = "fit" -> (forall f, exists v, p_one p f = Ok v) ->
  NoDup names -> ~ In "const__reader_arg" names -> (forall n, In n names -> In n (keys parent)) ->
  exists outs, run_finalout coefs (Many parent) files cls (UList names) post = Ok outs /\ length outs = length files /\
    forall i l, nth_error files i = Some (Ok (Many l)) -> (forall n, In n (map fst l) -> In n (keys parent)) -> (forall n, In n names -> In n (map fst l)) ->
      exists ret, nth_error outs i = Some (Some (Ok ret)) /\ forall k, In k (keys ret) <-> In k names \/ k = "const__reader_arg".
Proof.
  intros cls post p parent files names Hp A W D P S. destruct (pre_loop_total names parent S) as (q & Q). destruct (pre_loop_spec _ _ _ Q) as (_ & V).
  unfold run_finalout, pre_evaluate. rewrite Q. cbn [bind]. eexists. split; [reflexivity|]. split; [apply map_length|].
  intros i l Ei Hl Hn. rewrite nth_error_map, Ei. cbn [option_map].
  assert (T1 : forall l0 : list (string * fit), (forall n, In n (map fst l0) -> In n (keys parent)) -> exists l', assign_loop F N q l0 = Ok l').
  { induction l0 as [|[n f] r IH]; intros H; [eexists; reflexivity|]. cbn [assign_loop]. rewrite V. destruct (dget string_dec n parent) as [g|] eqn:G.
    - destruct (IH (fun m I => H m (or_intror I))) as (l' & E). rewrite E. eexists; reflexivity.
    - exfalso. apply (dget_none string_dec) in G. apply G, H. left. reflexivity. }
  destruct (T1 l Hl) as (l' & El). unfold finalout_reader. cbn [bind]. rewrite El. cbn [bind].
  assert (K : map fst l' = map fst l) by exact (assign_names q l l' El).
  assert (C : exists cfgs, map fst cfgs = names /\ forall n f, In (n, f) cfgs -> dget string_dec n l' = Some f).
  { clear - Hn K. rewrite <- K in Hn. induction names as [|n r IH]; [exists []; split; [reflexivity|intros ? ? []]|]. destruct IH as (cfgs & E & G); [intros m I; apply Hn; right; exact I|].
    destruct (dget string_dec n l') as [f|] eqn:Gf; [|exfalso; apply (dget_none string_dec) in Gf; apply Gf, Hn; left; reflexivity].
    exists ((n, f) :: cfgs). split; [cbn; rewrite E; reflexivity|]. intros m g [I|I]; [injection I as <- <-; exact Gf|exact (G m g I)]. }
  destruct C as (cfgs & Ec & G). subst names.
  destruct (C191_list cls post p l' cfgs Hp A (fun n f _ => W f) D P G) as (ret & E & O & _). exists ret. rewrite E. split; [reflexivity|exact O].
Qed.

(** a configuration of the list the parent does not have stops everything; a string is taken letter by letter *)
Theorem C191_string_refuted : forall (parent : list (string * fit)) (files : list (res (obj F N))) (cls post : option pfunc),
  (forall names n, In n names -> ~ In n (keys parent) -> run_finalout coefs (Many parent) files cls (UList names) post = Err KeyError) /\
  (forall s c, s <> "from_postprocess" -> In c (letters_of s) -> ~ In c (keys parent) -> run_finalout coefs (Many parent) files cls (UStr s) post = Err KeyError).
Proof.
  intros parent files cls post. split.
  - intros names n I H. unfold run_finalout, pre_evaluate. rewrite (pre_loop_missing names n I parent H). reflexivity.
  - intros s c Hs I H. unfold run_finalout, pre_evaluate. apply String.eqb_neq in Hs. rewrite Hs, (pre_loop_missing _ c I parent H). reflexivity.
Qed.

(** a stored result with a configuration the parent does not know, or of the other kind, is left out, whatever is asked for *)
Theorem C191_missing_refuted : forall (parent l : list (string * fit)) n c (f : fit), In n (map fst l) -> ~ In n (keys parent) ->
  finalout_reader (Many parent) (Ok (Many l)) = None /\ finalout_reader (Many parent) (Ok (One c f)) = None /\ finalout_reader (One c f) (Ok (Many l)) = None.
Proof.
  intros parent l n c f I H. split; [|split; reflexivity]. unfold finalout_reader. cbn [bind]. destruct (assign_missing parent l n I H) as (e & E). rewrite E. reflexivity.
Qed.
End PprProofs.
Print Assumptions C191_all. Print Assumptions C191_list. Print Assumptions C191_single. Print Assumptions C191_direct. Print Assumptions C191_error.
Print Assumptions C191_rejects. Print Assumptions C191_direct_class_refuted. Print Assumptions C191_parameter_refuted. Print Assumptions C191_coefficients.
Print Assumptions C191_run. Print Assumptions C191_string_refuted. Print Assumptions C191_missing_refuted.

(** two configurations, of which one is asked for; the same as a string; a file of a single fit between files of both *)
Definition ex_p : pfunc nat nat nat := mkp "fit" (fun f => Ok (Some [("sm", def f + match fn f with Some n => n | None => 0 end)])) (fun l => Ok (Some [("n", length l)])).
Definition ex_two (a b : nat) : obj nat nat := Many [("dry", mkfit a true None); ("wet", mkfit b false None)].
Example C191_example :
  run_finalout (fun n => n * 100) (ex_two 1 2) [Ok (ex_two 3 4); Err RuntimeError; Ok (One None (mkfit 7 true None))] None (UList ["dry"]) (Some ex_p)
    = Ok [Some (Ok [("dry", ByConfig (Some [("sm", 103)])); ("const__reader_arg", ReaderArg)]); None; None] /\
  run_finalout (fun n => n * 100) (ex_two 1 2) [Ok (ex_two 3 4)] None (UStr "dry") (Some ex_p) = Err KeyError /\
  run_finalout (fun n => n * 100) (ex_two 1 2) [Ok (ex_two 3 4)] None (UStr "from_postprocess") (Some ex_p)
    = Ok [Some (Ok [("n", Layer 2); ("const__reader_arg", ReaderArg)])] /\
  run_finalout (fun n => n * 100) (One (Some "dry") (mkfit 1 true None)) [Ok (One (Some "dry") (mkfit 3 true None))] None (UStr "wet") (Some ex_p)
    = Ok [Some (Ok [("dry", ByConfig (Some [("sm", 103)])); ("const__reader_arg", ReaderArg)])] /\
  In "d" (letters_of "dry") /\ ~ In "d" (keys [("dry", mkfit 1 true (@None nat)); ("wet", mkfit 2 false None)]).
Proof. repeat split; try reflexivity; try (left; reflexivity). intros [I|[I|[]]]; discriminate. Qed.
