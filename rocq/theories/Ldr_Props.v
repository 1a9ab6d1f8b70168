(** C157, C158: files of a result-folder *)
From Coq Require Import Arith Bool String Ascii List Lia.
From Verif Require Import Base Base_Proofs Str_Model Str_Proofs Rdr_Model Rdr_Proofs Ldr_Model Ldr_Spec.
Import ListNotations.
Local Open Scope string_scope.
Local Open Scope list_scope.

Lemma stem_ending a x : a <> "" -> x <> "" -> has_char "." x = false -> stem (a ++ ("." ++ x))%string = a.
Proof.
  intros H X N. unfold stem. assert (L : last_dot ("." ++ x) = Some 0). { cbn. now rewrite (last_dot_none x N). }
  rewrite (last_dot_app a _ 0 L), Nat.add_0_r, slength_app. destruct a as [|c a]; [congruence|].
  replace (Nat.ltb 0 (String.length (String c a))) with true by reflexivity.
  replace (Nat.ltb (String.length (String c a)) _) with true by (symmetry; apply Nat.ltb_lt; destruct x; [congruence|cbn; lia]). cbn [andb]. apply substring_app.
Qed.
Lemma has_ending_iff e f n : has_ending e (f, n) = true <-> n = File /\ exists a, f = (a ++ e)%string.
Proof. unfold has_ending. cbn [fst snd]. destruct n; cbn; rewrite ?endswith_iff; split; [intros H; now split|now intros [_ H]|discriminate|intros [H _]; discriminate]. Qed.
Lemma sapp_inj_r (a b e : string) : (a ++ e = b ++ e)%string -> a = b.
Proof.
  intros H. assert (L : String.length a = String.length b) by (apply (f_equal String.length) in H; rewrite !slength_app in H; lia).
  rewrite <- (substring_app a e), H, L. apply substring_app.
Qed.
Lemma dset_new {V} (k : string) (v : V) d : ~ In k (keys d) -> dset string_dec k v d = d ++ [(k, v)].
Proof.
  induction d as [|[q w] d IH]; intros H; [reflexivity|]. cbn in *. destruct (string_dec k q) as [->|]; [tauto|]. f_equal. apply IH. tauto.
Qed.
(** the dict of files by their stems *)
Lemma get_results_eq e l : proper_ending e -> listing e l ->
  get_results e (Some l) = Ok (map (fun p => (stem (fst p), fst p)) (filter (has_ending e) l)).
Proof.
  intros (x & X & N & ->) [D U]. unfold get_results. f_equal.
  assert (G : forall l d, NoDup (map fst l) -> (forall f, file_in l f -> f <> ("." ++ x)%string) ->
    (forall k f, In (k, f) d -> k = stem f /\ exists a, a <> "" /\ f = (a ++ ("." ++ x))%string) -> (forall k f, In (k, f) d -> ~ In f (map fst l)) ->
    fold_left (fun d e => if has_ending ("." ++ x) e then dset string_dec (stem (fst e)) (fst e) d else d) l d
      = d ++ map (fun p => (stem (fst p), fst p)) (filter (has_ending ("." ++ x)) l)).
  { clear l D U. intros l. induction l as [|[f n] l IH]; intros d D U S O; [cbn; now rewrite app_nil_r|].
    cbn [map fst] in D. apply NoDup_cons_iff in D. destruct D as [D1 D]. cbn [fold_left filter].
    destruct (has_ending ("." ++ x) (f, n)) eqn:E.
    - cbn [fst map]. apply has_ending_iff in E. destruct E as [-> [a ->]].
      assert (A : a <> "") by (intros ->; apply (U _ (or_introl eq_refl)); reflexivity).
      rewrite dset_new.
      + rewrite IH; [now rewrite <- app_assoc|exact D|intros g G; apply U; now right| |].
        * intros k g I. apply in_app_or in I. destruct I as [I|[I|[]]]; [now apply S|]. injection I as <- <-. split; [reflexivity|]. now exists a.
        * intros k g I J. apply in_app_or in I. destruct I as [I|[I|[]]]; [apply (O k g I); now right|]. injection I as <- <-. tauto.
      + intros K. apply in_map_iff in K. destruct K as ([k g] & K & I). cbn [fst] in K. destruct (S k g I) as (-> & b & B & ->).
        rewrite !stem_ending in K by assumption. subst b. apply (O _ _ I). now left.
    - apply IH; [exact D|intros g G; apply U; now right|exact S|]. intros k g I J. apply (O k g I). now right. }
  apply (G l []); [exact D|intros f F ->; tauto|intros k f []|intros k f []].
Qed.
Lemma in_results e l k f : proper_ending e -> listing e l -> In (k, f) (map (fun p => (stem (fst p), fst p)) (filter (has_ending e) l)) <-> file_in l f /\ f = (k ++ e)%string.
Proof.
  intros P [D U]. rewrite in_map_iff. split.
  - intros ([g n] & E & I). injection E as <- <-. apply filter_In in I. destruct I as [I H]. apply has_ending_iff in H. destruct H as [-> [a ->]]. split; [exact I|].
    destruct P as (x & X & N & ->). cbn [fst]. rewrite stem_ending; [reflexivity| |exact X|exact N]. intros ->. now apply U.
  - intros [I ->]. exists ((k ++ e)%string, File). split.
    + destruct P as (x & X & N & ->). cbn [fst]. rewrite stem_ending; [reflexivity| |exact X|exact N]. intros ->. now apply U.
    + apply filter_In. split; [exact I|]. apply has_ending_iff. split; [reflexivity|now exists k].
Qed.
Lemma results_nodup e l : proper_ending e -> listing e l -> NoDup (keys (map (fun p => (stem (fst p), fst p)) (filter (has_ending e) l))).
Proof.
  intros P L. pose proof (in_results e l) as I. unfold keys. rewrite map_map. cbn [fst].
  assert (H : forall p q, In p (filter (has_ending e) l) -> In q (filter (has_ending e) l) -> stem (fst p) = stem (fst q) -> fst p = fst q).
  { intros p q A B E. destruct (proj1 (I (stem (fst p)) (fst p) P L)) as [_ X]; [apply in_map_iff; now exists p|].
    destruct (proj1 (I (stem (fst q)) (fst q) P L)) as [_ Y]; [apply in_map_iff; now exists q|]. congruence. }
  destruct L as [D _]. assert (F : NoDup (map fst (filter (has_ending e) l))).
  { clear -D. induction l as [|p l IH]; [constructor|]. cbn in D. apply NoDup_cons_iff in D. destruct D as [A D]. cbn. destruct (has_ending e p); [|auto]. cbn. constructor; [|auto].
    intros X. apply A. apply in_map_iff in X. destruct X as (q & <- & X). apply filter_In in X. apply in_map. tauto. }
  clear I. induction (filter (has_ending e) l) as [|p r IH]; [constructor|]. cbn in *. apply NoDup_cons_iff in F. destruct F as [A F]. constructor.
  - intros X. apply in_map_iff in X. destruct X as (q & E & X). apply A. rewrite <- (H q p); auto. now apply in_map.
  - apply IH; auto.
Qed.

(** A name gives the file of this name with the ending; without a name the only file with the ending is opened. *)
Theorem C157_by_name : forall e l n f, proper_ending e -> listing e l ->
  (load_named e (Some l) (Some n) = Ok f <-> file_in l f /\ f = (n ++ e)%string).
Proof.
  intros e l n f P L. unfold load_named. rewrite (get_results_eq e l P L). cbn [bind]. set (r := map _ _).
  assert (Q : dget string_dec n r = Some f <-> file_in l f /\ f = (n ++ e)%string).
  { rewrite <- (in_results e l n f P L). split; [apply dget_some_in|]. intros I. apply dget_in_nodup; [now apply results_nodup|exact I]. }
  rewrite <- Q. destruct (Nat.eqb_spec (List.length r) 0) as [Z|Z].
  - split; [discriminate|]. destruct r; [discriminate|discriminate].
  - destruct (Nat.eqb (List.length r) 1 || inb string_dec n (keys r)) eqn:B.
    + destruct (dget string_dec n r); split; congruence.
    + split; [discriminate|]. intros H. apply orb_false_elim in B. destruct B as [_ B]. apply inb_false in B. exfalso. apply B. apply dget_some_in in H. now apply (in_map fst) in H.
Qed.
Print Assumptions C157_by_name.

Theorem C157_unnamed : forall e l f, proper_ending e -> listing e l ->
  (load_named e (Some l) None = Ok f <-> (file_in l f /\ exists a, f = (a ++ e)%string) /\ forall g a, file_in l g -> g = (a ++ e)%string -> g = f) /\
  (forall er, load_named e (Some l) None = Err er -> er = AssertionError).
Proof.
  intros e l f P L. unfold load_named. rewrite (get_results_eq e l P L). cbn [bind]. pose proof (results_nodup e l P L) as ND. pose proof (in_results e l) as I. set (r := map _ _) in *.
  specialize (fun k f => I k f P L). clearbody r. destruct r as [|[k g] [|[k' g'] r]]; cbn [List.length Nat.eqb orb].
  - split; [split; [discriminate|]|now intros er [= <-]]. intros [[F [a ->]] _]. exfalso. apply (I a (a ++ e)%string). now split.
  - cbn [keys map fst hd dget]. destruct (string_dec k k) as [_|]; [|congruence]. split; [|discriminate]. split.
    + intros [= <-]. destruct (proj1 (I k g) (or_introl eq_refl)) as [F ->]. split; [split; [exact F|now exists k]|].
      intros g a G ->. destruct (proj2 (I a (a ++ e)%string) (conj G eq_refl)) as [X|[]]. congruence.
    + intros [[F [a ->]] _]. destruct (proj2 (I a (a ++ e)%string) (conj F eq_refl)) as [X|[]]. congruence.
  - split; [split; [discriminate|]|now intros er [= <-]]. intros [_ U]. exfalso. 
    cbn in ND. apply NoDup_cons_iff in ND. apply (proj1 ND). left.
    destruct (proj1 (I k g) (or_introl eq_refl)) as [F ->]. destruct (proj1 (I k' g') (or_intror (or_introl eq_refl))) as [F' ->].
    apply (sapp_inj_r _ _ e). rewrite (U _ _ F eq_refl). now apply (U _ k').
Qed.
Print Assumptions C157_unnamed.

Definition eg_l : list (string * node) := [("a.nc", File); ("fit_db.h5", File); ("b.nc", File); ("x.nc", Dir []); ("c.v2.nc", File)].
Example C157_example : proper_ending ".nc" /\ listing ".nc" eg_l /\ load_named ".nc" (Some eg_l) (Some "c.v2") = Ok "c.v2.nc" /\
  load_named ".nc" (Some eg_l) (Some "x") = Err AssertionError /\ load_named ".nc" (Some eg_l) None = Err AssertionError /\
  proper_ending ".h5" /\ listing ".h5" eg_l /\ load_named ".h5" (Some eg_l) None = Ok "fit_db.h5".
Proof.
  split; [exists "nc"; repeat split; discriminate|]. split; [split; [repeat constructor; cbn; intuition discriminate|cbn; intuition discriminate]|].
  split; [reflexivity|]. split; [reflexivity|]. split; [reflexivity|].
  split; [exists "h5"; repeat split; discriminate|]. split; [split; [repeat constructor; cbn; intuition discriminate|cbn; intuition discriminate]|]. reflexivity.
Qed.

(** A name that does not exist: the message with the available names is given only if there is not exactly one file, else KeyError. *)
Theorem C157_wrong_name_refuted : forall e l n, proper_ending e -> listing e l -> ~ file_in l (n ++ e)%string ->
  load_named e (Some l) (Some n) = Err (if Nat.eqb (List.length (filter (has_ending e) l)) 1 then KeyError else AssertionError).
Proof.
  intros e l n P L H. unfold load_named. rewrite (get_results_eq e l P L). cbn [bind]. pose proof (in_results e l) as I. specialize (fun k f => I k f P L).
  rewrite map_length. set (r := map _ _) in *.
  assert (Q : dget string_dec n r = None). { destruct (dget string_dec n r) as [f|] eqn:E; [|reflexivity]. apply dget_some_in in E. apply I in E. destruct E as [E ->]. tauto. }
  assert (B : inb string_dec n (keys r) = false). { apply inb_false. apply dget_none in Q. exact Q. }
  rewrite Q, B, orb_false_r. destruct (List.length (filter (has_ending e) l)) as [|[|k]]; reflexivity.
Qed.
Print Assumptions C157_wrong_name_refuted.
Example C157_example_wrong : listing ".h5" eg_l /\ ~ file_in eg_l ("fitdb" ++ ".h5")%string /\ List.length (filter (has_ending ".h5") eg_l) = 1.
Proof. split; [split; [repeat constructor; cbn; intuition discriminate|cbn; intuition discriminate]|]. split; [cbn; intuition discriminate|reflexivity]. Qed.

(** config-files: by their full name; without a name the only one *)
Theorem C157_cfg : forall l n f,
  (load_cfg l (Some n) = Ok f <-> f = n /\ file_in l n /\ exists c, In c (map fst l) /\ endswith ".ini" c = true) /\
  (NoDup (map fst l) -> (load_cfg l None = Ok f <-> (In f (map fst l) /\ endswith ".ini" f = true) /\ forall g, In g (map fst l) -> endswith ".ini" g = true -> g = f)) /\
  (forall m er, load_cfg l m = Err er -> er = AssertionError).
Proof.
  intros l n f. unfold load_cfg. set (c := map fst (filter _ l)).
  assert (C : forall g, In g c <-> In g (map fst l) /\ endswith ".ini" g = true).
  { intros g. unfold c. rewrite !in_map_iff. split.
    - intros (p & <- & I). apply filter_In in I. split; [exists p; tauto|tauto].
    - intros [(p & <- & I) E]. exists p. split; [reflexivity|]. apply filter_In. tauto. }
  assert (X : existsb (fun e => String.eqb (fst e) n && negb (is_dir (snd e))) l = true <-> file_in l n).
  { rewrite existsb_exists. split.
    - intros ([g k] & I & E). apply andb_prop in E. destruct E as [E1 E2]. cbn in *. apply String.eqb_eq in E1. subst g. destruct k; [exact I|discriminate].
    - intros I. exists (n, File). split; [exact I|]. cbn. now rewrite String.eqb_refl. }
  split; [|split].
  - destruct (Nat.eqb_spec (List.length c) 0) as [Z|Z].
    + split; [discriminate|]. intros (_ & _ & g & G). apply C in G. destruct c; [destruct G|discriminate].
    + destruct (existsb _ l) eqn:E.
      * split; [intros [= <-]|intros [-> _]; reflexivity]. split; [reflexivity|]. split; [now apply X|]. destruct c as [|g c0]; [now destruct Z|]. exists g. apply C. now left.
      * split; [discriminate|]. intros (_ & F & _). apply X in F. congruence.
  - intros D. assert (DC : NoDup c).
    { unfold c. clear -D. induction l as [|p l IH]; [constructor|]. cbn in *. apply NoDup_cons_iff in D. destruct D as [A D]. destruct (endswith ".ini" (fst p)); [|auto]. cbn. constructor; [|auto].
      intros I. apply A. apply in_map_iff in I. destruct I as (q & <- & I). apply filter_In in I. apply in_map. tauto. }
    destruct c as [|g [|h c0]]; cbn [List.length Nat.eqb].
    + split; [discriminate|]. intros [F _]. apply C in F. destruct F.
    + split.
      * intros [= <-]. split; [apply C; now left|]. intros h H1 H2. assert (I : In h [g]) by (apply C; tauto). destruct I as [->|[]]. reflexivity.
      * intros [F _]. apply C in F. destruct F as [->|[]]. reflexivity.
    + split; [discriminate|]. intros [_ U]. exfalso. apply NoDup_cons_iff in DC. apply (proj1 DC). left.
      destruct (proj1 (C g) (or_introl eq_refl)), (proj1 (C h) (or_intror (or_introl eq_refl))). rewrite (U g), (U h); auto.
  - intros m er. destruct (Nat.eqb (List.length c) 0); [congruence|]. destruct m; [match goal with |- context [if ?b then _ else _] => destruct b; congruence end|]. destruct c as [|? [|? ?]]; congruence.
Qed.
Print Assumptions C157_cfg.
Example C157_example_cfg : load_cfg [("config.ini", File); ("modules", Dir [])] None = Ok "config.ini" /\ load_cfg [("config.ini", File); ("old.ini", File)] None = Err AssertionError.
Proof. split; reflexivity. Qed.

(** ** C158: load_fit and changes of fit_db.h5 *)
Section Db.
Context {C F : Type} (fit_of : C -> string -> res F).
Notation run := (drun fit_of).
Lemma drun_app file ops a : run file (ops ++ [a]) = dstep fit_of (run file ops) a.
Proof. unfold drun. now rewrite fold_left_app. Qed.
Lemma now_app file ops (a : dop C) r : now file (ops ++ [a]) r = match a with DWrite q x => if Nat.eqb q r then x else now file ops r | _ => now file ops r end.
Proof. unfold now. rewrite fold_left_app. reflexivity. Qed.
Lemma fit_db_file (s : db C) r : d_file (snd (fit_db s r)) = d_file s /\ d_scan (snd (fit_db s r)) = d_scan s.
Proof. unfold fit_db. destruct (d_handler s r); [auto|]. destruct (negb (d_scan s r)); [auto|]. destruct (d_file s r); auto. Qed.
Lemma load_file (s : db C) r ID : d_file (snd (load_from_hdf fit_of s r ID)) = d_file s /\ d_scan (snd (load_from_hdf fit_of s r ID)) = d_scan s.
Proof.
  unfold load_from_hdf. pose proof (fit_db_file s r) as H. destruct (fit_db s r) as [[[c o]|e] s1]; [|exact H].
  assert (H2 : d_file (if o then s1 else reset_cache s1) = d_file s /\ d_scan (if o then s1 else reset_cache s1) = d_scan s) by (destruct o; exact H).
  set (s2 := if o then s1 else reset_cache s1) in *. clearbody s2. pose proof (fit_db_file s2 r) as H3. destruct (fit_db s2 r) as [[[c' [|]]|e] s3]; cbn [snd] in *; destruct H2, H3; split; congruence.
Qed.
Lemma run_file file ops r : d_file (run file ops) r = now file ops r.
Proof.
  induction ops as [|a l IH] using rev_ind; [reflexivity|]. rewrite drun_app, now_app. destruct a as [q ID|q|q|q x]; cbn [dstep].
  - rewrite (proj1 (load_file _ q ID)). exact IH.
  - pose proof (fit_db_file (run file l) q) as [H _]. destruct (fit_db (run file l) q) as [[[c o]|e] s1]; cbn [d_file snd] in *; rewrite H; exact IH.
  - exact IH.
  - cbn. unfold upd. rewrite (Nat.eqb_sym r q). destruct (Nat.eqb q r); [reflexivity|exact IH].
Qed.
(** loading with no handler, or one whose contents are those of the file *)
Lemma load_fresh (s : db C) r ID c : d_scan s r = true -> d_file s r = Some c -> (forall x o, d_handler s r = Some (x, o) -> x = c \/ o = false) ->
  fst (load_from_hdf fit_of s r ID) = fit_of c ID.
Proof.
  intros S Fl H. unfold load_from_hdf, fit_db. destruct (d_handler s r) as [[x o]|] eqn:E.
  - destruct (H x o eq_refl) as [->| ->].
    + destruct o; [rewrite E; reflexivity|]. cbn. rewrite S, Fl. reflexivity.
    + cbn. rewrite S, Fl. reflexivity.
  - rewrite S, Fl. cbn. unfold upd. rewrite Nat.eqb_refl. reflexivity.
Qed.
End Db.

(** After a re-scan, load_fit uses the file that is there then, whatever was opened, closed or re-written before. *)
Theorem C158_rescan : forall (C F : Type) (fit_of : C -> string -> res F) file ops r ID,
  match now file ops r with
  | Some c => fst (load_from_hdf fit_of (drun fit_of file (ops ++ [DRescan r])) r ID) = fit_of c ID
  | None => fst (load_from_hdf fit_of (drun fit_of file (ops ++ [DRescan r])) r ID) = Err AssertionError
  end.
Proof.
  intros C F fit_of file ops r ID. rewrite drun_app. cbn [dstep]. pose proof (run_file fit_of file ops r) as E. set (s := drun fit_of file ops) in *.
  destruct (now file ops r) as [c|].
  - apply load_fresh; cbn; unfold upd; rewrite ?Nat.eqb_refl; rewrite ?E; [reflexivity|reflexivity|discriminate].
  - unfold load_from_hdf, fit_db. cbn. unfold upd. rewrite Nat.eqb_refl, E. reflexivity.
Qed.
Print Assumptions C158_rescan.

(** As long as the file is not re-written, every load_fit uses it, after any sequence of loading, closing and re-scanning of
    this and other results. *)
Theorem C158_unchanged : forall (C F : Type) (fit_of : C -> string -> res F) file ops r ID c,
  file r = Some c -> (forall q x, In (DWrite q x) ops -> q <> r) ->
  fst (load_from_hdf fit_of (drun fit_of file ops) r ID) = fit_of c ID.
Proof.
  intros C F fit_of file ops r ID c Fl W.
  assert (H : d_scan (drun fit_of file ops) r = true /\ d_file (drun fit_of file ops) r = Some c /\ forall x o, d_handler (drun fit_of file ops) r = Some (x, o) -> x = c).
  { induction ops as [|a l IH] using rev_ind; [cbn; rewrite Fl; repeat split; discriminate|]. rewrite drun_app.
    destruct IH as (S & D & H); [intros q x I; apply (W q x), in_or_app; now left|]. set (s := drun fit_of file l) in *. clearbody s.
    assert (FD : forall (s : db C) q, d_scan s r = true -> d_file s r = Some c -> (forall x o, d_handler s r = Some (x, o) -> x = c) ->
       (forall x o, d_handler (snd (fit_db s q)) r = Some (x, o) -> x = c) /\ (forall x o, fst (fit_db s r) = Ok (x, o) -> x = c)).
    { clear. intros s q S D H. split.
      - intros x o. unfold fit_db. destruct (d_handler s q) as [h|]; [apply H|]. destruct (negb (d_scan s q)); [apply H|]. destruct (d_file s q) as [y|] eqn:E; [|apply H].
        cbn. unfold upd. destruct (Nat.eqb_spec r q) as [->|N]; [|apply H]. congruence.
      - intros x o. unfold fit_db. destruct (d_handler s r) as [[h o']|] eqn:E; [intros [= <- <-]; now apply (H _ o')|]. rewrite S, D. cbn. congruence. }
    destruct a as [q id|q|q|q x]; cbn [dstep].
    - destruct (load_file fit_of s q id) as [-> ->]. split; [exact S|]. split; [exact D|]. unfold load_from_hdf.
      pose proof (FD s q S D H) as [F1 _]. pose proof (fit_db_file s q) as [G1 G2]. destruct (fit_db s q) as [[[y o]|e] s1]; [|exact F1]. cbn [snd] in *.
      set (s2 := if o then s1 else reset_cache s1).
      assert (K : d_scan s2 r = true /\ d_file s2 r = Some c /\ forall x o, d_handler s2 r = Some (x, o) -> x = c).
      { subst s2. destruct o; cbn; rewrite ?G1, ?G2; repeat split; auto. discriminate. }
      clearbody s2. destruct K as (K1 & K2 & K3). pose proof (FD s2 q K1 K2 K3) as [F2 _]. destruct (fit_db s2 q) as [[[y' [|]]|e] s3]; exact F2.
    - pose proof (FD s q S D H) as [F1 F2]. pose proof (fit_db_file s q) as [G1 G2]. destruct (fit_db s q) as [[[y o]|e] s1] eqn:E; cbn [snd fst] in *.
      + cbn. rewrite G1, G2. split; [exact S|]. split; [exact D|]. intros z o'. unfold upd. destruct (Nat.eqb_spec r q) as [->|N]; [|apply F1].
        intros [= <- <-]. apply (F2 y o). now rewrite E.
      + rewrite G1, G2. auto.
    - cbn. unfold upd. split; [|split; [exact D|discriminate]]. destruct (Nat.eqb_spec r q) as [->|N]; [now rewrite D|exact S].
    - cbn. unfold upd. assert (N : q <> r) by (apply (W q x), in_or_app; right; now left). destruct (Nat.eqb_spec r q) as [->|_]; [congruence|]. auto. }
  destruct H as (S & D & H). apply load_fresh; auto. intros x o E. left. now apply (H x o).
Qed.
Print Assumptions C158_unchanged.

Definition eg_of (c : nat) (ID : string) : res nat := Ok c.
Example C158_example : let ops := [DLoad 0 "a"; DClose 1; DWrite 1 None; DClose 0; DRescan 2; DLoad 1 "b"] in
  (forall q (x : option nat), In (DWrite q x) ops -> q <> 0) /\ fst (load_from_hdf eg_of (drun eg_of (fun r => Some r) ops) 0 "c") = Ok 0 /\
  now (fun r => Some r) ops 1 = None.
Proof. split; [|split; reflexivity]. intros q x [I|[I|[I|[I|[I|[I|[]]]]]]]; try discriminate. injection I as <- <-. discriminate. Qed.

(** Without a re-scan: a file that was re-written while it was open is read in its old version; a file that was created after
    the folder was scanned is not found. *)
Theorem C158_stale_refuted : forall (C F : Type) (fit_of : C -> string -> res F) file r ID ID' c c', file r = Some c ->
  fst (load_from_hdf fit_of (drun fit_of file [DLoad r ID; DWrite r (Some c')]) r ID') = fit_of c ID'.
Proof.
  intros C F fit_of file r ID ID' c c' Fl.
  assert (E : d_handler (drun fit_of file [DLoad r ID]) r = Some (c, true)).
  { unfold drun. cbn [fold_left dstep]. unfold load_from_hdf, fit_db. cbn [dinit d_handler d_scan d_file]. rewrite Fl. cbn. unfold upd. rewrite Nat.eqb_refl. cbn. now rewrite Nat.eqb_refl. }
  change [DLoad r ID; DWrite r (Some c')] with ([DLoad r ID] ++ [DWrite r (Some c')]). rewrite drun_app. set (s := drun fit_of file [DLoad r ID]) in *. clearbody s.
  unfold load_from_hdf, fit_db. cbn. rewrite E. cbn. now rewrite E.
Qed.
Print Assumptions C158_stale_refuted.
Theorem C158_created_refuted : forall (C F : Type) (fit_of : C -> string -> res F) file r ID c, file r = None ->
  fst (load_from_hdf fit_of (drun fit_of file [DWrite r (Some c)]) r ID) = Err AssertionError.
Proof. intros C F fit_of file r ID c Fl. unfold drun. cbn. unfold load_from_hdf, fit_db. cbn. rewrite Fl. reflexivity. Qed.
Print Assumptions C158_created_refuted.
Example C158_example_stale : now (fun r => Some r) [DLoad 0 "a"; DWrite 0 (Some 5)] 0 = Some 5 /\
  fst (load_from_hdf eg_of (drun eg_of (fun r => Some r) [DLoad 0 "a"; DWrite 0 (Some 5)]) 0 "a") = Ok 0.
Proof. split; reflexivity. Qed.
