(** Properties C124-C129: access to processed results (rtresults.py, rtprocess.py, _rtprocess_writer.py) *)
From Coq Require Import ZArith Arith Bool String Ascii List Lia.
From Verif Require Import Base Base_Proofs Str_Model Str_Proofs Rdr_Model Rdr_Spec Rdr_Proofs.
Import ListNotations.
Local Open Scope string_scope.
Local Open Scope list_scope.

(** * C124: the results in a folder *)
Definition a_result : node := Dir [("cfg", Dir []); ("results", Dir []); ("dumps", Dir []); ("log.txt", File)].

(** a folder with results that have no dot in their names: each of them is found under its name, and nothing else is *)
Theorem C124_found : forall parent l n, NoDup (map fst l) -> small l -> ~ complete l ->
  (forall m, result_folder l m -> has_char "." m = false) ->
  (result_folder l n -> getitem (RTresults parent l) n = Ok (sub parent n)) /\
  (~ result_folder l n -> getitem (RTresults parent l) n = Err AssertionError).
Proof.
  intros parent l n Hn [Hl Hs] Hc Hd. unfold getitem, RTresults.
  destruct (check_folderstructure l) eqn:E; [apply check_sound in E; contradiction|].
  rewrite firstn_all2 by exact Hl. change (fun d e => addresult d (sub parent (fst e)) (snd e)) with (step parent).
  assert (Fd : forall e, In e l -> (found e = true <-> exists s, snd e = Dir s /\ complete s)).
  { intros [m [|s]] Hi; unfold found; simpl; [split; [discriminate|intros (s & X & _); discriminate]|].
    rewrite (check_complete s) by (eapply Hs; exact Hi). split; [intros X; exists s; split; [reflexivity|exact X]|intros (s' & X & Y); injection X as <-; exact Y]. }
  rewrite fold_found; [|intros e Hi Hf; apply stem_plain, Hd; apply Fd in Hf; [|exact Hi]; destruct Hf as (s & X & Y); exists s; split;
    [destruct e; simpl in *; subst; exact Hi|exact Y]|exact Hn].
  split; intros H.
  - destruct H as (s & Hi & Hcs). replace (existsb _ l) with true; [reflexivity|]. symmetry. apply existsb_exists. exists (n, Dir s). split; [exact Hi|].
    simpl fst. rewrite String.eqb_refl. apply (Fd (n, Dir s) Hi). exists s. split; [reflexivity|exact Hcs].
  - destruct (existsb _ l) eqn:X; [|reflexivity]. exfalso. apply H. apply existsb_exists in X. destruct X as (e & Hi & X). apply andb_true_iff in X.
    destruct X as [X Y]. apply String.eqb_eq in X. apply (Fd e Hi) in Y. destruct Y as (s & Y & Z). exists s. split; [destruct e; simpl in *; subst; exact Hi|exact Z].
Qed.
Print Assumptions C124_found.

Example C124_example : let l := [("run1", a_result); ("notes.txt", File); ("run2", a_result); ("tmp", Dir [])] in
  getitem (RTresults (Path true ["data"]) l) "run2" = Ok (Path true ["data"; "run2"]) /\
  getitem (RTresults (Path true ["data"]) l) "tmp" = Err AssertionError.
Proof.
  intros l.
  assert (A : NoDup (map fst l)) by (repeat constructor; simpl; intuition discriminate).
  assert (B : small l).
  { split; [simpl; lia|]. intros n s H. simpl in H. repeat (destruct H as [H|H]; [inversion H; subst; simpl; lia|]). contradiction. }
  assert (C : ~ complete l).
  { intros H. destruct (H "cfg") as [s Hs]; [left; reflexivity|]. simpl in Hs. intuition discriminate. }
  assert (D : forall m, result_folder l m -> has_char "." m = false).
  { intros m (s & H & _). simpl in H. repeat (destruct H as [H|H]; [inversion H; subst; reflexivity|]). contradiction. }
  split.
  - apply (C124_found (Path true ["data"]) l "run2" A B C D). exists [("cfg", Dir []); ("results", Dir []); ("dumps", Dir []); ("log.txt", File)].
    split; [simpl; tauto|]. intros f [<-|[<-|[<-|[]]]]; exists []; simpl; tauto.
  - apply (C124_found (Path true ["data"]) l "tmp" A B C D). intros (s & H & K). simpl in H.
    repeat (destruct H as [H|H]; [try discriminate H|]); try contradiction. injection H as <-. destruct (K "cfg") as [s Hs]; [left; reflexivity|]. exact Hs.
Qed.

(** whatever the names: every path that is listed is the folder itself or a folder in it, with the three sub-folders *)
Theorem C124_only : forall parent l k p, getitem (RTresults parent l) k = Ok p ->
  (p = parent /\ complete l) \/ (exists n, result_folder l n /\ p = sub parent n).
Proof.
  intros parent l k p H. unfold getitem in H. destruct (dget string_dec k (RTresults parent l)) as [q|] eqn:E; [|discriminate]. injection H as <-.
  unfold RTresults, addresult in E. destruct (check_folderstructure l) eqn:C.
  - left. simpl in E. destruct (string_dec k (stem (pname parent))); [|discriminate]. injection E as <-. split; [reflexivity|apply check_sound; exact C].
  - right. change (fun d e => addresult d (sub parent (fst e)) (snd e)) with (step parent) in E.
    destruct (fold_values parent _ _ _ _ E) as [X|(e & A & B & ->)]; [discriminate|]. exists (fst e). split; [|reflexivity].
    destruct e as [n [|s]]; [discriminate|]. exists s. split.
    + rewrite <- (firstn_skipn 100 l). apply in_or_app. left. exact A.
    + apply check_sound. exact B.
Qed.
Print Assumptions C124_only.

(** the iteration lists each of the results once *)
Theorem C124_each_once : forall parent l, NoDup (map fst l) -> small l -> ~ complete l ->
  (forall m, result_folder l m -> has_char "." m = false) ->
  NoDup (iter_results (RTresults parent l)) /\
  (forall p, In p (iter_results (RTresults parent l)) <-> exists n, result_folder l n /\ p = sub parent n).
Proof.
  intros parent l Hn Hs Hc Hd.
  assert (K : NoDup (keys (RTresults parent l))).
  { unfold RTresults. destruct (check_folderstructure l) eqn:E; [apply check_sound in E; contradiction|].
    change (fun d e => addresult d (sub parent (fst e)) (snd e)) with (step parent). apply fold_keys_nodup. constructor. }
  assert (G : forall k p, In (k, p) (RTresults parent l) -> result_folder l k /\ p = sub parent k).
  { intros k p Hi. assert (D := dget_in_nodup string_dec k p _ K Hi). assert (D' : getitem (RTresults parent l) k = Ok p) by (unfold getitem; rewrite D; reflexivity).
    destruct (C124_only _ _ _ _ D') as [[_ X]|(n & X & ->)]; [contradiction|].
    destruct (C124_found parent l n Hn Hs Hc Hd) as [Y _]. specialize (Y X).
    assert (R : result_folder l k).
    { destruct (C124_found parent l k Hn Hs Hc Hd) as [_ Z]. 
      assert (T : ~ ~ result_folder l k) by (intros N; rewrite (Z N) in D'; discriminate).
      destruct (existsb (fun e => String.eqb (fst e) k && found e) l) eqn:X'.
      - apply existsb_exists in X'. destruct X' as ([m nd] & Hi' & X'). apply andb_true_iff in X'. destruct X' as [X' Y']. apply String.eqb_eq in X'. simpl in X'. subst m.
        destruct nd as [|s]; [discriminate|]. exists s. split; [exact Hi'|apply check_sound; exact Y'].
      - exfalso. apply T. intros (s & A & B). apply not_true_iff_false in X'. apply X'. apply existsb_exists. exists (k, Dir s). split; [exact A|].
        simpl fst. rewrite String.eqb_refl. unfold found. simpl. apply check_complete; [|exact B]. destruct Hs as [_ Hs]. eapply Hs. exact A. }
    split; [exact R|]. destruct (C124_found parent l k Hn Hs Hc Hd) as [Z _]. rewrite (Z R) in D'. congruence. }
  assert (M : iter_results (RTresults parent l) = map (sub parent) (keys (RTresults parent l))).
  { unfold iter_results, keys. rewrite map_map. apply map_ext_in. intros [k p] Hi. apply G in Hi. apply Hi. }
  rewrite M. split.
  - apply FinFun.Injective_map_NoDup; [|exact K]. intros a b E. apply (f_equal pname) in E. rewrite !pname_sub in E. exact E.
  - intros p. rewrite in_map_iff. split.
    + intros (k & <- & Hk). exists k. split; [|reflexivity]. apply in_map_iff in Hk. destruct Hk as ([k' p] & X & Hi). simpl in X. subst k'. apply G in Hi. apply Hi.
    + intros (n & R & ->). exists n. split; [reflexivity|]. destruct (C124_found parent l n Hn Hs Hc Hd) as [Z _]. specialize (Z R).
      unfold getitem in Z. apply (dget_in_keys string_dec). intros X. unfold dict in *. rewrite X in Z. discriminate.
Qed.
Print Assumptions C124_each_once.

(** a folder that is a result itself is listed under its name *)
Theorem C124_itself : forall parent l, complete l -> length l <= 100 -> has_char "." (pname parent) = false ->
  getitem (RTresults parent l) (pname parent) = Ok parent /\ iter_results (RTresults parent l) = [parent].
Proof.
  intros parent l Hc Hl Hd. apply check_complete in Hc; [|exact Hl]. unfold RTresults, addresult, getitem. rewrite Hc. simpl.
  rewrite stem_plain by exact Hd. destruct (string_dec _ _); [split; reflexivity|congruence].
Qed.
Print Assumptions C124_itself.

Example C124_itself_example :
  getitem (RTresults (Path true ["data"; "run1"]) [("dumps", Dir []); ("cfg", Dir []); ("results", Dir [])]) "run1" = Ok (Path true ["data"; "run1"]).
Proof. reflexivity. Qed.

(** refuted for names with dots: "run" is answered with the folder "run.bak", and "v1.2" is not found *)
Theorem C124_suffix_refuted :
  (exists parent l, NoDup (map fst l) /\ small l /\ ~ complete l /\ result_folder l "run" /\ result_folder l "run.bak" /\
     getitem (RTresults parent l) "run" = Ok (sub parent "run.bak") /\ iter_results (RTresults parent l) = [sub parent "run.bak"]) /\
  (forall parent n s, complete s -> length s <= 100 -> stem n <> n -> getitem (RTresults parent [(n, Dir s)]) n = Err AssertionError).
Proof.
  split.
  - exists (Path true ["data"]), [("run", a_result); ("run.bak", a_result)].
    assert (R : complete [("cfg", Dir []); ("results", Dir []); ("dumps", Dir []); ("log.txt", File)]) by (intros f [<-|[<-|[<-|[]]]]; exists []; simpl; tauto).
    repeat split.
    + repeat constructor; simpl; intuition discriminate.
    + simpl. lia.
    + intros n s H. simpl in H. destruct H as [H|[H|[]]]; injection H as <- <-; simpl; lia.
    + intros H. destruct (H "cfg") as [s Hs]; [left; reflexivity|]. simpl in Hs. intuition discriminate.
    + eexists. split; [left; reflexivity|exact R].
    + eexists. split; [right; left; reflexivity|exact R].
  - intros parent n s Hc Hl Hn. unfold getitem, RTresults.
    destruct (check_folderstructure [(n, Dir s)]) eqn:E.
    + exfalso. apply check_sound in E. destruct (E "cfg") as [a [A|[]]]; [left; reflexivity|]. destruct (E "dumps") as [b [B|[]]]; [simpl; tauto|].
      injection A as -> _. injection B as B _. discriminate.
    + cbn [firstn fold_left fst snd addresult]. apply check_complete in Hc; [|exact Hl]. rewrite Hc, pname_sub. simpl. destruct (string_dec n (stem n)); [congruence|reflexivity].
Qed.
Print Assumptions C124_suffix_refuted.
Example C124_suffix_example : stem "v1.2" <> "v1.2". Proof. discriminate. Qed.

(** refuted for the layout of the documentation (rtresults.py 34-61), where results are inside of a result: those inside
    are never reachable *)
Theorem C124_nested_refuted : forall parent l n, complete l -> length l <= 100 -> result_folder l n ->
  forall k, getitem (RTresults parent l) k <> Ok (sub parent n).
Proof.
  intros parent l n Hc Hl _ k H. apply check_complete in Hc; [|exact Hl]. unfold RTresults, addresult, getitem in H. rewrite Hc in H. simpl in H.
  destruct (string_dec k (stem (pname parent))); [|discriminate]. injection H as H. apply (f_equal (fun p => length (parts p))) in H. unfold sub, pjoin in H. simpl in H.
  rewrite app_length in H. simpl in H. lia.
Qed.
Print Assumptions C124_nested_refuted.
Example C124_nested_example : let l := [("cfg", Dir []); ("results", Dir []); ("dumps", Dir []); ("sub_RESULT_1", a_result)] in
  complete l /\ length l <= 100 /\ result_folder l "sub_RESULT_1" /\ getitem (RTresults (Path true ["RESULT"]) l) "sub_RESULT_1" = Err AssertionError.
Proof.
  intros l. repeat split; [|simpl; lia|].
  - intros f [<-|[<-|[<-|[]]]]; exists []; simpl; tauto.
  - eexists. split; [right; right; right; left; reflexivity|]. intros f [<-|[<-|[<-|[]]]]; exists []; simpl; tauto.
Qed.

(** the documented limit (rtresults.py 39-40) is met: what is listed after the first hundred entries is ignored, so [small] is needed *)
Theorem C124_first_hundred : exists parent l n, NoDup (map fst l) /\ ~ complete l /\ (forall m, result_folder l m -> has_char "." m = false) /\
  result_folder l n /\ getitem (RTresults parent l) n = Err AssertionError.
Proof.
  set (xs := fix xs k := match k with O => "" | S k => String "x" (xs k) end).
  set (l0 := map (fun k => (xs k, File)) (seq 1 100)).
  assert (X : forall e, In e l0 -> exists k, fst e = String "x" (xs k) /\ snd e = File).
  { intros e H. apply in_map_iff in H. destruct H as (k & <- & Hk). apply in_seq in Hk. destruct k; [lia|]. exists k. split; reflexivity. }
  exists (Path true ["data"]), (l0 ++ [("run", a_result)]), "run". repeat split.
  - rewrite map_app. unfold l0. rewrite map_map. cbn [map fst]. change (fun x => fst (xs x, File)) with (fun x => xs x).
    apply (NoDup_Add (a := "run") (l := map (fun x => xs x) (seq 1 100))).
    + assert (H := Add_app "run" (map (fun x => xs x) (seq 1 100)) []). rewrite app_nil_r in H. exact H.
    + split.
      * apply FinFun.Injective_map_NoDup; [|apply seq_NoDup]. intros a. induction a as [|a IH]; intros [|b]; simpl; try discriminate; [reflexivity|].
        intros E. injection E as E. f_equal. apply IH. exact E.
      * intros H. apply in_map_iff in H. destruct H as ([|k] & E & _); discriminate.
  - intros H. destruct (H "cfg") as [s Hs]; [left; reflexivity|]. apply in_app_or in Hs. destruct Hs as [Hs|[Hs|[]]]; [|discriminate].
    apply X in Hs. destruct Hs as (k & E & _). discriminate.
  - intros m (s & Hs & _). apply in_app_or in Hs. destruct Hs as [Hs|[Hs|[]]]; [|injection Hs as <- _; reflexivity].
    apply X in Hs. destruct Hs as (k & _ & E). discriminate.
  - eexists. split; [apply in_or_app; right; left; reflexivity|]. intros f [<-|[<-|[<-|[]]]]; exists []; simpl; tauto.
Qed.
Print Assumptions C124_first_hundred.

(** * C125: loading fits from dump-files *)
(** the files that are listed: those of features, except for names with "error" *)
Theorem C125_listing : forall dp l p, In p (dump_files dp l) <->
  exists ID, has_dump l ID /\ contains "error" (ID ++ ".dump") = false /\ p = sub dp (ID ++ ".dump").
Proof.
  intros dp l p. unfold dump_files, has_dump. rewrite in_map_iff. split.
  - intros (e & <- & H). apply filter_In in H. destruct H as [H X]. apply is_dump_iff in X. destruct X as (ID & -> & X). exists ID. repeat split; assumption.
  - intros (ID & H & X & ->). exists ((ID ++ ".dump")%string, File). split; [reflexivity|]. apply filter_In. split; [exact H|]. apply is_dump_iff. exists ID. split; [reflexivity|exact X].
Qed.
Print Assumptions C125_listing.

(** the fit of a feature is loaded by its ID, and the ID is returned if asked for *)
Theorem C125_by_name : forall (F : Type) (file : path -> option F) rnd dp l g ID ret, dumps_of file dp l g -> has_dump l ID ->
  ID <> "" -> has_char "/" ID = false -> endswith ".dump" ID = false ->
  load_fit_dumps file rnd dp l (IStr ID) ret = Loaded (g (ID ++ ".dump")%string) (if ret then Some ID else None).
Proof.
  intros F file rnd dp l g ID ret Hf Hi Hn Hs He. unfold load_fit_dumps, dump_name, load_path. rewrite He.
  rewrite pjoin_rel by (apply dump_file_name; exact Hs). rewrite (dumps_loaded file dp l g _ Hf Hi), pname_sub, stem_dump by exact Hn. reflexivity.
Qed.
Print Assumptions C125_by_name.

Definition two_dumps : list (string * node) := [("a.dump", File); ("b.dump", File); ("old", Dir [])].
Definition two_files (p : path) : option nat :=
  if existsb (fun e => negb (is_dir (snd e)) && (Bool.eqb (absolute p) true &&
       (if list_eq_dec string_dec (parts p) (["data"; "dumps"] ++ [fst e]) then true else false))) two_dumps
  then Some (String.length (pname p)) else None.
Example C125_example : dumps_of two_files (Path true ["data"; "dumps"]) two_dumps String.length /\ has_dump two_dumps "b" /\
  load_fit_dumps two_files 0 (Path true ["data"; "dumps"]) two_dumps (IStr "b") true = Loaded 6 (Some "b").
Proof. split; [intros p; reflexivity|]. split; [right; left; reflexivity|reflexivity]. Qed.

(** a feature without a file: the error of opening it *)
Theorem C125_missing : forall (F : Type) (file : path -> option F) rnd dp l g ID ret, dumps_of file dp l g -> ~ has_dump l ID ->
  has_char "/" ID = false -> endswith ".dump" ID = false -> load_fit_dumps file rnd dp l (IStr ID) ret = FileNotFound.
Proof.
  intros F file rnd dp l g ID ret Hf Hi Hs He. unfold load_fit_dumps, dump_name, load_path. rewrite He.
  rewrite pjoin_rel by (apply dump_file_name; exact Hs). destruct (file (sub dp (ID ++ ".dump"))) eqn:E; [|reflexivity]. exfalso. apply Hi.
  rewrite (Hf (sub dp (ID ++ ".dump"))) in E. destruct (existsb _ l) eqn:X; [|discriminate]. apply existsb_exists in X. destruct X as ([n nd] & A & X).
  apply andb_true_iff in X. destruct X as [D X]. apply andb_true_iff in X. destruct X as [_ X]. simpl in *.
  destruct (list_eq_dec string_dec (parts dp ++ [(ID ++ ".dump")%string]) (parts dp ++ [n])) as [Y|]; [|discriminate]. apply app_inv_head in Y. injection Y as <-.
  destruct nd; [exact A|discriminate].
Qed.
Print Assumptions C125_missing.
Example C125_missing_example : load_fit_dumps two_files 0 (Path true ["data"; "dumps"]) two_dumps (IStr "old") false = FileNotFound.
Proof.
  apply (C125_missing nat two_files 0 _ two_dumps String.length); [intros p; reflexivity| |reflexivity|reflexivity].
  intros H. unfold has_dump in H. simpl in H. intuition discriminate.
Qed.

(** load_fit(i): the i-th file that is listed; a random one is one of those listed *)
Theorem C125_nth : forall (F : Type) (file : path -> option F) rnd dp l g ret i, dumps_of file dp l g ->
  (i < length (dump_files dp l) -> exists ID, nth_error (dump_files dp l) i = Some (sub dp (ID ++ ".dump")) /\ has_dump l ID /\
     load_fit_dumps file rnd dp l (IInt (Z.of_nat i)) ret = Loaded (g (ID ++ ".dump")%string) (if ret then Some (stem (ID ++ ".dump")) else None) /\
     load_fit_dumps file i dp l INone ret = Loaded (g (ID ++ ".dump")%string) (if ret then Some (stem (ID ++ ".dump")) else None)) /\
  (length (dump_files dp l) <= i -> load_fit_dumps file rnd dp l (IInt (Z.of_nat i)) ret = ReturnsNone) /\
  (forall z, (z < 0)%Z -> load_fit_dumps file rnd dp l (IInt z) ret = Raises ValueError).
Proof.
  intros F file rnd dp l g ret i Hf. repeat split.
  - intros Hi. destruct (nth_error (dump_files dp l) i) as [p|] eqn:E; [|apply nth_error_None in E; lia].
    assert (Hp := nth_error_In _ _ E). apply C125_listing in Hp. destruct Hp as (ID & H & X & ->). exists ID. split; [reflexivity|]. split; [exact H|].
    assert (L : forall r, load_path file r (sub dp (ID ++ ".dump")) = Loaded (g (ID ++ ".dump")%string) (if r then Some (stem (ID ++ ".dump")) else None)).
    { intros r. unfold load_path. rewrite (dumps_loaded file dp l g _ Hf H), pname_sub. reflexivity. }
    split; unfold load_fit_dumps.
    + replace (Z.of_nat i <? 0)%Z with false by (symmetry; apply Z.ltb_ge; lia). rewrite Nat2Z.id, E. apply L.
    + rewrite E. apply L.
  - intros Hi. unfold load_fit_dumps. replace (Z.of_nat i <? 0)%Z with false by (symmetry; apply Z.ltb_ge; lia). rewrite Nat2Z.id.
    apply nth_error_None in Hi. rewrite Hi. reflexivity.
  - intros z Hz. unfold load_fit_dumps. apply Z.ltb_lt in Hz. rewrite Hz. reflexivity.
Qed.
Print Assumptions C125_nth.
Example C125_nth_example : load_fit_dumps two_files 0 (Path true ["data"; "dumps"]) two_dumps (IInt 1) true = Loaded 6 (Some "b") /\
  load_fit_dumps two_files 0 (Path true ["data"; "dumps"]) two_dumps (IInt 2) true = ReturnsNone.
Proof. split; reflexivity. Qed.

(** dump_fits: the fits of all the files that are listed, in this order *)
Theorem C125_dump_fits : forall (F : Type) (file : path -> option F) dp l g, dumps_of file dp l g -> Forall (fun e => file_name (fst e)) l ->
  exists IDs, dump_files dp l = map (fun ID => sub dp (ID ++ ".dump")) IDs /\
              dump_fits file dp l = map (fun ID => Loaded (g (ID ++ ".dump")%string) None) IDs.
Proof.
  intros F file dp l g Hf Hn. unfold dump_files, dump_fits.
  assert (A : forall e, In e (filter is_dump l) -> exists ID, fst e = (ID ++ ".dump")%string /\ load_fit_dumps file 0 dp l (IStr (fst e)) false = Loaded (g (ID ++ ".dump")%string) None).
  { intros e H. apply filter_In in H. destruct H as [H X]. apply is_dump_iff in X. destruct X as (ID & -> & X). exists ID. split; [reflexivity|].
    unfold load_fit_dumps, dump_name, load_path. simpl fst. rewrite endswith_app. rewrite Forall_forall in Hn. specialize (Hn _ H). simpl in Hn.
    rewrite pjoin_rel by exact Hn. rewrite (dumps_loaded file dp l g _ Hf H). reflexivity. }
  induction (filter is_dump l) as [|e r IH]; [exists []; split; reflexivity|].
  destruct IH as (IDs & B & C); [intros; apply A; right; assumption|]. destruct (A e (or_introl eq_refl)) as (ID & D & E). exists (ID :: IDs). cbn [map]. rewrite B, C, D in *. rewrite E. split; reflexivity.
Qed.
Print Assumptions C125_dump_fits.
Example C125_dump_fits_example : dump_fits two_files (Path true ["data"; "dumps"]) two_dumps = [Loaded 6 None; Loaded 6 None].
Proof. reflexivity. Qed.

(** refuted for features whose ID ends with ".dump": load_fit(ID) looks for the file of another feature *)
Theorem C125_dumpname_refuted : forall (F : Type) (file : path -> option F) rnd dp l g x, dumps_of file dp l g ->
  has_dump l (x ++ ".dump") -> x <> "" -> has_char "/" x = false ->
  (has_dump l x -> load_fit_dumps file rnd dp l (IStr (x ++ ".dump")) true = Loaded (g (x ++ ".dump")%string) (Some x)) /\
  (~ has_dump l x -> load_fit_dumps file rnd dp l (IStr (x ++ ".dump")) true = FileNotFound).
Proof.
  intros F file rnd dp l g x Hf _ Hn Hs. unfold load_fit_dumps, dump_name. rewrite endswith_app. rewrite pjoin_rel by (apply dump_file_name; exact Hs).
  unfold load_path. split; intros H.
  - rewrite (dumps_loaded file dp l g _ Hf H), pname_sub, stem_dump by exact Hn. reflexivity.
  - destruct (file (sub dp (x ++ ".dump"))) eqn:E; [|reflexivity]. exfalso. apply H.
    rewrite (Hf (sub dp (x ++ ".dump"))) in E. destruct (existsb _ l) eqn:X; [|discriminate]. apply existsb_exists in X. destruct X as ([n nd] & A & X).
    apply andb_true_iff in X. destruct X as [D X]. apply andb_true_iff in X. destruct X as [_ X]. simpl in *.
    destruct (list_eq_dec string_dec (parts dp ++ [(x ++ ".dump")%string]) (parts dp ++ [n])) as [Y|]; [|discriminate]. apply app_inv_head in Y. injection Y as <-.
    destruct nd; [exact A|discriminate].
Qed.
Print Assumptions C125_dumpname_refuted.
Example C125_dumpname_example : has_dump [("a.dump", File); ("a.dump.dump", File)] ("a" ++ ".dump"). Proof. right; left; reflexivity. Qed.

(** * C126: loading fits from the HDF container *)
Lemma num_of_in names n ID : NoDup (map snd names) -> In (n, ID) names -> num_of names ID = Ok n.
Proof.
  intros Hn Hi. unfold num_of. induction names as [|[m s] r IH]; [contradiction|]. cbn [map] in Hn. apply NoDup_cons_iff in Hn. destruct Hn as [A B]. simpl.
  destruct Hi as [E|Hi]; [injection E as -> ->; rewrite String.eqb_refl; reflexivity|].
  destruct (String.eqb s ID) eqn:E; [|apply IH; assumption]. apply String.eqb_eq in E. subst s. exfalso. apply A. apply (in_map snd) in Hi. exact Hi.
Qed.
Lemma num_of_out names ID : ~ In ID (map snd names) -> num_of names ID = Err IndexError.
Proof.
  intros H. unfold num_of. induction names as [|[m s] r IH]; [reflexivity|]. simpl in *. destruct (String.eqb s ID) eqn:E; [apply String.eqb_eq in E; exfalso; apply H; left; exact E|].
  apply IH. intros X. apply H. right. exact X.
Qed.

(** the fit that is stored for a feature is loaded by its ID; IDs that are not stored give an IndexError *)
Theorem C126_by_name : forall (F : Type) (file : path -> option F) rnd names stored ID, NoDup (map snd names) ->
  (forall n f, In (n, ID) names -> stored n = Some f -> load_fit_hdf file rnd names stored (IStr ID) false = Loaded f None) /\
  (~ In ID (map snd names) -> load_fit_hdf file rnd names stored (IStr ID) false = Raises IndexError).
Proof.
  intros F file rnd names stored ID Hn. unfold load_fit_hdf. split.
  - intros n f Hi Hs. rewrite (num_of_in names n ID Hn Hi). unfold load_num. replace (existsb (Z.eqb n) (map fst names)) with true; [rewrite Hs; reflexivity|].
    symmetry. apply existsb_exists. exists n. split; [apply (in_map fst) in Hi; exact Hi|apply Z.eqb_refl].
  - intros H. rewrite num_of_out by exact H. reflexivity.
Qed.
Print Assumptions C126_by_name.
Example C126_example : load_fit_hdf (fun _ => None) 0 [(0%Z, "a"); (2%Z, "b")] (fun n => Some (n * 10)%Z) (IStr "b") false = Loaded 20%Z None.
Proof. reflexivity. Qed.

(** load_fit(i) is the i-th feature if the numbers are those of the rows *)
Theorem C126_nth : forall (F : Type) (file : path -> option F) rnd names stored i n ID, map fst names = map Z.of_nat (seq 0 (length names)) ->
  NoDup (map snd names) -> nth_error names i = Some (n, ID) ->
  load_fit_hdf file rnd names stored (IInt (Z.of_nat i)) false = load_fit_hdf file rnd names stored (IStr ID) false.
Proof.
  intros F file rnd names stored i n ID Hq Hn Hi. unfold load_fit_hdf. rewrite (num_of_in names n ID Hn) by (apply nth_error_In with i; exact Hi).
  assert (E : nth_error (map fst names) i = Some n) by (apply map_nth_error with (f := fst) in Hi; exact Hi).
  assert (L : i < length names) by (apply nth_error_Some; rewrite Hi; discriminate).
  rewrite Hq in E. rewrite (map_nth_error Z.of_nat i (seq 0 (length names)) (d := i)) in E.
  - injection E as <-. reflexivity.
  - rewrite (nth_error_nth' _ 0) by (rewrite seq_length; exact L). rewrite seq_nth by exact L. reflexivity.
Qed.
Print Assumptions C126_nth.
Example C126_nth_rows : let names := [(0%Z, "a"); (1%Z, "b")] in map fst names = map Z.of_nat (seq 0 (length names)) /\
  load_fit_hdf (fun _ => None) 0 names (fun n => Some n) (IInt 1) false = Loaded 1%Z None.
Proof. split; reflexivity. Qed.

(** refuted in general ("load the nth file found"): the integer is the number of the feature, not the position of its row *)
Theorem C126_nth_refuted : forall (F : Type) (file : path -> option F) rnd names stored n ID f, NoDup (map snd names) -> In (n, ID) names -> stored n = Some f ->
  load_fit_hdf file rnd names stored (IInt n) false = Loaded f None /\
  (forall i, ~ In i (map fst names) -> load_fit_hdf file rnd names stored (IInt i) false = ReturnsNone).
Proof.
  intros F file rnd names stored n ID f Hn Hi Hs. unfold load_fit_hdf, load_num. split.
  - replace (existsb (Z.eqb n) (map fst names)) with true; [rewrite Hs; reflexivity|]. symmetry. apply existsb_exists. exists n. split; [apply (in_map fst) in Hi; exact Hi|apply Z.eqb_refl].
  - intros i H. destruct (existsb (Z.eqb i) (map fst names)) eqn:E; [|reflexivity]. apply existsb_exists in E. destruct E as (x & A & B). apply Z.eqb_eq in B. subst x. contradiction.
Qed.
Print Assumptions C126_nth_refuted.
Example C126_nth_example : (* stored out of order, the first feature failed *)
  load_fit_hdf (fun _ => None) 0 [(2%Z, "c"); (1%Z, "b")] (fun n => Some n) (IInt 1) false = Loaded 1%Z None /\
  nth_error [(2%Z, "c"); (1%Z, "b")] 0 = Some (2%Z, "c") /\
  load_fit_hdf (fun _ => None) 0 [(2%Z, "c"); (1%Z, "b")] (fun n => Some n) (IInt 0) false = ReturnsNone.
Proof. repeat split; reflexivity. Qed.

(** refuted: return_ID never returns from the HDF container *)
Theorem C126_return_ID_refuted : forall (F : Type) (file : path -> option F) rnd names stored ID, (forall p, ID <> IPath p) ->
  exists e, load_fit_hdf file rnd names stored ID true = Raises e.
Proof.
  intros F file rnd names stored ID H. unfold load_fit_hdf. destruct ID as [|z|s|p]; [| | |exfalso; apply (H p); reflexivity].
  - destruct (nth_error names rnd) as [p|]; [|eexists; reflexivity]. destruct (num_of names (snd p)); eexists; reflexivity.
  - eexists; reflexivity.
  - destruct (num_of names s); eexists; reflexivity.
Qed.
Print Assumptions C126_return_ID_refuted.
Example C126_return_ID_example : load_fit_hdf (fun _ => None) 0 [(0%Z, "a")] (fun n => Some n) (IStr "a") true = Raises UnboundLocalError.
Proof. reflexivity. Qed.

(** * C127: the fits used by run_finaloutput(use_dumps=True) *)
(** with an absolute path: those of all the files that are listed, or of the first N of them *)
Theorem C127_absolute : forall (F : Type) (file : path -> option F) dp l g use_N, dumps_of file dp l g -> Forall (fun e => file_name (fst e)) l ->
  absolute dp = true -> Forall file_name (parts dp) ->
  exists IDs, dump_files dp l = map (fun ID => sub dp (ID ++ ".dump")) IDs /\
    finalout_fits file dp l use_N = map (fun ID => g (ID ++ ".dump")%string) (match use_N with Some n => firstn n IDs | None => IDs end).
Proof.
  intros F file dp l g use_N Hf Hn Ha Hp. unfold finalout_fits, get_files_dumps.
  assert (A : forall p, In p (dump_files dp l) -> exists ID, p = sub dp (ID ++ ".dump") /\ finalout_read file dp l (show p) = Some (g (ID ++ ".dump")%string)).
  { intros p H. apply C125_listing in H. destruct H as (ID & H & X & ->). exists ID. split; [reflexivity|].
    assert (N : file_name (ID ++ ".dump")) by (rewrite Forall_forall in Hn; apply (Hn _ H)).
    assert (E := show_dump dp ID).
    unfold finalout_read, load_fit_dumps, dump_name. rewrite E, parse_show by (apply proper_sub; assumption). rewrite pjoin_abs by exact Ha.
    unfold load_path. rewrite (dumps_loaded file dp l g _ Hf H). reflexivity. }
  assert (B : exists IDs, dump_files dp l = map (fun ID => sub dp (ID ++ ".dump")) IDs /\
     forall n, flat_map (fun ID => match finalout_read file dp l ID with Some f => [f] | None => [] end) (firstn n (map show (dump_files dp l))) = map (fun ID => g (ID ++ ".dump")%string) (firstn n IDs)).
  { induction (dump_files dp l) as [|p r IH]; [exists []; split; [reflexivity|intros [|n]; reflexivity]|].
    destruct IH as (IDs & B & C); [intros; apply A; right; assumption|]. destruct (A p (or_introl eq_refl)) as (ID & D & E).
    exists (ID :: IDs). split; [cbn [map]; rewrite B, D; reflexivity|]. intros [|n]; [reflexivity|]. cbn [map firstn flat_map]. rewrite E, C. reflexivity. }
  destruct B as (IDs & B & C). exists IDs. split; [exact B|]. destruct use_N as [n|]; [apply C|]. specialize (C (length IDs)).
  rewrite firstn_all2 in C by (rewrite B, !map_length; lia). rewrite firstn_all in C. exact C.
Qed.
Print Assumptions C127_absolute.
Example C127_example : finalout_fits two_files (Path true ["data"; "dumps"]) two_dumps (Some 1) = [6].
Proof. reflexivity. Qed.

(** refuted with a relative path: not a single fit is loaded *)
Theorem C127_relative_refuted : forall (F : Type) (file : path -> option F) dp l g use_N, dumps_of file dp l g -> Forall (fun e => file_name (fst e)) l ->
  absolute dp = false -> parts dp <> [] -> Forall file_name (parts dp) -> finalout_fits file dp l use_N = [].
Proof.
  intros F file dp l g use_N Hf Hn Ha Hne Hp. unfold finalout_fits, get_files_dumps.
  assert (A : forall s, In s (map show (dump_files dp l)) -> finalout_read file dp l s = None).
  { intros s H. apply in_map_iff in H. destruct H as (p & <- & H). apply C125_listing in H. destruct H as (ID & H & X & ->).
    assert (N : file_name (ID ++ ".dump")) by (rewrite Forall_forall in Hn; apply (Hn _ H)).
    assert (Q : exists q, parse (dump_name (show (sub dp (ID ++ ".dump")))) = Path false q /\ length (parts dp) < length q).
    { unfold dump_name. rewrite show_dump, parse_show by (apply proper_sub; assumption). exists (parts dp ++ [(ID ++ ".dump")%string]). unfold sub, pjoin. simpl. rewrite Ha.
      split; [reflexivity|]. rewrite app_length. simpl. lia. }
    destruct Q as (q & E & L). unfold finalout_read, load_fit_dumps. rewrite E. unfold load_path.
    destruct (file (pjoin dp (Path false q))) eqn:G; [|reflexivity]. exfalso. apply (dumps_length file dp l g) in G; [|exact Hf]. unfold pjoin in G. simpl in G.
    rewrite app_length in G. destruct (parts dp); [congruence|]. simpl in *. lia. }
  assert (B : forall s, In s (match use_N with Some n => firstn n (map show (dump_files dp l)) | None => map show (dump_files dp l) end) -> finalout_read file dp l s = None).
  { intros s H. apply A. destruct use_N as [n|]; [|exact H]. rewrite <- (firstn_skipn n). apply in_or_app. left. exact H. }
  revert B. generalize (match use_N with Some n => firstn n (map show (dump_files dp l)) | None => map show (dump_files dp l) end). clear.
  induction l0 as [|s r IH]; intros B; [reflexivity|]. cbn [flat_map]. rewrite B by (left; reflexivity). apply IH. intros; apply B; right; assumption.
Qed.
Print Assumptions C127_relative_refuted.
Definition rel_files (p : path) : option nat :=
  if existsb (fun e => negb (is_dir (snd e)) && (Bool.eqb (absolute p) false &&
       (if list_eq_dec string_dec (parts p) (["run"; "dumps"] ++ [fst e]) then true else false))) two_dumps
  then Some (String.length (pname p)) else None.
Example C127_relative_example : dump_fits rel_files (Path false ["run"; "dumps"]) two_dumps = [Loaded 6 None; Loaded 6 None] /\
  finalout_fits rel_files (Path false ["run"; "dumps"]) two_dumps None = [].
Proof.
  split; [reflexivity|]. apply (C127_relative_refuted nat rel_files _ two_dumps String.length); try reflexivity; try discriminate;
    repeat constructor; simpl; try discriminate.
Qed.

(** the mode of the first call is the one asked for ... *)
Theorem C127_mode : forall save name l u, complete l -> length l <= 100 -> has_char "." name = false ->
  finalout_modes None (sub save name) l name [u] = [Ok u].
Proof.
  intros save name l u Hc Hl Hd. destruct (C124_itself (sub save name) l Hc Hl) as [A _]; [rewrite pname_sub; exact Hd|]. rewrite pname_sub in A. simpl.
  unfold getattr_result. unfold getitem in A. destruct (dget string_dec name (RTresults (sub save name) l)); [reflexivity|discriminate].
Qed.
Print Assumptions C127_mode.
Example C127_mode_example : finalout_modes None (Path true ["data"; "run"]) [("dumps", Dir []); ("cfg", Dir []); ("results", Dir [])] "run" [true] = [Ok true].
Proof. reflexivity. Qed.

(** ... refuted for the calls that follow: they all use the mode of the first one *)
Theorem C127_mode_refuted : forall save name l u calls, complete l -> length l <= 100 -> has_char "." name = false ->
  finalout_modes None (sub save name) l name (u :: calls) = Ok u :: map (fun _ => Ok u) calls.
Proof.
  intros save name l u calls Hc Hl Hd. destruct (C124_itself (sub save name) l Hc Hl) as [A _]; [rewrite pname_sub; exact Hd|]. rewrite pname_sub in A. simpl.
  unfold getattr_result. unfold getitem in A. destruct (dget string_dec name (RTresults (sub save name) l)); [|discriminate]. simpl. f_equal.
  induction calls as [|c r IH]; [reflexivity|]. simpl. f_equal. exact IH.
Qed.
Print Assumptions C127_mode_refuted.
Example C127_mode_refuted_example :
  finalout_modes None (Path true ["data"; "run"]) [("dumps", Dir []); ("cfg", Dir []); ("results", Dir [])] "run" [false; true] = [Ok false; Ok false].
Proof. reflexivity. Qed.

(** refuted for a folder whose name has a suffix: every call raises *)
Theorem C127_folder_refuted : forall save name l calls, complete l -> length l <= 100 -> stem name <> name ->
  finalout_modes None (sub save name) l name calls = map (fun _ => Err AttributeError) calls.
Proof.
  intros save name l calls Hc Hl Hd. apply check_complete in Hc; [|exact Hl].
  assert (A : getattr_result (RTresults (sub save name) l) name = Err AttributeError).
  { unfold getattr_result, RTresults, addresult. rewrite Hc, pname_sub. simpl. destruct (string_dec name (stem name)); [congruence|reflexivity]. }
  induction calls as [|c r IH]; [reflexivity|]. cbn [finalout_modes get_useres map]. rewrite A. cbn [bind]. f_equal. exact IH.
Qed.
Print Assumptions C127_folder_refuted.
Example C127_folder_example :
  finalout_modes None (Path true ["data"; "run_v1.2"]) [("dumps", Dir []); ("cfg", Dir []); ("results", Dir [])] "run_v1.2" [true] = [Err AttributeError].
Proof. reflexivity. Qed.

(** * C128: the tables of a HDF file *)
Lemma in_const l t : existsb (fun k => match k with Const u => String.eqb t u | _ => false end) l = true <-> In (Const t) l.
Proof.
  rewrite existsb_exists. split.
  - intros ([u|c u] & A & B); [|discriminate]. apply String.eqb_eq in B. subst. exact A.
  - intros H. exists (Const t). split; [exact H|apply String.eqb_refl].
Qed.
Lemma key_inj j k : table_ok j -> table_ok k -> key_of j = key_of k -> j = k.
Proof.
  intros A B E. apply (f_equal keysplit) in E. rewrite !keysplit_key in E by assumption. destruct j, k; try discriminate; injection E; intros; subst; reflexivity.
Qed.

(** every table of a config is accessible as datasets.config.table, every other one as datasets.table unless a config has
    its name; what is accessible is a table of the file *)
Theorem C128_access : forall l, Forall table_ok l ->
  (forall c t, In (OfCfg c t) l -> access (map key_of l) c (Some t) = Ok (key_of (OfCfg c t))) /\
  (forall t, In (Const t) l -> (forall u, ~ In (OfCfg t u) l) -> access (map key_of l) t None = Ok (key_of (Const t))) /\
  (forall a b key, access (map key_of l) a b = Ok key ->
     In (match b with Some t => OfCfg a t | None => Const a end) l /\ key = key_of (match b with Some t => OfCfg a t | None => Const a end)).
Proof.
  intros l Hf. unfold access. repeat split.
  - intros c t Hi. rewrite datasets_get by exact Hf. assert (Ht := proj2 (in_tabs c t l) Hi). destruct (tabs c l) as [|x r] eqn:E; [contradiction|].
    unfold cfgselector. rewrite (sel_fold (fun t => (c ++ "/" ++ t)%string)). rewrite (proj2 (index_prefix_in (x :: r) t) Ht). reflexivity.
  - intros t Hi Hc. rewrite datasets_get by exact Hf. destruct (tabs t l) as [|x r] eqn:E.
    + rewrite (proj2 (in_const l t) Hi). reflexivity.
    + exfalso. apply (Hc x). apply in_tabs. rewrite E. left. reflexivity.
  - rename H into Ha. rewrite datasets_get in Ha by exact Hf. destruct (tabs a l) as [|x r] eqn:E.
    + destruct (existsb _ l) eqn:X; [|discriminate]. destruct b; [discriminate|]. apply in_const in X. exact X.
    + unfold cfgselector in Ha. destruct b as [t|]; [|discriminate]. rewrite (sel_fold (fun t => (a ++ "/" ++ t)%string)) in Ha.
      destruct (existsb (String.eqb t) (x :: r)) eqn:X; [|discriminate]. apply index_prefix_in in X. rewrite <- E in X. apply in_tabs in X. exact X.
  - rename H into Ha. rewrite datasets_get in Ha by exact Hf. destruct (tabs a l) as [|x r] eqn:E.
    + destruct (existsb _ l) eqn:X; [|discriminate]. destruct b; [discriminate|]. injection Ha as <-. reflexivity.
    + unfold cfgselector in Ha. destruct b as [t|]; [|discriminate]. rewrite (sel_fold (fun t => (a ++ "/" ++ t)%string)) in Ha.
      destruct (existsb (String.eqb t) (x :: r)) eqn:X; [|discriminate]. injection Ha as <-. reflexivity.
Qed.
Print Assumptions C128_access.
Example C128_example : let l := [Const "reader_arg"; OfCfg "cfg1" "static"; OfCfg "cfg1" "dynamic"; OfCfg "cfg2" "static"] in
  Forall table_ok l /\ access (map key_of l) "cfg1" (Some "dynamic") = Ok "/cfg1/dynamic" /\ access (map key_of l) "reader_arg" None = Ok "/reader_arg".
Proof. repeat split; try reflexivity. repeat constructor; discriminate. Qed.

(** refuted for a table with the name of a config: it is not accessible *)
Theorem C128_hidden_refuted : forall l t u, Forall table_ok l -> In (Const t) l -> In (OfCfg t u) l -> access (map key_of l) t None = Err AttributeError.
Proof.
  intros l t u Hf _ Hi. unfold access. rewrite datasets_get by exact Hf. apply in_tabs in Hi. destruct (tabs t l); [contradiction|reflexivity].
Qed.
Print Assumptions C128_hidden_refuted.
Example C128_hidden_example : let l := [Const "static"; OfCfg "static" "omega"] in Forall table_ok l /\ access (map key_of l) "static" None = Err AttributeError.
Proof. split; [|reflexivity]. repeat constructor; discriminate. Qed.

(** get_data reads the table of a config exactly if it is there *)
Theorem C128_get_data : forall l c t, Forall table_ok l -> table_ok (OfCfg c t) ->
  (In (OfCfg c t) l -> get_data (map key_of l) t (Some c) = Ok (key_of (OfCfg c t))) /\
  (~ In (OfCfg c t) l -> get_data (map key_of l) t (Some c) = Err KeyError).
Proof.
  intros l c t Hf Hk. unfold get_data.
  assert (E : existsb (String.eqb ("/" ++ c ++ "/" ++ t)%string) (map key_of l) = true <-> In (OfCfg c t) l).
  { rewrite index_prefix_in. split; intros H; [|apply in_map_iff; exists (OfCfg c t); split; [reflexivity|exact H]].
    apply in_map_iff in H. destruct H as (k & A & B). rewrite Forall_forall in Hf. change ("/" ++ c ++ "/" ++ t)%string with (key_of (OfCfg c t)) in A.
    apply key_inj in A; [subst; exact B|apply Hf; exact B|exact Hk]. }
  split; intros H; destruct (existsb (String.eqb ("/" ++ c ++ "/" ++ t)%string) (map key_of l)) eqn:X; try reflexivity.
  - apply E in H. discriminate.
  - exfalso. apply H. apply E. reflexivity.
Qed.
Print Assumptions C128_get_data.
Example C128_get_data_example : get_data (map key_of [Const "reader_arg"; OfCfg "cfg1" "static"]) "static" (Some "cfg1") = Ok "/cfg1/static".
Proof. reflexivity. Qed.

(** refuted without a config: the tables outside of configs can not be read ("The default is None, in which case constant
    keys are accessed") *)
Theorem C128_get_data_const_refuted : forall l t, Forall table_ok l -> In (Const t) l -> (forall u, ~ In (OfCfg "None" u) l) ->
  get_data (map key_of l) t None = Err KeyError.
Proof.
  intros l t Hf Hi Hc. assert (K : table_ok (Const t)) by (rewrite Forall_forall in Hf; apply Hf; exact Hi).
  unfold get_data. replace (existsb (String.eqb t) _) with true.
  - destruct (existsb (String.eqb ("/" ++ "None" ++ "/" ++ t)%string) (map key_of l)) eqn:X; [|reflexivity]. apply index_prefix_in in X. apply in_map_iff in X.
    destruct X as (k & A & B). change ("/" ++ "None" ++ "/" ++ t)%string with (key_of (OfCfg "None" t)) in A. rewrite Forall_forall in Hf.
    apply key_inj in A; [subst k; exfalso; apply (Hc t); exact B|apply Hf; exact B|]. simpl in *. repeat split; apply K.
  - symmetry. apply index_prefix_in. apply in_flat_map. exists (key_of (Const t)). split; [apply in_map; exact Hi|]. rewrite keysplit_key by exact K. left. reflexivity.
Qed.
Print Assumptions C128_get_data_const_refuted.
Example C128_get_data_const_example : get_data (map key_of [Const "reader_arg"; OfCfg "cfg1" "static"]) "reader_arg" None = Err KeyError.
Proof. reflexivity. Qed.

(** * C129: create_index *)
Definition has_levels (t : string * levels) : Prop := match snd t with Multi (_ :: _) => True | _ => False end.
Definition data_table (t : string * levels) : Prop := endswith "/meta" (fst t) = false.

(** on tables with several index-levels: the first level, all levels, or those asked for that the table has *)
Theorem C129_levels : forall a store, (forall t, In t store -> data_table t -> has_levels t) ->
  snd (create_index a store) = None /\
  (forall key ls, In (key, ls) (fst (create_index a store)) <-> exists l, In (key, Multi l) store /\ data_table (key, Multi l) /\ ls <> [] /\
     ls = match a with
          | ArgNone => firstn 1 l
          | ArgAll => l
          | ArgList il => filter (fun x => existsb (String.eqb x) il) l
          end).
Proof.
  intros a store. induction store as [|[key s] r IH]; intros Hs; [split; [reflexivity|]; intros; simpl; split; [contradiction|intros (l & [] & _)]|].
  destruct IH as [A B]; [intros; apply Hs; [right; assumption|assumption]|]. cbn [create_index].
  destruct (endswith "/meta" key) eqn:M.
  - split; [exact A|]. intros k ls. rewrite B. split; intros (l & X & Y & Z & W); exists l; (split; [|split; [exact Y|split; [exact Z|exact W]]]); [right; exact X|].
    destruct X as [X|X]; [|exact X]. injection X as -> ->. unfold data_table in Y. simpl in Y. congruence.
  - assert (H := Hs (key, s) (or_introl eq_refl) M). unfold has_levels in H. simpl in H. destruct s as [|[|x l]]; try contradiction.
    assert (U : exists u, use_levels a (Multi (x :: l)) = Ok u /\ forall ls, u = Some ls <-> ls <> [] /\
       ls = match a with ArgNone => firstn 1 (x :: l) | ArgAll => x :: l | ArgList il => filter (fun y => existsb (String.eqb y) il) (x :: l) end).
    { destruct a as [| |il]; eexists; (split; [reflexivity|]); intros ls.
      - simpl. split; [intros E; injection E as <-; split; [discriminate|reflexivity]|intros [_ ->]; reflexivity].
      - split; [intros E; injection E as <-; split; [discriminate|reflexivity]|intros [_ ->]; reflexivity].
      - destruct (filter (fun y => existsb (String.eqb y) il) (x :: l)); split; [discriminate|intros [X Y]; congruence|intros E; injection E as <-; split; [discriminate|reflexivity]|intros [_ ->]; reflexivity]. }
    destruct U as (u & U & V). rewrite U. destruct (create_index a r) as [done e]. simpl in A. simpl fst in *. simpl snd in *. split; [exact A|].
    intros k ls. split.
    + intros Hi. assert (C : (k = key /\ u = Some ls) \/ In (k, ls) done).
      { destruct u as [v|]; [destruct Hi as [Hi|Hi]; [injection Hi as -> ->; left; split; reflexivity|right; exact Hi]|right; exact Hi]. }
      destruct C as [[-> C]|C].
      * apply V in C. destruct C as [C D]. exists (x :: l). split; [left; reflexivity|]. split; [exact M|]. split; [exact C|exact D].
      * apply B in C. destruct C as (l' & C & D). exists l'. split; [right; exact C|exact D].
    + intros (l' & [X|X] & Y & Z & W).
      * injection X as -> <-. assert (u = Some ls) as ->. { apply V. split; [exact Z|exact W]. } left. reflexivity.
      * assert (In (k, ls) done) by (apply B; exists l'; repeat split; assumption). destruct u; [right|]; assumption.
Qed.
Print Assumptions C129_levels.
Example C129_example : create_index (ArgList ["ID"; "x"]) [("/cfg/dynamic", Multi ["ID"; "date"]); ("/cfg/dynamic/meta", Single); ("/other", Multi ["n"])] =
  ([("/cfg/dynamic", ["ID"])], None).
Proof. reflexivity. Qed.

(** refuted for files that have a table with a simple index (such as the reader arguments): with "all" or a list of levels
    it raises, and the tables that follow get no index *)
Theorem C129_all_refuted : forall a l1 key l2, a <> ArgNone -> (forall t, In t l1 -> data_table t -> has_levels t) -> endswith "/meta" key = false ->
  create_index a (l1 ++ (key, Single) :: l2) = (fst (create_index a l1), Some TypeError).
Proof.
  intros a l1 key l2 Ha H Hm. induction l1 as [|[k s] r IH].
  - cbn [app create_index]. rewrite Hm. destruct a; [congruence| |]; reflexivity.
  - cbn [app create_index]. specialize (IH (fun t X => H t (or_intror X))). destruct (endswith "/meta" k) eqn:M; [exact IH|].
    assert (L := H (k, s) (or_introl eq_refl) M). unfold has_levels in L. simpl in L. destruct s as [|[|x l]]; try contradiction.
    assert (U : exists u, use_levels a (Multi (x :: l)) = Ok u) by (destruct a; eexists; reflexivity). destruct U as [u ->]. rewrite IH.
    destruct (create_index a r). reflexivity.
Qed.
Print Assumptions C129_all_refuted.
Example C129_all_example : create_index ArgAll [("/cfg/dynamic", Multi ["ID"; "date"]); ("/reader_arg", Single); ("/cfg/static", Multi ["ID"; "n"])] =
  ([("/cfg/dynamic", ["ID"; "date"])], Some TypeError).
Proof. reflexivity. Qed.

(** refuted for such tables also by default: the index is made for a column "1", whatever the columns are *)
Theorem C129_single_refuted : forall store key, In (key, Single) store -> endswith "/meta" key = false ->
  snd (create_index ArgNone store) = None -> In (key, ["1"]) (fst (create_index ArgNone store)).
Proof.
  intros store key. induction store as [|[k s] r IH]; intros Hi Hm He; [contradiction|]. cbn [create_index] in *.
  destruct (endswith "/meta" k) eqn:M.
  - apply IH; [|exact Hm|exact He]. destruct Hi as [Hi|Hi]; [injection Hi as -> _; congruence|exact Hi].
  - destruct (use_levels ArgNone s) as [u|e] eqn:U; [|discriminate]. destruct (create_index ArgNone r) as [done e]. simpl in *. destruct Hi as [Hi|Hi].
    + injection Hi as -> ->. simpl in U. injection U as <-. left. reflexivity.
    + specialize (IH Hi Hm He). destruct u; [right|]; exact IH.
Qed.
Print Assumptions C129_single_refuted.
Example C129_single_example : create_index ArgNone [("/cfg/dynamic", Multi ["ID"; "date"]); ("/reader_arg", Single)] =
  ([("/cfg/dynamic", ["ID"]); ("/reader_arg", ["1"])], None).
Proof. reflexivity. Qed.
