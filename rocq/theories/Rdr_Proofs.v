(** Proofs about the access to processed results *)
From Coq Require Import ZArith Arith Bool String Ascii List Lia.
From Verif Require Import Base Base_Proofs Str_Model Str_Proofs Rdr_Model Rdr_Spec.
Import ListNotations.
Local Open Scope string_scope.
Local Open Scope list_scope.

Lemma pname_sub p n : pname (sub p n) = n.
Proof. unfold pname, sub, pjoin. simpl. apply last_last. Qed.
Lemma last_dot_none s : has_char "." s = false -> last_dot s = None.
Proof.
  induction s as [|c s IH]; [reflexivity|]. simpl. intros H. destruct (Ascii.eqb c "."); [discriminate|]. simpl in H. rewrite IH by exact H. reflexivity.
Qed.
Lemma stem_plain s : has_char "." s = false -> stem s = s.
Proof. intros H. unfold stem. rewrite last_dot_none by exact H. reflexivity. Qed.
Lemma last_dot_app a b i : last_dot b = Some i -> last_dot (a ++ b) = Some (String.length a + i).
Proof. induction a as [|c a IH]; intros H; simpl; [exact H|]. rewrite IH by exact H. reflexivity. Qed.
Lemma substring_app a b : String.substring 0 (String.length a) (a ++ b) = a.
Proof. induction a as [|c a IH]; simpl; [destruct b; reflexivity|rewrite IH; reflexivity]. Qed.
Lemma stem_dump a : a <> "" -> stem (a ++ ".dump") = a.
Proof.
  intros H. unfold stem. rewrite (last_dot_app a ".dump" 0) by reflexivity. rewrite Nat.add_0_r, slength_app.
  destruct a as [|c a]; [congruence|]. replace (Nat.ltb 0 (String.length (String c a))) with true by reflexivity.
  replace (Nat.ltb (String.length (String c a)) _) with true by (symmetry; apply Nat.ltb_lt; simpl; lia). cbn [andb]. apply substring_app.
Qed.

(** ** folders *)
Lemma check_complete l : length l <= 100 -> (check_folderstructure l = true <-> complete l).
Proof.
  intros H. unfold check_folderstructure, complete. rewrite firstn_all2 by exact H. rewrite forallb_forall. split; intros A f Hf.
  - specialize (A f Hf). apply existsb_exists in A. destruct A as ([n nd] & Hi & E). apply andb_true_iff in E. destruct E as [E D].
    apply String.eqb_eq in E. simpl in *. subst n. destruct nd; [discriminate|]. exists l0. exact Hi.
  - destruct (A f Hf) as [s Hs]. apply existsb_exists. exists (f, Dir s). split; [exact Hs|]. simpl. rewrite String.eqb_refl. reflexivity.
Qed.
Lemma check_sound l : check_folderstructure l = true -> complete l.
Proof.
  unfold check_folderstructure, complete. rewrite forallb_forall. intros A f Hf. specialize (A f Hf). apply existsb_exists in A.
  destruct A as ([n nd] & Hi & E). apply andb_true_iff in E. destruct E as [E D]. apply String.eqb_eq in E. simpl in *. subst n.
  destruct nd; [discriminate|]. exists l0. rewrite <- (firstn_skipn 100 l). apply in_or_app. left. exact Hi.
Qed.
Definition step (parent : path) (d : dict string path) (e : string * node) : dict string path := addresult d (sub parent (fst e)) (snd e).
Definition found (e : string * node) : bool := match snd e with Dir s => check_folderstructure s | File => false end.
Lemma step_eq parent d e : step parent d e = if found e then dset string_dec (stem (fst e)) (sub parent (fst e)) d else d.
Proof. unfold step, addresult, found. destruct (snd e); [reflexivity|]. rewrite pname_sub. reflexivity. Qed.
Lemma fold_values parent l : forall d k p, dget string_dec k (fold_left (step parent) l d) = Some p ->
  dget string_dec k d = Some p \/ exists e, In e l /\ found e = true /\ p = sub parent (fst e).
Proof.
  induction l as [|e l IH]; intros d k p H; simpl in H; [left; exact H|]. destruct (IH _ _ _ H) as [A|(e' & A & B & C)].
  - rewrite step_eq in A. destruct (found e) eqn:E; [|left; exact A]. destruct (string_dec k (stem (fst e))) as [->|N].
    + rewrite dget_dset_same in A. injection A as <-. right. exists e. repeat split; [left; reflexivity|exact E].
    + rewrite dget_dset_other in A by auto. left. exact A.
  - right. exists e'. repeat split; [right; exact A|exact B|exact C].
Qed.
Lemma fold_found parent l : (forall e, In e l -> found e = true -> stem (fst e) = fst e) -> NoDup (map fst l) -> forall d n,
  dget string_dec n (fold_left (step parent) l d) =
  if existsb (fun e => String.eqb (fst e) n && found e) l then Some (sub parent n) else dget string_dec n d.
Proof.
  induction l as [|e l IH]; intros Hs Hn d n; [reflexivity|]. cbn [fold_left existsb map] in *. apply NoDup_cons_iff in Hn. destruct Hn as [Hn Hd].
  rewrite IH; [|intros; apply Hs; [right; assumption|assumption]|exact Hd].
  destruct (existsb (fun e0 => String.eqb (fst e0) n && found e0) l) eqn:X; [rewrite orb_true_r; reflexivity|]. rewrite orb_false_r, step_eq.
  destruct (found e) eqn:F; [|rewrite andb_false_r; reflexivity]. rewrite andb_true_r, Hs by (try left; auto).
  destruct (String.eqb (fst e) n) eqn:E.
  - apply String.eqb_eq in E. subst n. apply dget_dset_same.
  - apply String.eqb_neq in E. apply dget_dset_other. congruence.
Qed.
Lemma fold_keys_nodup parent l : forall d, NoDup (keys d) -> NoDup (keys (fold_left (step parent) l d)).
Proof.
  induction l as [|e l IH]; intros d H; [exact H|]. simpl. apply IH. rewrite step_eq. destruct (found e); [|exact H]. apply NoDup_keys_dset. exact H.
Qed.

(** ** paths *)
Lemma parse_show p : proper p -> parse (show p) = p.
Proof.
  intros [Hn Hf]. destruct p as [a l]. simpl in *. unfold parse, show. cbn [absolute parts].
  assert (Hs : forall s, In s l -> has_char "/" s = false) by (intros s Hs; rewrite Forall_forall in Hf; apply Hf; exact Hs).
  assert (K : filter (fun n => negb (String.eqb n "" || String.eqb n ".")) l = l).
  { clear Hn Hs. induction Hf as [|x r Hx Hr IH]; [reflexivity|]. simpl. destruct Hx as (X & Y & _).
    destruct (String.eqb x "") eqn:E; [apply String.eqb_eq in E; congruence|]. destruct (String.eqb x ".") eqn:E'; [apply String.eqb_eq in E'; congruence|].
    simpl. rewrite IH. reflexivity. }
  destruct a.
  - change ("/" ++ join_char "/" l)%string with (String "/" (join_char "/" l)). cbn [split_char Ascii.eqb Bool.eqb].
    rewrite split_join by assumption. simpl. rewrite K. f_equal; destruct (join_char _ _); reflexivity.
  - simpl append. rewrite split_join by assumption. rewrite K. f_equal. destruct l as [|x r]; [congruence|].
    inversion_clear Hf as [|? ? Hx _]. destruct Hx as (X & _ & Z). destruct x as [|c x]; [congruence|].
    assert (c <> "/"%char). { intros ->. simpl in Z. discriminate. }
    assert (P : forall t, startswith "/" (String c t) = false).
    { intros t. unfold startswith. cbn [prefix]. destruct (ascii_dec "/" c); [congruence|reflexivity]. }
    destruct r; apply P.
Qed.

Lemma proper_sub p n : Forall file_name (parts p) -> file_name n -> proper (sub p n).
Proof. intros A B. unfold proper, sub, pjoin. simpl. split; [destruct (parts p); discriminate|]. apply Forall_app. split; [exact A|]. constructor; [exact B|constructor]. Qed.
Lemma pjoin_rel p n : file_name n -> pjoin p (parse n) = sub p n.
Proof.
  intros H. assert (parse n = Path false [n]) as ->; [|reflexivity].
  change n with (show (Path false [n])) at 1. apply parse_show. split; [discriminate|]. constructor; [exact H|constructor].
Qed.
Lemma pjoin_abs p q : absolute q = true -> pjoin p q = q.
Proof. intros H. unfold pjoin. rewrite H. reflexivity. Qed.
Lemma has_char_app c a b : has_char c (a ++ b) = has_char c a || has_char c b.
Proof. induction a as [|x a IH]; [reflexivity|]. simpl. rewrite IH. apply orb_assoc. Qed.
Lemma dump_file_name ID : has_char "/" ID = false -> file_name (ID ++ ".dump").
Proof. intros H. repeat split; try (destruct ID as [|a [|b ID]]; discriminate). rewrite has_char_app, H. reflexivity. Qed.

(** ** dumps *)
Lemma show_dump dp ID : endswith ".dump" (show (sub dp (ID ++ ".dump"))) = true.
Proof.
  apply endswith_iff. unfold show, sub, pjoin. cbn [absolute parts]. clear. induction (parts dp) as [|x r (a & IH)].
      - exists ((if absolute dp then "/" else "") ++ ID)%string. simpl. destruct (absolute dp); reflexivity.
      - destruct r as [|y r]; simpl app in *; cbn [join_char] in *.
        + exists ((if absolute dp then "/" else "") ++ x ++ String "/" ID)%string. rewrite !sapp_assoc. simpl. reflexivity.
        + revert IH. set (j := join_char "/" (y :: r ++ [(ID ++ ".dump")%string])). intros IH. destruct (absolute dp); simpl in *.
          * destruct a as [|c a]; simpl in IH; [exfalso; destruct j; discriminate|]. injection IH as <- ->. exists ("/" ++ x ++ "/" ++ a)%string. simpl. rewrite sapp_assoc. reflexivity.
          * rewrite IH. exists (x ++ "/" ++ a)%string. rewrite !sapp_assoc. reflexivity.
Qed.
Section Load.
Context {F : Type} (file : path -> option F).
Lemma dumps_loaded dp l g n : dumps_of file dp l g -> In (n, File) l -> file (sub dp n) = Some (g n).
Proof.
  intros H Hi. rewrite (H (sub dp n)). rewrite pname_sub.
  replace (existsb _ l) with true; [reflexivity|]. symmetry. apply existsb_exists. exists (n, File). split; [exact Hi|]. simpl.
  rewrite Bool.eqb_reflx. destruct (list_eq_dec string_dec (parts dp ++ [n]) (parts dp ++ [n])); [reflexivity|congruence].
Qed.
Lemma dumps_length dp l g p f : dumps_of file dp l g -> file p = Some f -> length (parts p) = S (length (parts dp)).
Proof.
  intros H E. rewrite (H p) in E. destruct (existsb _ l) eqn:X; [|discriminate]. apply existsb_exists in X. destruct X as (e & _ & X).
  apply andb_true_iff in X. destruct X as [_ X]. apply andb_true_iff in X. destruct X as [_ X].
  destruct (list_eq_dec string_dec (parts p) (parts dp ++ [fst e])) as [->|]; [|discriminate]. rewrite app_length. simpl. lia.
Qed.
Lemma is_dump_iff e : is_dump e = true <-> exists ID, e = ((ID ++ ".dump")%string, File) /\ contains "error" (ID ++ ".dump") = false.
Proof.
  destruct e as [n nd]. unfold is_dump. simpl. split.
  - intros H. apply andb_true_iff in H. destruct H as [H X]. apply andb_true_iff in H. destruct H as [H D].
    apply endswith_iff in H. destruct H as [a ->]. exists a. destruct nd; [|discriminate]. split; [reflexivity|].
    apply negb_true_iff in X. exact X.
  - intros (ID & E & X). injection E as -> ->. rewrite endswith_app, X. reflexivity.
Qed.
End Load.

(** ** tables *)
Lemma index_prefix_in (l : list string) (k : string) : existsb (String.eqb k) l = true <-> In k l.
Proof. rewrite existsb_exists. split; [intros (x & A & B); apply String.eqb_eq in B; subst; exact A|intros H; exists k; split; [exact H|apply String.eqb_refl]]. Qed.

Lemma keysplit_key k : table_ok k -> keysplit (key_of k) = match k with Const t => [t] | OfCfg c t => [c; t] end.
Proof.
  destruct k as [t|c t]; intros H; unfold keysplit; simpl.
  - apply split_char_nosep, H.
  - destruct H as (A & B & _). change ("/" ++ t)%string with (String "/" t). rewrite split_char_cons by exact A. rewrite split_char_nosep by exact B. reflexivity.
Qed.
Lemma split_last c a b d : has_char c b = false -> last (split_char c (a ++ String c b)) d = b.
Proof.
  intros H. induction a as [|x a IH]; cbn [append split_char].
  - rewrite Ascii.eqb_refl, split_char_nosep by exact H. reflexivity.
  - destruct (Ascii.eqb x c).
    + rewrite <- IH at 2. destruct (split_char c (a ++ String c b)) eqn:E; [exfalso; eapply split_char_nonempty; exact E|reflexivity].
    + destruct (split_char c (a ++ String c b)) as [|h t] eqn:E; [exfalso; eapply split_char_nonempty; exact E|].
      destruct t; [|exact IH]. exfalso. clear - E H.
      assert (X := split_char_nonempty c b).
      assert (L : 2 <= length (split_char c (a ++ String c b))).
      { clear E. induction a as [|y a IHa]; cbn [append split_char].
        - rewrite Ascii.eqb_refl. rewrite split_char_nosep by exact H. simpl. lia.
        - destruct (Ascii.eqb y c); [simpl; lia|]. destruct (split_char c (a ++ String c b)); simpl in *; lia. }
      rewrite E in L. simpl in L. lia.
Qed.
Lemma not_meta k : table_ok k -> endswith "/meta" (key_of k) = false.
Proof.
  intros H. apply not_true_iff_false. intros E. apply endswith_iff in E. destruct E as [a E].
  assert (L := split_last "/" a "meta" "" eq_refl). change (String "/" "meta") with "/meta" in L. rewrite <- E in L.
  destruct k as [t|c t]; simpl key_of in L; destruct H as [A B].
  - change (String "/" t) with ("" ++ String "/" t)%string in L. rewrite split_last in L by exact A. congruence.
  - destruct B as [B C]. change (String "/" (c ++ String "/" t)) with ((String "/" c) ++ String "/" t)%string in L. rewrite split_last in L by exact B. congruence.
Qed.
Definition tabs (c : string) (l : list table) : list string :=
  flat_map (fun k => match k with OfCfg c' t => if string_dec c c' then [t] else [] | Const _ => [] end) l.
Lemma read_keys l : Forall table_ok l -> forall cfgs attrs, fold_left read_key (map key_of l) ([], []) = (cfgs, attrs) ->
  NoDup (keys cfgs) /\
  (forall c, dget string_dec c cfgs = match tabs c l with [] => None | ts => Some ts end) /\
  (forall a, dget string_dec a attrs = if existsb (fun k => match k with Const t => String.eqb a t | _ => false end) l then Some (Tbl ("/" ++ a)%string) else None).
Proof.
  induction l as [|k l IH] using rev_ind; intros Hf cfgs attrs E.
  - simpl in E. injection E as <- <-. split; [constructor|]. split; reflexivity.
  - apply Forall_app in Hf. destruct Hf as [Hf Hk]. inversion_clear Hk as [|? ? Hk' _]. rewrite map_app, fold_left_app in E.
    destruct (fold_left read_key (map key_of l) ([], [])) as [c0 a0] eqn:E0. destruct (IH Hf _ _ eq_refl) as (A & B & C).
    cbn [map fold_left read_key] in E. unfold read_key in E. rewrite not_meta, keysplit_key in E by exact Hk'.
    unfold tabs. destruct k as [t|c t]; injection E as <- <-.
    + split; [exact A|]. split.
      * intros c. rewrite flat_map_app. cbn [flat_map]. rewrite !app_nil_r. apply B.
      * intros a. rewrite existsb_app. cbn [existsb]. rewrite orb_false_r. destruct (String.eqb a t) eqn:X.
        -- apply String.eqb_eq in X. subst t. rewrite dget_dset_same, orb_true_r. reflexivity.
        -- apply String.eqb_neq in X. rewrite dget_dset_other, C, orb_false_r by exact X. reflexivity.
    + split; [apply NoDup_keys_dset; exact A|]. split.
      * intros c'. rewrite flat_map_app. cbn [flat_map]. rewrite app_nil_r. fold (tabs c' l). unfold add_cfg. destruct (string_dec c' c) as [->|N].
        -- rewrite dget_dset_same, B. destruct (tabs c l); reflexivity.
        -- rewrite dget_dset_other, B, app_nil_r by exact N. reflexivity.
      * intros a. rewrite existsb_app. cbn [existsb]. rewrite !orb_false_r. apply C.
Qed.
Lemma in_tabs c t l : In t (tabs c l) <-> In (OfCfg c t) l.
Proof.
  unfold tabs. rewrite in_flat_map. split.
  - intros ([t'|c' t'] & A & B); [contradiction|]. destruct (string_dec c c') as [->|]; [|contradiction]. destruct B as [->|[]]. exact A.
  - intros H. exists (OfCfg c t). split; [exact H|]. destruct (string_dec c c); [left; reflexivity|congruence].
Qed.
Lemma sel_fold (f : string -> string) ts : forall d t, dget string_dec t (fold_left (fun d t => dset string_dec t (f t) d) ts d) =
  if existsb (String.eqb t) ts then Some (f t) else dget string_dec t d.
Proof.
  induction ts as [|x ts IH]; intros d t; [reflexivity|]. cbn [fold_left existsb]. rewrite IH. destruct (existsb (String.eqb t) ts); [rewrite orb_true_r; reflexivity|].
  rewrite orb_false_r. destruct (String.eqb t x) eqn:E.
  - apply String.eqb_eq in E. subst x. apply dget_dset_same.
  - apply String.eqb_neq in E. apply dget_dset_other. exact E.
Qed.
Lemma cfg_fold cfgs : NoDup (keys cfgs) -> forall attrs a, dget string_dec a (fold_left (fun x c => dset string_dec (fst c) (cfgselector (fst c) (snd c)) x) cfgs attrs) =
  match dget string_dec a cfgs with Some ts => Some (cfgselector a ts) | None => dget string_dec a attrs end.
Proof.
  induction cfgs as [|[c ts] r IH]; intros Hn attrs a; [reflexivity|]. cbn [keys map fst] in Hn. apply NoDup_cons_iff in Hn. destruct Hn as [Hn Hr].
  cbn [fold_left fst snd]. rewrite IH by exact Hr. cbn [dget]. destruct (string_dec a c) as [->|N].
  - destruct (dget string_dec c r) eqn:E; [|apply dget_dset_same]. exfalso. apply Hn. apply dget_some_in in E. apply (in_map fst) in E. exact E.
  - destruct (dget string_dec a r); [reflexivity|]. apply dget_dset_other. exact N.
Qed.
Lemma datasets_get l a : Forall table_ok l -> dget string_dec a (datasets (map key_of l)) =
  match tabs a l with
  | [] => if existsb (fun k => match k with Const t => String.eqb a t | _ => false end) l then Some (Tbl ("/" ++ a)%string) else None
  | ts => Some (cfgselector a ts)
  end.
Proof.
  intros Hf. unfold datasets. destruct (fold_left read_key (map key_of l) ([], [])) as [cfgs attrs] eqn:E.
  destruct (read_keys l Hf _ _ E) as (A & B & C). rewrite cfg_fold by exact A. rewrite B, C. destruct (tabs a l); reflexivity.
Qed.
