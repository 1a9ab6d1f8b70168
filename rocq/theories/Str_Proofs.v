(** Lemmas about the Python string operations. *)
From Coq Require Import List Arith Bool String Ascii Lia.
From Verif Require Import Str_Model.
Import ListNotations.
Open Scope string_scope.

Lemma sapp_assoc (a b c : string) : (a ++ b) ++ c = a ++ (b ++ c).
Proof. induction a; simpl; congruence. Qed.

Lemma sapp_nil_r (a : string) : a ++ "" = a.
Proof. induction a; simpl; congruence. Qed.

Lemma slength_app (a b : string) : String.length (a ++ b) = String.length a + String.length b.
Proof. induction a; simpl; congruence. Qed.

Lemma drop_app (a b : string) : drop (String.length a) (a ++ b) = b.
Proof. induction a; simpl; auto. Qed.

Lemma drop_0 s : drop 0 s = s.
Proof. destruct s; reflexivity. Qed.

Lemma endswith_app (a p : string) : endswith p (a ++ p) = true.
Proof.
  unfold endswith. rewrite slength_app.
  replace (String.length a + String.length p - String.length p) with (String.length a) by lia.
  rewrite drop_app, String.eqb_refl.
  destruct (Nat.leb_spec (String.length p) (String.length a + String.length p)); [reflexivity|lia].
Qed.

Lemma drop_split n s : n <= String.length s -> exists a, s = a ++ drop n s /\ String.length a = n.
Proof.
  revert s. induction n as [|n IH]; intros s Hn.
  - exists "". split; [rewrite drop_0; reflexivity|reflexivity].
  - destruct s as [|c s]; simpl in Hn; [lia|]. destruct (IH s) as (a & Ha & Hl); [lia|].
    exists (String c a). simpl. split; [congruence|congruence].
Qed.

Lemma endswith_iff p s : endswith p s = true <-> exists a, s = a ++ p.
Proof.
  split.
  - unfold endswith. rewrite andb_true_iff, Nat.leb_le, String.eqb_eq. intros [Hl He].
    destruct (drop_split (String.length s - String.length p) s) as (a & Ha & _); [lia|].
    exists a. rewrite He in Ha. exact Ha.
  - intros [a ->]. apply endswith_app.
Qed.

Lemma prefix_iff p s : String.prefix p s = true <-> exists r, s = p ++ r.
Proof.
  revert s. induction p as [|c p IH]; intros s; simpl.
  - split; [exists s; reflexivity|]. destruct s; reflexivity.
  - destruct s as [|d s]; [split; [discriminate|intros [r E]; discriminate]|].
    unfold String.prefix; fold String.prefix. destruct (Ascii.ascii_dec c d) as [->|Hn].
    + rewrite IH. split; intros [r E]; exists r; [congruence|inversion E; reflexivity].
    + split; [discriminate|]. intros [r E]. inversion E; congruence.
Qed.

Lemma startswith_app p r : startswith p (p ++ r) = true.
Proof. unfold startswith. apply prefix_iff. exists r; reflexivity. Qed.

Lemma droplast_snoc s c : droplast (s ++ String c "") = s.
Proof.
  induction s as [|a s IH]; [reflexivity|]. simpl. rewrite IH.
  destruct s; reflexivity.
Qed.

Lemma inner_brackets s : inner ("[" ++ s ++ "]") = s.
Proof. unfold inner. simpl. apply droplast_snoc. Qed.

Lemma bracket_test s : startswith "[" ("[" ++ s ++ "]") && endswith "]" ("[" ++ s ++ "]") = true.
Proof.
  rewrite startswith_app. rewrite <- sapp_assoc. rewrite endswith_app. reflexivity.
Qed.

(** a bracketed string has an inside *)
Lemma bracket_inv s : startswith "[" s && endswith "]" s = true -> exists a, s = "[" ++ a ++ "]".
Proof.
  rewrite andb_true_iff. intros [H1 H2]. apply prefix_iff in H1. destruct H1 as [r ->].
  apply endswith_iff in H2. destruct H2 as [a E]. destruct a as [|c a]; [discriminate|].
  simpl in E. inversion E; subst. exists a. reflexivity.
Qed.

Lemma remove_char_app c a b : remove_char c (a ++ b) = remove_char c a ++ remove_char c b.
Proof.
  induction a as [|x a IH]; simpl; [reflexivity|]. destruct (Ascii.eqb x c); simpl; congruence.
Qed.

Lemma remove_char_has c d s : has_char d s = false -> has_char d (remove_char c s) = false.
Proof.
  induction s as [|x s IH]; simpl; [auto|]. rewrite orb_false_iff. intros [H1 H2].
  destruct (Ascii.eqb x c); [auto|]. simpl. rewrite H1. auto.
Qed.

Lemma remove_char_join c d l : Ascii.eqb d c = false ->
  remove_char c (join_char d l) = join_char d (map (remove_char c) l).
Proof.
  intros Hd. induction l as [|s r IH]; [reflexivity|]. destruct r as [|t r]; [reflexivity|].
  change (join_char d (s :: t :: r)) with (s ++ String d (join_char d (t :: r))).
  rewrite remove_char_app. cbn [remove_char]. rewrite Hd, IH. reflexivity.
Qed.

Lemma split_char_nosep c s : has_char c s = false -> split_char c s = [s].
Proof.
  induction s as [|x s IH]; simpl; [reflexivity|]. rewrite orb_false_iff. intros [H1 H2].
  rewrite H1, (IH H2). reflexivity.
Qed.

Lemma split_char_cons c a b : has_char c a = false -> split_char c (a ++ String c b) = a :: split_char c b.
Proof.
  induction a as [|x a IH]; simpl.
  - rewrite Ascii.eqb_refl. reflexivity.
  - rewrite orb_false_iff. intros [H1 H2]. rewrite H1, (IH H2). reflexivity.
Qed.

Lemma split_join c l : l <> [] -> (forall s, In s l -> has_char c s = false) ->
  split_char c (join_char c l) = l.
Proof.
  induction l as [|s r IH]; [congruence|]. intros _ H. destruct r as [|t r].
  - simpl. apply split_char_nosep. apply H. left; reflexivity.
  - change (join_char c (s :: t :: r)) with (s ++ String c (join_char c (t :: r))).
    rewrite split_char_cons by (apply H; left; reflexivity). rewrite IH; [reflexivity|discriminate|].
    intros; apply H; right; assumption.
Qed.

Lemma split_char_nonempty c s : split_char c s <> [].
Proof.
  destruct s as [|a s]; simpl; [discriminate|]. destruct (Ascii.eqb a c); [discriminate|].
  destruct (split_char c s); discriminate.
Qed.

Lemma split_char_fields c s : forall f, In f (split_char c s) -> has_char c f = false.
Proof.
  induction s as [|a s IH]; intros f; simpl; [intros [<-|[]]; reflexivity|].
  destruct (Ascii.eqb a c) eqn:E.
  - intros [<-|H]; [reflexivity|auto].
  - destruct (split_char c s) as [|h t] eqn:Es.
    + intros [<-|[]]. simpl. rewrite E. reflexivity.
    + intros [<-|H]; [simpl; rewrite E; apply IH; left; reflexivity|apply IH; right; exact H].
Qed.

Lemma join_split c s : join_char c (split_char c s) = s.
Proof.
  induction s as [|a s IH]; [reflexivity|]. simpl. destruct (Ascii.eqb a c) eqn:E.
  - apply Ascii.eqb_eq in E; subst. assert (Hn := split_char_nonempty c s).
    destruct (split_char c s) as [|h t] eqn:Es; [congruence|].
    change (join_char c ("" :: h :: t)) with (String c (join_char c (h :: t))). rewrite IH. reflexivity.
  - assert (Hn := split_char_nonempty c s). destruct (split_char c s) as [|h t] eqn:Es; [congruence|].
    destruct t as [|t0 t]; simpl in *; congruence.
Qed.

Lemma rev_string_app a b : rev_string (a ++ b) = rev_string b ++ rev_string a.
Proof.
  induction a as [|c a IH]; simpl; [|rewrite IH, sapp_assoc; reflexivity].
  induction (rev_string b) as [|d s IHs]; simpl; [reflexivity|]. congruence.
Qed.
Lemma rev_string_inv a : rev_string (rev_string a) = a.
Proof. induction a as [|c a IH]; simpl; [reflexivity|]. rewrite rev_string_app, IH. reflexivity. Qed.
Lemma strip_brackets a : strip ("[" ++ a ++ "]") = "[" ++ a ++ "]".
Proof.
  unfold strip. change (lstrip ("[" ++ a ++ "]")) with ("[" ++ a ++ "]").
  rewrite <- sapp_assoc. rewrite rev_string_app.
  change (lstrip (rev_string "]" ++ rev_string ("[" ++ a))) with (rev_string "]" ++ rev_string ("[" ++ a)).
  rewrite <- rev_string_app. apply rev_string_inv.
Qed.

Fixpoint allsp (s : string) : bool :=
  match s with EmptyString => true | String c r => is_space c && allsp r end.
Lemma lstrip_pad p t : allsp p = true -> (forall c r, t = String c r -> is_space c = false) -> lstrip (p ++ t) = t.
Proof.
  intros Hp Ht. induction p as [|c p IH]; simpl.
  - destruct t as [|c r]; [reflexivity|]. simpl. rewrite (Ht c r eq_refl). reflexivity.
  - simpl in Hp. apply andb_true_iff in Hp. rewrite (proj1 Hp). apply IH. tauto.
Qed.
Lemma allsp_app p q : allsp (p ++ q) = allsp p && allsp q.
Proof. induction p as [|c p IH]; simpl; [reflexivity|]. rewrite IH, andb_assoc. reflexivity. Qed.
Lemma allsp_rev q : allsp (rev_string q) = allsp q.
Proof. induction q as [|c q IH]; simpl; [reflexivity|]. rewrite allsp_app, IH. simpl. rewrite andb_true_r, andb_comm. reflexivity. Qed.
Lemma lstrip_all p : allsp p = true -> lstrip p = "".
Proof. induction p as [|c p IH]; simpl; [reflexivity|]. rewrite andb_true_iff. intros [-> H]. auto. Qed.
Lemma strip_pad p t q : allsp p = true -> allsp q = true ->
  (forall c r, t = String c r -> is_space c = false) -> (forall c r, t = r ++ String c "" -> is_space c = false) ->
  strip (p ++ t ++ q) = t.
Proof.
  intros Hp Hq H1 H2. unfold strip. destruct t as [|c t].
  - simpl. assert (A : allsp (p ++ q) = true) by (rewrite allsp_app, Hp, Hq; reflexivity).
    rewrite (lstrip_all _ A). reflexivity.
  - rewrite lstrip_pad; [|exact Hp|].
    2:{ intros d r E. simpl in E. inversion E; subst. eapply H1; reflexivity. }
    rewrite rev_string_app. rewrite lstrip_pad; [apply rev_string_inv|rewrite allsp_rev; exact Hq|].
    intros d r E. apply (H2 d (rev_string r)). rewrite <- (rev_string_inv (String c t)), E. reflexivity.
Qed.
