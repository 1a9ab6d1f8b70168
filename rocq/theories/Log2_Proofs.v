(** Proofs about the layout of messages. *)
From Coq Require Import String Ascii Arith Bool Lia List.
From Verif Require Import Base Log_Model Log_Spec.
Import ListNotations.
Local Open Scope list_scope.

Definition no_nl (l : list glyph) : Prop := ~ In (Ch nl) l.

Lemma splitlines_one l : l <> [] -> no_nl l -> splitlines l = [l].
Proof.
  induction l as [|g l IH]; intros H N; [congruence|]. unfold no_nl in *. simpl in N.
  destruct l as [|g' l'].
  - destruct g as [a|c]; simpl; [|reflexivity]. destruct (Ascii.eqb_spec a nl) as [->|]; [tauto|reflexivity].
  - cbn [splitlines] in *. assert (E := IH ltac:(discriminate) ltac:(tauto)).
    destruct g as [a|c].
    + destruct (Ascii.eqb_spec a nl) as [->|]; [tauto|]. rewrite E. reflexivity.
    + rewrite E. reflexivity.
Qed.
Lemma splitlines_cons l r : no_nl l -> splitlines (l ++ Ch nl :: r) = (l ++ [Ch nl]) :: splitlines r.
Proof.
  induction l as [|g l IH]; intros N.
  - simpl. reflexivity.
  - unfold no_nl in *. simpl in N. cbn [app splitlines]. rewrite IH by tauto.
    destruct g as [a|c]; [|reflexivity]. destruct (Ascii.eqb_spec a nl) as [->|]; [tauto|reflexivity].
Qed.

Fixpoint gjoin (ls : list (list glyph)) : list glyph :=
  match ls with [] => [] | [x] => x | x :: r => x ++ Ch nl :: gjoin r end.
Definition gshift (n : nat) (l : list glyph) : list glyph := if forallb g_space l then l else repeat (Ch " "%char) n ++ l.

Lemma forallb_snoc_nl l : forallb g_space (l ++ [Ch nl]) = forallb g_space l.
Proof. rewrite forallb_app. simpl. rewrite !andb_true_r. reflexivity. Qed.

(** indent acts on the lines *)
Lemma indent_join n ls : ls <> [] -> Forall no_nl ls -> last ls [] <> [] -> indent n (gjoin ls) = gjoin (map (gshift n) ls).
Proof.
  induction ls as [|x r IH]; intros H F L; [congruence|]. inversion F as [|? ? F1 F2]; subst.
  destruct r as [|y r].
  - unfold indent. cbn [gjoin map]. rewrite splitlines_one; [|exact L|exact F1]. cbn [flat_map]. rewrite app_nil_r. reflexivity.
  - cbn [gjoin map]. unfold indent in *. change (x ++ Ch nl :: match r with [] => y | _ :: _ => y ++ Ch nl :: gjoin r end) with (x ++ Ch nl :: gjoin (y :: r)).
    rewrite splitlines_cons by exact F1. cbn [flat_map]. rewrite IH; [|discriminate|exact F2|exact L].
    rewrite forallb_snoc_nl. unfold gshift at 2. destruct (forallb g_space x); rewrite <- ?app_assoc; reflexivity.
Qed.

Lemma lstrip_spaces n l : lstrip (repeat (Ch " "%char) n ++ l) = lstrip l.
Proof. induction n; simpl; auto. Qed.
Lemma lstrip_stop g l : g_space g = false -> lstrip (g :: l) = g :: l.
Proof. intros H. cbn [lstrip]. rewrite H. reflexivity. Qed.
Lemma strip_spaces n g l b : g_space g = false -> g_space b = false -> strip (repeat (Ch " "%char) n ++ g :: l ++ [b]) = g :: l ++ [b].
Proof.
  intros Hg Hb. unfold strip. rewrite lstrip_spaces, lstrip_stop by exact Hg.
  change (g :: l ++ [b]) with ((g :: l) ++ [b]). rewrite rev_app_distr. cbn [rev app]. rewrite lstrip_stop by exact Hb.
  change (b :: rev l ++ [g]) with ([b] ++ rev (g :: l)). rewrite rev_app_distr, rev_involutive. reflexivity.
Qed.

(** visible characters *)
Lemma visible_app a b : visible (a ++ b) = visible a ++ visible b.
Proof. unfold visible. apply flat_map_app. Qed.
Lemma visible_ch l : visible (map Ch l) = l.
Proof. induction l; simpl; congruence. Qed.
Lemma visible_code c l : visible (Code c :: l) = visible l.
Proof. reflexivity. Qed.
Lemma visible_join ls : visible (gjoin ls) = join (map visible ls).
Proof.
  induction ls as [|x r IH]; [reflexivity|]. destruct r as [|y r]; [reflexivity|]. cbn [gjoin map join] in *.
  rewrite visible_app. cbn [visible flat_map app] in *. f_equal. f_equal. exact IH.
Qed.
Lemma map_repeat_ch n : map Ch (repeat " "%char n) = repeat (Ch " "%char) n.
Proof. induction n; simpl; congruence. Qed.
Lemma visible_spaces n : visible (repeat (Ch " "%char) n) = repeat " "%char n.
Proof. rewrite <- map_repeat_ch. apply visible_ch. Qed.
Lemma space_ch l : forallb g_space (map Ch l) = blank l.
Proof. unfold blank. induction l; simpl; congruence. Qed.
Lemma gshift_ch n l : gshift n (map Ch l) = map Ch (shifted n l).
Proof. unfold gshift, shifted. rewrite space_ch. destruct (blank l); [reflexivity|]. rewrite map_app, map_repeat_ch. reflexivity. Qed.
Lemma join_ch ls : gjoin (map (map Ch) ls) = map Ch (join ls).
Proof.
  induction ls as [|x r IH]; [reflexivity|]. destruct r as [|y r]; [reflexivity|]. cbn [gjoin map join] in *. rewrite map_app. cbn [map]. f_equal. f_equal. exact IH.
Qed.
Lemma no_nl_ch l : one_line l -> no_nl (map Ch l).
Proof. intros H X. apply in_map_iff in X. destruct X as (a & E & Ha). injection E as ->. exact (H Ha). Qed.

Lemma las_app a b : list_ascii_of_string (a ++ b) = list_ascii_of_string a ++ list_ascii_of_string b.
Proof. induction a; simpl; congruence. Qed.
Lemma las_length a : length (list_ascii_of_string a) = String.length a.
Proof. induction a; simpl; congruence. Qed.
Lemma las_ljust n s : list_ascii_of_string (ljust n s) = pad n (list_ascii_of_string s).
Proof. unfold ljust, pad. rewrite list_ascii_of_string_of_list_ascii, las_length. reflexivity. Qed.

Lemma header_length r : length (header r) = String.length (r_time r) + 3 + Nat.max 21 (String.length (r_process r)) + Nat.max 8 (String.length (r_levelname r)).
Proof. unfold header, pad. rewrite !app_length, !repeat_length, !las_length. simpl String.length. lia. Qed.

Lemma one_line_app a b : one_line a -> one_line b -> one_line (a ++ b).
Proof. unfold one_line. rewrite in_app_iff. tauto. Qed.
Lemma one_line_spaces n : one_line (repeat " "%char n).
Proof. intros H. apply repeat_spec in H. discriminate. Qed.
Lemma header_one r first rest : well_formed r first rest -> one_line (header r).
Proof.
  intros (_ & _ & _ & T & P & L & _). unfold header, pad. repeat apply one_line_app; auto; try apply one_line_spaces. cbv. intuition discriminate.
Qed.

Lemma join_head h x r : h ++ join (x :: r) = join ((h ++ x) :: r).
Proof. destruct r; simpl; [reflexivity|]. rewrite app_assoc. reflexivity. Qed.
Lemma last_def {A} (l : list A) : forall x d, last (x :: l) d = last l x.
Proof. induction l as [|y l IH]; intros; [reflexivity|]. change (last (x :: y :: l) d) with (last (y :: l) d). rewrite IH. symmetry. apply IH. Qed.
Lemma join_last ls : forall x, exists t, join (x :: ls) = t ++ last ls x.
Proof.
  induction ls as [|y r IH]; intros x; [exists []; reflexivity|]. destruct (IH y) as [t E].
  exists (x ++ nl :: t). change (join (x :: y :: r)) with (x ++ nl :: join (y :: r)). rewrite E, <- app_assoc. cbn [app]. f_equal. f_equal. f_equal.
  symmetry. apply last_def.
Qed.
Lemma last_map {A B} (f : A -> B) l d : last (map f l) (f d) = f (last l d).
Proof. induction l as [|a l IH]; simpl; [reflexivity|]. destruct l; [reflexivity|]. simpl in *. exact IH. Qed.

Lemma shifted_app n l b : is_space b = false -> exists t, shifted n (l ++ [b]) = t ++ [b].
Proof.
  intros H. unfold shifted, blank. rewrite forallb_app. simpl. rewrite H, andb_false_r. exists (repeat " "%char n ++ l). rewrite app_assoc. reflexivity.
Qed.
Lemma blank_header r first rest x : well_formed r first rest -> blank (header r ++ x) = false.
Proof.
  intros (_ & _ & (a & t & E & H) & _). unfold header, blank. rewrite E. cbn [app forallb]. rewrite H. reflexivity.
Qed.

Lemma plain_layout r first rest : well_formed r first rest ->
  format_plain r = map Ch (join ((header r ++ first) :: map (shifted 51) rest)).
Proof.
  intros W. pose proof W as (M & F & (a & t & Ta & Sa) & _ & _ & _ & (b & u & Lb & Sb)). pose proof (header_one r first rest W) as H1. inversion F as [|? ? F1 F2]; subst.
  unfold format_plain.
  assert (E : txt (r_time r ++ " - " ++ logfmt r) = gjoin (map (map Ch) ((header r ++ first) :: rest))).
  { rewrite join_ch. unfold txt. f_equal. rewrite <- join_head. unfold logfmt, header. rewrite !las_app, !las_ljust, M, <- !app_assoc. reflexivity. }
  rewrite E, indent_join; [|discriminate| |].
  - rewrite map_map, (map_ext _ (fun x => map Ch (shifted 51 x))) by (intros; apply gshift_ch). rewrite <- map_map, join_ch. cbn [map].
    assert (Eh : shifted 51 (header r ++ first) = repeat " "%char 51 ++ header r ++ first).
    { unfold shifted. rewrite (blank_header r first rest first W). reflexivity. }
    rewrite Eh. rewrite <- join_head.
    assert (El : exists v, join ((header r ++ first) :: map (shifted 51) rest) = (a :: v) ++ [b]).
    { assert (Eh' : header r = a :: tl (header r)) by (unfold header; rewrite Ta; reflexivity).
      destruct rest as [|y rest].
      - cbn [last] in Lb. cbn [map join]. rewrite Lb, Eh'. exists (tl (header r) ++ u). cbn [app]. rewrite app_assoc. reflexivity.
      - assert (exists v', join (map (shifted 51) (y :: rest)) = v' ++ [b]) as [v' Ev].
        { cbn [map]. destruct (join_last (map (shifted 51) rest) (shifted 51 y)) as [v Ev]. rewrite Ev, last_map.
          rewrite <- (last_def rest y first), Lb. destruct (shifted_app 51 u b Sb) as [w Ew]. rewrite Ew. exists (v ++ w). rewrite app_assoc. reflexivity. }
        exists (tl (header r) ++ first ++ nl :: v').
        change (join ((header r ++ first) :: map (shifted 51) (y :: rest))) with ((header r ++ first) ++ nl :: join (map (shifted 51) (y :: rest))).
        rewrite Ev, Eh'. cbn [app tl]. rewrite <- !app_assoc. reflexivity. }
    destruct El as [v Ev]. rewrite Ev, !map_app. rewrite map_repeat_ch. cbn [map app]. apply (strip_spaces 51 (Ch a) (map Ch v) (Ch b)); [exact Sa|exact Sb].
  - constructor; [apply no_nl_ch, one_line_app; assumption|]. apply Forall_forall. intros l Hl. apply in_map_iff in Hl. destruct Hl as (l' & <- & Hl').
    apply no_nl_ch. rewrite Forall_forall in F2. apply F2, Hl'.
  - cbn [map]. rewrite last_def, last_map. destruct rest as [|y rest].
    + cbn [last] in *. unfold header. rewrite Ta. discriminate.
    + rewrite last_def in *. rewrite Lb, map_app. destruct (map Ch u); discriminate.
Qed.

(** ** the coloured format *)
Fixpoint fin (ls : list (list glyph)) : list (list glyph) :=
  match ls with [] => [] | [x] => [x ++ [Code 0]] | x :: r => x :: fin r end.
Lemma fin_cons x y r : fin (x :: y :: r) = x :: fin (y :: r). Proof. reflexivity. Qed.
Lemma fin_ne y r : exists z s, fin (y :: r) = z :: s.
Proof. destruct r; simpl; eauto. Qed.
Lemma gjoin_cons x y r : gjoin (x :: y :: r) = x ++ Ch nl :: gjoin (y :: r). Proof. reflexivity. Qed.
Lemma gjoin_fin ls : forall x, gjoin (x :: ls) ++ [Code 0] = gjoin (fin (x :: ls)).
Proof.
  induction ls as [|y r IH]; intros x; [reflexivity|]. rewrite gjoin_cons, fin_cons. destruct (fin_ne y r) as (z & s & E).
  rewrite E, gjoin_cons, <- E, <- IH, <- app_assoc. reflexivity.
Qed.
Lemma visible_fin n ls : forall x, forallb g_space (last ls x) = false -> map visible (map (gshift n) (fin (x :: ls))) = map visible (map (gshift n) (x :: ls)).
Proof.
  induction ls as [|y r IH]; intros x H.
  - cbn [fin map last] in *. unfold gshift. rewrite forallb_app, H. cbn [andb]. rewrite !visible_app. cbn [visible flat_map]. rewrite !app_nil_r. reflexivity.
  - rewrite fin_cons. cbn [map] in *. rewrite IH; [reflexivity|]. rewrite last_def in H. exact H.
Qed.
Lemma fin_end n ls : forall x, exists t, gjoin (map (gshift n) (fin (x :: ls))) = t ++ [Code 0].
Proof.
  induction ls as [|y r IH]; intros x.
  - cbn [fin map gjoin]. unfold gshift. rewrite forallb_app. cbn [forallb g_space]. rewrite andb_false_r. exists (repeat (Ch " "%char) n ++ x). rewrite app_assoc. reflexivity.
  - rewrite fin_cons. destruct (IH y) as [t E]. destruct (fin_ne y r) as (z & s & Ez). rewrite Ez in *. cbn [map] in *. rewrite gjoin_cons, E.
    exists (gshift n x ++ Ch nl :: t). rewrite <- app_assoc. reflexivity.
Qed.
Lemma fin_no_nl ls : Forall no_nl ls -> Forall no_nl (fin ls).
Proof.
  induction ls as [|x r IH]; intros F; [constructor|]. inversion F as [|? ? F1 F2]; subst. destruct r as [|y r].
  - cbn [fin]. constructor; [|constructor]. intros H. apply in_app_or in H. destruct H as [H|[H|[]]]; [exact (F1 H)|discriminate].
  - rewrite fin_cons. constructor; [exact F1|apply IH, F2].
Qed.
Lemma fin_last ls : forall x, last (fin (x :: ls)) [] <> [].
Proof.
  induction ls as [|y r IH]; intros x; [cbn [fin last]; destruct x; discriminate|]. rewrite fin_cons. destruct (fin_ne y r) as (z & s & E). specialize (IH y).
  rewrite E in *. exact IH.
Qed.

Lemma coloured_layout r first rest c : well_formed r first rest -> colour (r_level r) = Some c ->
  exists g, format_coloured r = Ok g /\ visible g = join ((header r ++ first) :: map (shifted 51) rest).
Proof.
  intros W Hc. pose proof W as (M & F & (a & t & Ta & Sa) & T1 & P1 & L1 & (b & u & Lb & Sb)). inversion F as [|? ? F1 F2]; subst.
  unfold format_coloured. rewrite Hc. eexists. split; [reflexivity|].
  set (g0 := Code 6 :: txt (r_time r) ++ Code 0 :: txt " - " ++ Code c :: map Ch (pad 21 (list_ascii_of_string (r_process r)) ++ pad 8 (list_ascii_of_string (r_levelname r))) ++ map Ch first).
  assert (E : Code 6 :: txt (r_time r) ++ Code 0 :: txt " - " ++ Code c :: txt (logfmt r) ++ [Code 0] = gjoin (fin (g0 :: map (map Ch) rest))).
  { rewrite <- gjoin_fin. unfold txt at 3, logfmt. rewrite !las_app, !las_ljust, M, app_assoc, join_head, <- join_ch. cbn [map].
    unfold g0. destruct rest as [|y rest]; cbn [map gjoin]; rewrite ?map_app, <- ?app_assoc; cbn [app]; rewrite <- ?app_assoc; cbn [app]; rewrite <- ?app_assoc; cbn [app]; rewrite <- ?app_assoc; reflexivity. }
  rewrite E, indent_join; [| |apply fin_no_nl|apply fin_last].
  - assert (V0 : visible g0 = header r ++ first).
    { unfold g0, header, txt. rewrite visible_code, visible_app, visible_code, visible_app, visible_code, visible_app, !visible_ch, <- !app_assoc. reflexivity. }
    assert (B0 : forallb g_space g0 = false) by reflexivity.
    destruct (fin_end 51 (map (map Ch) rest) g0) as [t1 Et1].
    assert (exists t2, gjoin (map (gshift 51) (fin (g0 :: map (map Ch) rest))) = repeat (Ch " "%char) 51 ++ Code 6 :: t2) as [t2 Et2].
    { destruct (map (map Ch) rest) as [|y ls].
      - cbn [fin map gjoin]. unfold gshift. rewrite forallb_app, B0. cbn [andb]. eexists. unfold g0 at 1. cbn [app]. reflexivity.
      - rewrite fin_cons. destruct (fin_ne y ls) as (z & s & Ez). rewrite Ez. cbn [map]. rewrite gjoin_cons. unfold gshift at 1. rewrite B0. rewrite <- app_assoc. eexists. unfold g0. cbn [app]. reflexivity. }
    assert (exists X, t2 = X ++ [Code 0]) as [X EX].
    { rewrite Et1 in Et2. destruct (exists_last (l := Code 6 :: t2)) as (X & z & Ez); [discriminate|]. rewrite Ez in Et2. rewrite app_assoc in Et2. apply app_inj_tail in Et2. destruct Et2 as [_ <-].
      destruct X as [|x X]; [discriminate|]. injection Ez as _ Ez. exists X. exact Ez. }
    rewrite Et2, EX, strip_spaces by reflexivity.
    assert (Q : visible (gjoin (map (gshift 51) (fin (g0 :: map (map Ch) rest)))) = join ((repeat " "%char 51 ++ header r ++ first) :: map (shifted 51) rest)).
    { rewrite visible_join, visible_fin.
      - f_equal. cbn [map]. f_equal.
        + unfold gshift. rewrite B0, visible_app, visible_spaces, V0. reflexivity.
        + rewrite !map_map. apply map_ext. intros l. rewrite gshift_ch, visible_ch. reflexivity.
      - destruct rest as [|y rest]; [exact B0|]. cbn [map]. rewrite last_def, last_map. rewrite last_def in Lb. rewrite Lb, map_app, forallb_app. cbn [map forallb g_space]. rewrite Sb, andb_false_r. reflexivity. }
    rewrite Et2, visible_app, visible_spaces, <- join_head, EX in Q. apply app_inv_head in Q. exact Q.
  - destruct (fin_ne g0 (map (map Ch) rest)) as (z & s & Ez). rewrite Ez. discriminate.
  - constructor.
    + unfold g0, txt. intros H. repeat (rewrite ?in_app_iff in H; cbn [In] in H).
      repeat match type of H with _ \/ _ => destruct H as [H|H] end; try discriminate; apply in_map_iff in H; destruct H as (x & Ex & Hx); injection Ex as ->.
      * exact (T1 Hx).
      * revert Hx. cbv. intuition discriminate.
      * revert Hx. apply one_line_app; apply one_line_app; auto; apply one_line_spaces.
      * exact (F1 Hx).
    + apply Forall_forall. intros l Hl. apply in_map_iff in Hl. destruct Hl as (l' & <- & Hl'). apply no_nl_ch. rewrite Forall_forall in F2. apply F2, Hl'.
Qed.
