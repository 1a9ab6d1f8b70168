From Coq Require Import String Arith ZArith Bool Lia Permutation Sorted List.
From Verif Require Import Base Base_Proofs Pag_Model Pag_Spec.
Import ListNotations.

(** ** pages *)
Section Paged.
Context {A : Type}.
Lemma paged_nil n : Paged n (@nil A) [].
Proof. split; [reflexivity|]. intros [|x a] p b H; discriminate. Qed.
Lemma paged_single n (p : list A) : 1 <= length p <= n -> Paged n p [p].
Proof.
  intros H. split; [apply app_nil_r|]. intros a q b E. destruct a as [|x a]; [|destruct a; discriminate]. injection E as <- <-. split; [exact H|congruence].
Qed.
Lemma paged_cons n (p l : list A) ps : 1 <= n -> length p = n -> Paged n l ps -> Paged n (p ++ l) (p :: ps).
Proof.
  intros Hn Hp [H1 H2]. split; [cbn; congruence|]. intros a q b E. destruct a as [|x a]; injection E as <- E; [lia|]. apply (H2 a q b E).
Qed.
Lemma paged_tail n (p l : list A) ps : Paged n l (p :: ps) -> l = p ++ concat ps /\ Paged n (concat ps) ps /\ 1 <= length p <= n /\ (ps <> [] -> length p = n).
Proof.
  intros [H1 H2]. split; [symmetry; exact H1|]. split; [split; [reflexivity|]|apply (H2 [] p ps eq_refl)].
  intros a q b E. apply (H2 (p :: a) q b). rewrite E. reflexivity.
Qed.

(** consecutive slices *)
Definition slices (n : nat) (l : list A) (k : nat) : list (list A) := map (fun i => firstn n (skipn (i * n) l)) (seq 0 k).
Lemma slices_S n l k : slices n l (S k) = firstn n l :: slices n (skipn n l) k.
Proof.
  unfold slices. cbn [seq map]. f_equal. rewrite <- seq_shift, map_map. apply map_ext. intros i. rewrite skipn_skipn. f_equal. f_equal. lia.
Qed.
Lemma ceil_0 n : 0 < n -> (0 + n - 1) / n = 0.
Proof. intros. apply Nat.div_small. lia. Qed.
Lemma ceil_S n m : 0 < n -> 0 < m -> (m + n - 1) / n = S ((m - n + n - 1) / n).
Proof.
  intros Hn Hm. destruct (Nat.le_gt_cases n m) as [H|H].
  - replace (m + n - 1) with ((m - n + n - 1) + 1 * n) by lia. rewrite Nat.div_add by lia. lia.
  - replace (m - n + n - 1) with (n - 1) by lia. rewrite (Nat.div_small (n - 1) n) by lia.
    replace (m + n - 1) with ((m - 1) + 1 * n) by lia. rewrite Nat.div_add, Nat.div_small by lia. reflexivity.
Qed.
Lemma slices_paged n l : 0 < n -> Paged n l (slices n l ((length l + n - 1) / n)).
Proof.
  intros Hn. remember (length l) as m eqn:E. revert l E. induction m as [m IH] using lt_wf_ind. intros l E.
  destruct (Nat.eq_dec m 0) as [Z|Z].
  - subst m. destruct l; [|discriminate]. cbn [length]. rewrite ceil_0 by lia. apply paged_nil.
  - rewrite ceil_S by lia. rewrite slices_S. destruct (Nat.le_gt_cases m n) as [H|H].
    + rewrite (firstn_all2 l) by lia. replace (m - n + n - 1) with (0 + n - 1) by lia. rewrite ceil_0 by lia. apply paged_single. lia.
    + rewrite <- (firstn_skipn n l) at 1. apply paged_cons; [lia|rewrite firstn_length; lia|].
      apply (IH (m - n)); [lia|rewrite skipn_length; lia].
Qed.
Lemma chunks_ok n (l : list A) : 0 < n -> exists cs, chunks l n = Ok cs /\ Paged n l cs.
Proof.
  intros Hn. unfold chunks. destruct (Nat.eqb_spec n 0); [lia|]. eexists. split; [reflexivity|]. apply slices_paged. exact Hn.
Qed.
Lemma chunks_length n (l : list A) cs : chunks l n = Ok cs -> length cs = (length l + n - 1) / n.
Proof. unfold chunks. destruct (Nat.eqb n 0); [discriminate|]. intros H. injection H as <-. rewrite map_length, seq_length. reflexivity. Qed.

Lemma paged_compose rc q (l : list A) cs gs : Paged rc l cs -> Paged q cs gs -> Paged (q * rc) l (map (@concat A) gs).
Proof.
  intros [H1 H2] [H3 H4].
  assert (CC : forall g : list (list (list A)), concat (map (@concat A) g) = concat (concat g)).
  { induction g as [|x g IH]; [reflexivity|]. cbn. rewrite IH, concat_app. reflexivity. }
  split; [rewrite CC, H3; exact H1|]. intros a p b E.
  assert (X : exists a' p' b', gs = a' ++ p' :: b' /\ p = concat p' /\ b = map (@concat A) b').
  { clear - E. revert a E. induction gs as [|g gs IH]; intros a E; [destruct a; discriminate|]. destruct a as [|x a]; injection E as E1 E2.
    - exists [], g, gs. auto.
    - destruct (IH a E2) as (a' & p' & b' & -> & -> & ->). exists (g :: a'), p', b'. auto. }
  destruct X as (a' & p' & b' & Eg & -> & ->). destruct (H4 a' p' b' Eg) as [L1 L2].
  assert (Ecs : cs = concat a' ++ p' ++ concat b') by (rewrite <- H3, Eg, concat_app; reflexivity).
  assert (G : forall u v, p' = u ++ v -> (forall x, In x v -> 1 <= length x <= rc) ).
  { intros u v Ep x Hx. apply in_split in Hx. destruct Hx as (v1 & v2 & ->). apply (H2 (concat a' ++ u ++ v1) x (v2 ++ concat b')). rewrite Ecs, Ep, <- !app_assoc. reflexivity. }
  assert (G1 : forall x, In x p' -> 1 <= length x <= rc) by (apply (G []); reflexivity).
  assert (S1 : forall v : list (list A), (forall x, In x v -> 1 <= length x <= rc) -> length v <= length (concat v) <= length v * rc).
  { induction v as [|x v IH]; intros Hv; [cbn; lia|]. cbn [concat length]. rewrite app_length. pose proof (Hv x (or_introl eq_refl)). specialize (IH (fun y Hy => Hv y (or_intror Hy))). nia. }
  split.
  - pose proof (S1 p' G1). nia.
  - intros Hb. assert (Hb' : b' <> []) by (intros ->; apply Hb; reflexivity). rewrite <- (L2 Hb').
    assert (Hc : concat b' <> []).
    { destruct b' as [|b0 b']; [congruence|]. destruct (H4 (a' ++ [p']) b0 b') as [L3 _]; [rewrite Eg, <- app_assoc; reflexivity|]. destruct b0; cbn in *; [lia|discriminate]. }
    assert (S2 : forall v : list (list A), (forall x, In x v -> length x = rc) -> length (concat v) = length v * rc).
    { induction v as [|x v IH]; intros Hv; [reflexivity|]. cbn [concat length]. rewrite app_length, (Hv x (or_introl eq_refl)), (IH (fun y Hy => Hv y (or_intror Hy))). reflexivity. }
    apply S2. intros x Hx. apply in_split in Hx. destruct Hx as (u & v & Ep). destruct (H2 (concat a' ++ u) x (v ++ concat b')) as [_ L]; [rewrite Ecs, Ep, <- !app_assoc; reflexivity|].
    apply L. destruct v; [exact Hc|discriminate].
Qed.
Lemma paged_more n m (l : list A) ps : Paged n l ps -> n <= m -> (m = n \/ length l <= n) -> Paged m l ps.
Proof.
  intros [H1 H2] H [->|Hl]; [split; auto|]. split; [exact H1|]. intros a p b E. destruct (H2 a p b E) as [L1 L2]. split; [lia|].
  intros Hb. exfalso. pose proof (L2 Hb) as Lp. destruct b as [|b0 b]; [congruence|].
  destruct (H2 (a ++ [p]) b0 b) as [L3 _]; [rewrite E, <- app_assoc; reflexivity|].
  rewrite <- H1, E, concat_app in Hl. cbn [concat] in Hl. rewrite !app_length in Hl. lia.
Qed.
Lemma paged_in n (l : list A) ps p x : Paged n l ps -> In p ps -> In x p -> In x l.
Proof. intros [<- _] H1 H2. apply in_concat. eauto. Qed.
End Paged.

Section Pag.
Context {V : Type}.
Implicit Types (tbl d : list (prow V)).

(** show the rows with name or number *)
Definition shown (b : bool) (d : list (prow V)) : list (prow V) := map (fun r => mkrow (p_id r) b (p_val r)) d.
Lemma shown_false tbl ids : numeric tbl -> shown false (read_ids tbl ids) = read_ids tbl ids.
Proof.
  intros H. unfold shown. rewrite <- map_id. apply map_ext_in. intros r Hr. apply filter_In in Hr. destruct Hr as [Hr _]. apply H in Hr. destruct r; cbn in *. subst. reflexivity.
Qed.
Lemma content_shown b d : map content (shown b d) = map content d.
Proof. unfold shown. rewrite map_map. reflexivity. Qed.

Lemma existsb_in x l : existsb (Z.eqb x) l = true <-> In x l.
Proof. rewrite existsb_exists. split; [intros (y & H & E); apply Z.eqb_eq in E; subst; exact H|intros H; exists x; split; [exact H|apply Z.eqb_refl]]. Qed.

Lemma names_ok sid ids d : (forall r, In r d -> p_named r = false /\ In (p_id r) ids) ->
  set_names sid ids d = Ok (shown sid d).
Proof.
  intros H. unfold set_names. destruct sid.
  - induction d as [|r d IH]; [reflexivity|]. cbn [mapM]. destruct (H r (or_introl eq_refl)) as [H1 H2]. rewrite H1.
    rewrite (proj2 (existsb_in _ _) H2). cbn [bind]. rewrite IH by (intros; apply H; right; auto). reflexivity.
  - f_equal. unfold shown. rewrite <- map_id at 1. apply map_ext_in. intros r Hr. destruct (H r Hr) as [H1 _]. destruct r; cbn in *; subst; reflexivity.
Qed.

Lemma read_in tbl ids r : In r (read_ids tbl ids) <-> In r tbl /\ In (p_id r) ids.
Proof. unfold read_ids. rewrite filter_In, existsb_in. reflexivity. Qed.

(** frames of whole chunks *)
Definition frame (tbl : list (prow V)) (g : list (list Z)) : list (prow V) := concat (map (read_ids tbl) g).
Lemma frame_in tbl g r : In r (frame tbl g) -> In r tbl /\ In (p_id r) (concat g).
Proof.
  unfold frame. intros H. apply in_concat in H. destruct H as (d & H & Hr). apply in_map_iff in H. destruct H as (c & <- & Hc).
  apply read_in in Hr. destruct Hr. split; [assumption|]. apply in_concat. eauto.
Qed.

Section Loop.
Variables (multi sid : bool) (tbl : list (prow V)) (ids : list Z) (nids rc : nat).
Hypothesis Hnum : numeric tbl.
Hypothesis Hrc : 0 < rc.
Hypothesis Hn : 0 < nids.

Lemma frame_names g : (forall x, In x (concat g) -> In x ids) -> set_names sid ids (frame tbl g) = Ok (shown sid (frame tbl g)).
Proof.
  intros H. apply names_ok. intros r Hr. apply frame_in in Hr. destruct Hr as [H1 H2]. split; [apply Hnum, H1|apply H, H2].
Qed.

(** pages of whole chunks *)
Lemma loop_divides q : nids = q * rc -> forall cs i retcs, length retcs < q -> i mod q = length retcs ->
  (forall x, In x (concat (retcs ++ cs)) -> In x ids) ->
  exists gs, page_loop multi sid ids nids rc i (map (read_ids tbl) retcs) (map (read_ids tbl) cs) =
     (map (fun g => shown (sid && Nat.eqb (length g) q) (frame tbl g)) gs, None) /\ Paged q (retcs ++ cs) gs.
Proof.
  intros Hq. assert (Q : q <> 0) by (intros ->; lia). assert (D : nids / rc = q) by (rewrite Hq; apply Nat.div_mul; lia).
  assert (M : nids mod rc = 0) by (rewrite Hq; apply Nat.mod_mul; lia).
  induction cs as [|c cs IH]; intros i retcs Hl Hi Hin; cbn [map page_loop].
  - rewrite app_nil_r. destruct retcs as [|c0 retcs]; [exists []; split; [reflexivity|apply paged_nil]|].
    exists [c0 :: retcs]. split; [|apply paged_single; cbn [length] in *; lia].
    cbn [map]. f_equal. f_equal. destruct (Nat.eqb_spec (length (c0 :: retcs)) q); [lia|]. rewrite andb_false_r.
    unfold frame. rewrite map_cons. symmetry. unfold shown. rewrite <- map_id. apply map_ext_in.
    intros r Hr. assert (H : In r (frame tbl (c0 :: retcs))) by exact Hr. apply frame_in in H. destruct H as [H _]. apply Hnum in H. destruct r; cbn in *; subst; reflexivity.
  - rewrite D, M. cbn [negb Nat.eqb]. destruct (Nat.eqb_spec q 0); [lia|].
    change (map (read_ids tbl) retcs ++ [read_ids tbl c]) with (map (read_ids tbl) retcs ++ map (read_ids tbl) [c]). rewrite <- map_app.
    assert (E : (i + 1) mod q = (length retcs + 1) mod q) by (rewrite <- Hi, Nat.add_mod_idemp_l by lia; reflexivity). rewrite E.
    assert (Ec : retcs ++ c :: cs = (retcs ++ [c]) ++ cs) by (rewrite <- app_assoc; reflexivity).
    destruct (Nat.eqb_spec ((length retcs + 1) mod q) 0) as [Z|Z].
    + assert (Lq : length retcs + 1 = q).
      { destruct (Nat.eq_dec (length retcs + 1) q); [assumption|]. rewrite Nat.mod_small in Z by lia. lia. }
      change (concat (map (read_ids tbl) (retcs ++ [c]))) with (frame tbl (retcs ++ [c])).
      rewrite frame_names by (intros x Hx; apply Hin; rewrite Ec, concat_app; apply in_or_app; left; exact Hx).
      destruct (IH (S i) []) as (gs & E1 & E2).
      { cbn; lia. } { cbn [length]. replace (S i) with (i + 1) by lia. rewrite E, Lq. apply Nat.mod_same. lia. }
      { intros x Hx. apply Hin. rewrite Ec, concat_app. apply in_or_app. right. exact Hx. }
      change (map (read_ids tbl) []) with (@nil (list (prow V))) in E1. rewrite E1.
      exists ((retcs ++ [c]) :: gs). split.
      * cbn [map]. do 3 f_equal. destruct (Nat.eqb_spec (length (retcs ++ [c])) q) as [|N]; [rewrite andb_true_r; reflexivity|]. rewrite app_length in N. cbn in N. lia.
      * rewrite Ec. apply paged_cons; [lia|rewrite app_length; cbn; lia|exact E2].
    + destruct (IH (S i) (retcs ++ [c])) as (gs & E1 & E2).
      * rewrite app_length. cbn. destruct (Nat.eq_dec (length retcs + 1) q) as [Lq|]; [rewrite Lq, Nat.mod_same in Z; lia|lia].
      * rewrite app_length. cbn [length]. replace (S i) with (i + 1) by lia. rewrite E. apply Nat.mod_small.
        destruct (Nat.eq_dec (length retcs + 1) q) as [Lq|]; [rewrite Lq, Nat.mod_same in Z; lia|lia].
      * rewrite <- Ec. exact Hin.
      * exists gs. rewrite Ec. split; assumption.
Qed.
End Loop.

(** rows of a frame of whole chunks *)
Lemma frame_perm tbl g : NoDup (concat g) -> Permutation (map content (frame tbl g)) (rows_of tbl (concat g)).
Proof.
  unfold frame. induction g as [|c g IH]; intros ND; cbn [map concat].
  - unfold rows_of. cbn [existsb]. induction (map content tbl); [constructor|cbn; exact IHl].
  - cbn [concat] in ND. assert (ND2 : NoDup (concat g)) by (clear - ND; induction c; [exact ND|inversion ND; auto]).
    rewrite map_app, (IH ND2). clear IH. unfold rows_of, read_ids. induction tbl as [|r tbl IH]; [constructor|]. cbn [map filter].
    change (fst (content r)) with (p_id r).
    assert (D : In (p_id r) c -> ~ In (p_id r) (concat g)).
    { clear - ND. induction c as [|x c IH]; [intros []|]. cbn in ND. inversion ND as [|? ? N1 N2]; subst. intros [<-|H]; [intros X; apply N1, in_or_app; right; exact X|auto]. }
    destruct (existsb (Z.eqb (p_id r)) (c ++ concat g)) eqn:E.
    + rewrite existsb_app in E. destruct (existsb (Z.eqb (p_id r)) c) eqn:Ec.
      * apply existsb_in in Ec. apply D in Ec. destruct (existsb (Z.eqb (p_id r)) (concat g)) eqn:Eg; [apply existsb_in in Eg; tauto|].
        cbn [map app]. constructor. exact IH.
      * cbn in E. rewrite E. etransitivity; [apply Permutation_sym, Permutation_middle|]. constructor. exact IH.
    + rewrite existsb_app in E. apply orb_false_iff in E. destruct E as [-> ->]. exact IH.
Qed.
End Pag.

(** ** the remainder path *)
Lemma insert_in x y l : In y (insert_id x l) <-> y = x \/ In y l.
Proof.
  induction l as [|z l IH]; cbn; [intuition|]. destruct (Z.eqb_spec x z) as [e|N]; [rewrite e; cbn; intuition|].
  destruct (Z.ltb x z); cbn; [intuition|]. rewrite IH. intuition.
Qed.
Lemma insert_sorted x l : StronglySorted Z.lt l -> StronglySorted Z.lt (insert_id x l).
Proof.
  induction l as [|z l IH]; intros H; cbn; [repeat constructor|]. inversion H as [|? ? H1 H2]; subst.
  destruct (Z.eqb_spec x z) as [e|N]; [exact H|]. destruct (Z.ltb_spec x z) as [L|L].
  - constructor; [exact H|]. constructor; [exact L|]. apply Forall_forall. intros y Hy. rewrite Forall_forall in H2. specialize (H2 y Hy). lia.
  - constructor; [apply IH, H1|]. apply Forall_forall. intros y Hy. apply insert_in in Hy. rewrite Forall_forall in H2. destruct Hy as [->|Hy]; [lia|apply H2, Hy].
Qed.
Lemma sorted_unique l : forall l', StronglySorted Z.lt l -> StronglySorted Z.lt l' -> (forall x, In x l <-> In x l') -> l = l'.
Proof.
  induction l as [|x l IH]; intros [|y l'] H H' E.
  - reflexivity.
  - exfalso. apply (proj2 (E y)). left. reflexivity.
  - exfalso. apply (proj1 (E x)). left. reflexivity.
  - inversion H as [|? ? H1 H2]; subst. inversion H' as [|? ? H1' H2']; subst. rewrite Forall_forall in H2, H2'.
    assert (x = y).
    { destruct (proj1 (E x) (or_introl eq_refl)) as [->|Hx]; [reflexivity|]. destruct (proj2 (E y) (or_introl eq_refl)) as [->|Hy]; [reflexivity|]. specialize (H2 y Hy). specialize (H2' x Hx). lia. }
    subst y. f_equal. apply IH; auto. intros z. split; intros Hz.
    + destruct (proj1 (E z) (or_intror Hz)) as [->|]; [|assumption]. specialize (H2 z Hz). lia.
    + destruct (proj2 (E z) (or_intror Hz)) as [->|]; [|assumption]. specialize (H2' z Hz). lia.
Qed.

Section Rest.
Context {V : Type}.
Implicit Types (tbl d : list (prow V)).
Lemma levels_in d x : In x (levels d) <-> on_page x d.
Proof.
  unfold levels, on_page. induction d as [|r d IH]; cbn [map fold_right]; [split; [intros []|intros (r & [] & _)]|]. rewrite insert_in, IH. split.
  - intros [->|(r' & H & E)]; [exists r; split; [left|]; reflexivity|exists r'; split; [right; exact H|exact E]].
  - intros (r' & [<-|H] & E); [left; auto|right; exists r'; auto].
Qed.
Lemma levels_sorted d : StronglySorted Z.lt (levels d).
Proof. unfold levels. induction (map p_id d); cbn; [constructor|apply insert_sorted; assumption]. Qed.
Lemma levels_read tbl c : StronglySorted Z.lt c -> (forall x, In x c -> on_page x tbl) -> levels (read_ids tbl c) = c.
Proof.
  intros H1 H2. apply sorted_unique; [apply levels_sorted|exact H1|]. intros x. rewrite levels_in. split.
  - intros (r & Hr & <-). apply read_in in Hr. tauto.
  - intros Hx. destruct (H2 x Hx) as (r & Hr & <-). exists r. split; [apply read_in; auto|reflexivity].
Qed.
Lemma read_filter tbl c c' : incl c' c -> filter (fun r => existsb (Z.eqb (p_id r)) c') (read_ids tbl c) = read_ids tbl c'.
Proof.
  intros Hi. unfold read_ids. induction tbl as [|r tbl IH]; [reflexivity|]. cbn [filter].
  destruct (existsb (Z.eqb (p_id r)) c) eqn:E; cbn [filter].
  - destruct (existsb (Z.eqb (p_id r)) c'); rewrite IH; reflexivity.
  - destruct (existsb (Z.eqb (p_id r)) c') eqn:E'; [|exact IH]. apply existsb_in, Hi, existsb_in in E'. congruence.
Qed.
Lemma firstn_incl {A} n (l : list A) : incl (firstn n l) l.
Proof. intros x Hx. rewrite <- (firstn_skipn n l). apply in_or_app. left. exact Hx. Qed.
Lemma sorted_firstn n l : StronglySorted Z.lt l -> StronglySorted Z.lt (firstn n l).
Proof.
  revert n. induction l as [|x l IH]; intros [|n] H; try constructor; inversion H as [|? ? H1 H2]; subst; [apply IH, H1|].
  apply Forall_forall. intros y Hy. rewrite Forall_forall in H2. apply H2, (firstn_incl n), Hy.
Qed.

Lemma sorted_skipn n l : StronglySorted Z.lt l -> StronglySorted Z.lt (skipn n l).
Proof. revert n. induction l as [|x l IH]; intros [|n] H; auto. cbn. apply IH. inversion H; assumption. Qed.

Section Loop2.
Variables (sid : bool) (tbl : list (prow V)) (ids : list Z) (nids rc : nat).
Hypothesis Hnum : numeric tbl.
Hypothesis Hrc : 0 < rc.
Hypothesis Hr : nids mod rc <> 0.
Let q := nids / rc.
Hypothesis Hq : 0 < q.

Lemma loop_rest_short cs : forall i retcs, i = length retcs -> length retcs + length cs < q ->
  page_loop true sid ids nids rc i (map (read_ids tbl) retcs) (map (read_ids tbl) cs) =
  (match retcs ++ cs with [] => [] | g => [frame tbl g] end, None).
Proof using Hq Hr Hrc.
  induction cs as [|c cs IH]; intros i retcs Hi Hl; cbn [map page_loop].
  - rewrite app_nil_r. destruct retcs; reflexivity.
  - fold q. destruct (Nat.eqb_spec q 0); [lia|]. cbn [length] in Hl. rewrite (Nat.mod_small (i + 1)) by lia. destruct (Nat.eqb_spec (i + 1) 0); [lia|].
    change (map (read_ids tbl) retcs ++ [read_ids tbl c]) with (map (read_ids tbl) retcs ++ map (read_ids tbl) [c]). rewrite <- map_app.
    rewrite IH by (rewrite ?app_length; cbn [length]; lia). rewrite <- app_assoc. reflexivity.
Qed.
Lemma loop_rest_error cs : forall i retcs, i = length retcs -> cs <> [] -> length retcs + length cs = q ->
  page_loop true sid ids nids rc i (map (read_ids tbl) retcs) (map (read_ids tbl) cs) = ([], Some RuntimeError).
Proof using Hq Hr Hrc.
  induction cs as [|c cs IH]; intros i retcs Hi Hc Hl; [congruence|]. cbn [map page_loop]. fold q. destruct (Nat.eqb_spec q 0); [lia|]. cbn [length] in Hl.
  destruct cs as [|c2 cs].
  - cbn [length] in Hl. replace (i + 1) with q by lia. rewrite Nat.mod_same by lia. cbn [Nat.eqb].
    destruct (Nat.eqb_spec (nids mod rc) 0); [congruence|]. reflexivity.
  - cbn [length] in Hl. rewrite (Nat.mod_small (i + 1)) by lia. destruct (Nat.eqb_spec (i + 1) 0); [lia|].
    change (map (read_ids tbl) retcs ++ [read_ids tbl c]) with (map (read_ids tbl) retcs ++ map (read_ids tbl) [c]). rewrite <- map_app.
    apply IH; [rewrite app_length; cbn; lia|discriminate|rewrite app_length; cbn [length]; lia].
Qed.
(** rows of the first IDs of a chunk *)
Definition head_rows (c : list Z) (r : nat) : list (prow V) :=
  filter (fun x => existsb (Z.eqb (p_id x)) (firstn r (levels (read_ids tbl c)))) (read_ids tbl c).
(** the first page *)
Definition page1 (g : list (list Z)) (c : list Z) : list (prow V) := shown sid (frame tbl g ++ head_rows c (nids mod 10)).
(** what is kept of it *)
Definition kept (p : list (prow V)) : list (prow V) := filter (fun r => existsb (Z.eqb (p_id r)) (skipn (nids mod 10) (levels p))) p.

Lemma page1_names g c : (forall x, In x (concat g ++ c) -> In x ids) ->
  set_names sid ids (frame tbl g ++ head_rows c (nids mod 10)) = Ok (page1 g c).
Proof using Hnum Hq Hr Hrc.
  intros H. apply names_ok. intros r Hin. apply in_app_or in Hin. destruct Hin as [Hin|Hin].
  - apply frame_in in Hin. destruct Hin as [H1 H2]. split; [apply Hnum, H1|apply H, in_or_app; left; exact H2].
  - apply filter_In in Hin. destruct Hin as [Hin _]. apply read_in in Hin. destruct Hin as [H1 H2]. split; [apply Hnum, H1|apply H, in_or_app; right; exact H2].
Qed.
Lemma loop_rest_page g c rest : forall i retcs g', g = retcs ++ g' -> i = length retcs -> length retcs < q -> length g = q ->
  (forall x, In x (concat g ++ c) -> In x ids) ->
  page_loop true sid ids nids rc i (map (read_ids tbl) retcs) (map (read_ids tbl) (g' ++ c :: rest)) =
  let '(ps, e) := page_loop true sid ids nids rc q [kept (page1 g c)] (map (read_ids tbl) rest) in (page1 g c :: ps, e).
Proof using Hnum Hq Hr Hrc.
  intros i retcs g'. revert i retcs. induction g' as [|d g' IH]; intros i retcs Eg Hi Hl Hg Hids.
  - rewrite app_nil_r in Eg. subst g. lia.
  - cbn [map app page_loop]. fold q. destruct (Nat.eqb_spec q 0); [lia|].
    change (map (read_ids tbl) retcs ++ [read_ids tbl d]) with (map (read_ids tbl) retcs ++ map (read_ids tbl) [d]). rewrite <- map_app.
    assert (Eg' : g = (retcs ++ [d]) ++ g') by (rewrite Eg, <- app_assoc; reflexivity).
    destruct g' as [|d2 g'].
    + rewrite app_nil_r in Eg'. rewrite <- Eg'. assert (i + 1 = q) by (rewrite Eg', app_length in Hg; cbn in Hg; lia).
      replace (i + 1) with q by lia. rewrite Nat.mod_same by lia. cbn [Nat.eqb]. destruct (Nat.eqb_spec (nids mod rc) 0); [congruence|]. cbn [negb map app].
      unfold iloc_level at 1. cbn [bind skipn]. fold (head_rows c (nids mod 10)). rewrite concat_app. cbn [concat]. rewrite app_nil_r.
      change (concat (map (read_ids tbl) g)) with (frame tbl g). rewrite page1_names by exact Hids. unfold iloc_level. fold (kept (page1 g c)).
      replace (S i) with q by lia. reflexivity.
    + assert (length (retcs ++ [d]) < q) by (rewrite <- Hg, Eg', !app_length; cbn; lia).
      rewrite (Nat.mod_small (i + 1)) by (rewrite app_length in *; cbn in *; lia). destruct (Nat.eqb_spec (i + 1) 0); [lia|].
      apply IH; auto. rewrite app_length. cbn. lia.
Qed.
End Loop2.

(** a frame that is kept appears on the next page *)
Lemma names_ids sid ids d p : set_names sid ids d = Ok p -> forall x, on_page x d -> on_page x p.
Proof.
  unfold set_names. destruct sid; [|intros H; injection H as <-; auto]. revert p.
  induction d as [|r d IH]; intros p H x (r' & Hin & E); [destruct Hin|]. cbn [mapM] in H.
  destruct (p_named r); [discriminate|]. destruct (existsb (Z.eqb (p_id r)) ids); [|discriminate]. cbn [bind] in H.
  destruct (mapM _ d) as [p'|e] eqn:Em; [|discriminate]. injection H as <-. destruct Hin as [<-|Hin].
  - eexists. split; [left; reflexivity|exact E].
  - destruct (IH p' eq_refl x (ex_intro _ r' (conj Hin E))) as (r2 & H2 & E2). exists r2. split; [right; exact H2|exact E2].
Qed.
Lemma loop_keeps multi sid ids nids rc data : forall i ret ps e, ret <> [] ->
  page_loop (V := V) multi sid ids nids rc i ret data = (ps, e) ->
  e <> None \/ exists p ps', ps = p :: ps' /\ forall x, on_page x (concat ret) -> on_page x p.
Proof.
  induction data as [|d data IH]; intros i ret ps e Hne H; cbn [page_loop] in H.
  - right. destruct ret; [congruence|]. injection H as <- <-. eexists. eexists. split; [reflexivity|]. auto.
  - assert (Mono : forall y x, on_page x (concat ret) -> on_page x (concat ((ret ++ [d]) ++ y))).
    { intros y x (r & Hin & E). exists r. split; [|exact E]. rewrite !concat_app. apply in_or_app. left. apply in_or_app. left. exact Hin. }
    destruct (Nat.eqb (nids / rc) 0); [injection H as <- <-; left; discriminate|].
    destruct (Nat.eqb ((i + 1) mod (nids / rc)) 0).
    + destruct (negb (Nat.eqb (nids mod rc) 0)).
      * destruct data as [|d2 rest2]; [injection H as <- <-; left; discriminate|].
        destruct (iloc_level multi d2 0 (Some (nids mod 10))) as [x|er]; [cbn [bind] in H|injection H as <- <-; left; discriminate].
        destruct (set_names sid ids (concat ((ret ++ [d]) ++ [x]))) as [page|er] eqn:En; [|injection H as <- <-; left; discriminate].
        destruct (iloc_level multi page (nids mod 10) None) as [r|er]; [|injection H as <- <-; left; discriminate].
        destruct (page_loop multi sid ids nids rc (S i) [r] rest2) as [ps2 e2]. injection H as <- <-. right. exists page, ps2. split; [reflexivity|].
        intros z Hz. apply (names_ids _ _ _ _ En). apply Mono, Hz.
      * destruct (set_names sid ids (concat (ret ++ [d]))) as [page|er] eqn:En; [|injection H as <- <-; left; discriminate].
        destruct (page_loop multi sid ids nids rc (S i) [] data) as [ps2 e2]. injection H as <- <-. right. exists page, ps2. split; [reflexivity|].
        intros z Hz. apply (names_ids _ _ _ _ En). specialize (Mono [] z Hz). rewrite app_nil_r in Mono. exact Mono.
    + assert (Hne2 : ret ++ [d] <> []) by (destruct ret; discriminate).
      destruct (IH _ _ _ _ Hne2 H) as [|(p & ps' & -> & K)]; [left; assumption|]. right. exists p, ps'. split; [reflexivity|]. intros z Hz. apply K. specialize (Mono [] z Hz). rewrite app_nil_r in Mono. exact Mono.
Qed.
End Rest.

Section Order.
Context {V : Type}.
Implicit Types (tbl d : list (prow V)).
Lemma filter_flat_map {A B} (P : B -> bool) (f : A -> list B) l : filter P (flat_map f l) = flat_map (fun x => filter P (f x)) l.
Proof. induction l as [|x l IH]; [reflexivity|]. cbn. rewrite filter_app, IH. reflexivity. Qed.
Lemma flat_map_nil {A B} (f : A -> list B) l : (forall x, In x l -> f x = []) -> flat_map f l = [].
Proof. induction l as [|x l IH]; intros H; [reflexivity|]. cbn. rewrite (H x (or_introl eq_refl)). apply IH. intros; apply H; right; auto. Qed.
Lemma flat_map_ext_in {A B} (f g : A -> list B) l : (forall x, In x l -> f x = g x) -> flat_map f l = flat_map g l.
Proof. induction l as [|x l IH]; intros H; [reflexivity|]. cbn. rewrite (H x (or_introl eq_refl)), IH; [reflexivity|]. intros; apply H; right; auto. Qed.
Lemma rows_ordered tbl ids a c b : ordered tbl ids -> NoDup ids -> ids = a ++ c ++ b ->
  rows_of tbl c = flat_map (fun i => filter (fun x => Z.eqb (fst x) i) (map content tbl)) c.
Proof.
  intros Ho ND E. unfold rows_of. rewrite Ho at 1. rewrite filter_flat_map. rewrite E at 1.
  assert (Nil : forall i, ~ In i c -> filter (fun x : Z * V => existsb (Z.eqb (fst x)) c) (filter (fun x => Z.eqb (fst x) i) (map content tbl)) = []).
  { intros i Hi. clear - Hi. induction (map content tbl) as [|x l IH]; [reflexivity|]. cbn. destruct (Z.eqb_spec (fst x) i) as [e|]; [|exact IH]. cbn. rewrite e.
    destruct (existsb (Z.eqb i) c) eqn:X; [apply existsb_in in X; tauto|exact IH]. }
  assert (All : forall i, In i c -> filter (fun x : Z * V => existsb (Z.eqb (fst x)) c) (filter (fun x => Z.eqb (fst x) i) (map content tbl)) = filter (fun x => Z.eqb (fst x) i) (map content tbl)).
  { intros i Hi. clear - Hi. induction (map content tbl) as [|x l IH]; [reflexivity|]. cbn. destruct (Z.eqb_spec (fst x) i) as [e|]; [|exact IH]. cbn. rewrite e.
    rewrite (proj2 (existsb_in i c) Hi). f_equal. exact IH. }
  rewrite E in ND. rewrite !flat_map_app.
  assert (Da : forall i, In i a -> ~ In i c) by (intros i Hi Hc; clear - ND Hi Hc; induction a; [destruct Hi|]; cbn in ND; inversion ND as [|? ? N1 N2]; subst; destruct Hi as [<-|Hi]; [apply N1, in_or_app; right; apply in_or_app; left; exact Hc|auto]).
  assert (Db : forall i, In i b -> ~ In i c).
  { intros i Hi Hc. assert (ND2 : NoDup (c ++ b)) by (clear - ND; induction a; [exact ND|inversion ND; auto]). clear - ND2 Hi Hc.
    induction c; [destruct Hc|]; cbn in ND2; inversion ND2 as [|? ? N1 N2]; subst; destruct Hc as [<-|Hc]; [apply N1, in_or_app; right; exact Hi|auto]. }
  rewrite (flat_map_nil _ a) by (intros; apply Nil, Da; auto). rewrite (flat_map_nil _ b) by (intros; apply Nil, Db; auto).
  rewrite app_nil_r. cbn [app]. apply flat_map_ext_in, All.
Qed.
Lemma map_read tbl c : map content (read_ids tbl c) = rows_of tbl c.
Proof.
  unfold read_ids, rows_of. induction tbl as [|r tbl IH]; [reflexivity|]. cbn. destruct (existsb (Z.eqb (p_id r)) c); cbn; rewrite IH; reflexivity.
Qed.
Lemma frame_ordered tbl ids : ordered tbl ids -> NoDup ids -> forall g a b, ids = a ++ concat g ++ b ->
  map content (frame tbl g) = rows_of tbl (concat g).
Proof.
  intros Ho ND g a b E. rewrite (rows_ordered tbl ids a (concat g) b Ho ND E). unfold frame. revert a E.
  induction g as [|c g IH]; intros a E; [reflexivity|]. cbn [concat map]. rewrite map_app, flat_map_app. cbn [concat] in E. f_equal.
  - rewrite map_read. apply (rows_ordered tbl ids a c (concat g ++ b) Ho ND). rewrite E, <- app_assoc. reflexivity.
  - apply (IH (a ++ c)). rewrite E, <- !app_assoc. reflexivity.
Qed.
End Order.

Section Top.
Context {V : Type}.
Implicit Types (tbl d : list (prow V)).
Lemma forall2_map {A B C} (P : B -> C -> Prop) (f : A -> B) (g : A -> C) l : (forall x, In x l -> P (f x) (g x)) -> Forall2 P (map f l) (map g l).
Proof. induction l as [|x l IH]; intros H; constructor; [apply H; left; reflexivity|apply IH; intros; apply H; right; auto]. Qed.

Lemma nodup_part {A} (a c b : list A) : NoDup (a ++ c ++ b) -> NoDup c.
Proof.
  intros H. assert (H2 : NoDup (c ++ b)) by (clear - H; induction a; [exact H|inversion H; auto]). clear - H2.
  induction c as [|x c IH]; constructor; inversion H2; subst; [intros X; apply H1, in_or_app; left; exact X|auto].
Qed.

Lemma iter_divides multi sid tbl ids n start rc : let s := match start with Some k => k | None => 0 end in let n' := Nat.min (length ids) n in
  numeric tbl -> NoDup ids -> 0 < n -> s < length ids -> 0 < rc -> Nat.divide rc n' ->
  exists pages groups, page_loop multi sid ids n' rc 0 [] (map (read_ids tbl) groups) = (pages, None) /\ Paged rc (skipn s ids) groups /\
    get_vals tbl ids rc start = Ok (map (read_ids tbl) groups) /\
    exists gs, Paged n (skipn s ids) gs /\
    Forall2 (fun p g => Permutation (map content p) (rows_of tbl g) /\ (ordered tbl ids -> map content p = rows_of tbl g)) pages gs /\
    (forall a p b r, pages = a ++ p :: b -> b <> [] -> In r p -> p_named r = sid).
Proof.
  intros s n' Hnum ND Hn Hs Hrc [q Hq]. assert (Hn' : 0 < n') by (unfold n'; lia).
  destruct (chunks_ok rc (skipn s ids) Hrc) as (cs & Ec & Pc).
  destruct (loop_divides multi sid tbl ids n' rc Hnum Hrc Hn' q Hq cs 0 []) as (gs & E1 & E2).
  { cbn. destruct q; lia. } { destruct q; [lia|]. apply Nat.mod_0_l. lia. }
  { cbn [app]. destruct Pc as [-> _]. intros x Hx. rewrite <- (firstn_skipn s ids). apply in_or_app. right. exact Hx. }
  cbn [app map] in E1, E2. eexists. exists cs. split; [exact E1|]. split; [exact Pc|]. split.
  { unfold get_vals. fold s. destruct (Nat.ltb_spec s (length ids)); [|lia]. rewrite andb_false_r, Ec. reflexivity. }
  exists (map (@concat Z) gs).
  assert (Eids : forall g, In g gs -> exists a b, ids = a ++ concat g ++ b).
  { intros g Hg. apply in_split in Hg. destruct Hg as (u & v & ->). destruct E2 as [E2 _]. destruct Pc as [Pc _]. rewrite <- E2 in Pc.
    exists (firstn s ids ++ concat (concat u)), (concat (concat v)). rewrite <- (firstn_skipn s ids) at 1. rewrite <- Pc, concat_app. cbn [concat]. rewrite !concat_app, <- !app_assoc. reflexivity. }
  split; [|split].
  - apply (paged_more n'); [rewrite Hq; apply (paged_compose rc q _ cs); assumption|unfold n'; lia|].
    unfold n'. rewrite skipn_length. destruct (Nat.min_spec (length ids) n); lia.
  - apply forall2_map. intros g Hg. rewrite content_shown. destruct (Eids g Hg) as (a & b & Eg). split.
    + apply frame_perm. apply (nodup_part a _ b). rewrite <- Eg. exact ND.
    + intros Ho. apply (frame_ordered tbl ids Ho ND g a b Eg).
  - intros a p b r E Hb Hin. assert (X : exists a' g b', gs = a' ++ g :: b' /\ p = shown (sid && Nat.eqb (length g) q) (frame tbl g) /\ b' <> []).
    { clear - E Hb. revert a E. induction gs as [|g gs IH]; intros a E; [destruct a; discriminate|]. destruct a as [|x a]; injection E as E3 E4.
      - exists [], g, gs. split; [reflexivity|]. split; [congruence|]. intros ->. subst b. apply Hb. reflexivity.
      - destruct (IH a E4) as (a' & g' & b' & -> & -> & H). exists (g :: a'), g', b'. auto. }
    destruct X as (a' & g & b' & Eg & -> & Hb'). destruct E2 as [_ E2]. destruct (E2 a' g b' Eg) as [_ L]. rewrite (L Hb'), Nat.eqb_refl, andb_true_r in Hin.
    unfold shown in Hin. apply in_map_iff in Hin. destruct Hin as (r' & <- & _). reflexivity.
Qed.
End Top.
