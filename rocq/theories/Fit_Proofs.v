(** Proofs about the grouping of observations *)
From Coq Require Import String Ascii ZArith Bool Lia Permutation Sorted Arith List.
From Verif Require Import Base Base_Proofs GF_Model GF_Proofs Str_Model Fit_Model Fit_Spec.
Import ListNotations.
Local Open Scope list_scope.
Local Open Scope Z_scope.

Local Arguments Z.mul : simpl never.
Local Arguments Z.add : simpl never.
Local Arguments Z.pow : simpl never.

(** ** decimal strings *)
Lemma digits_val_app a s t : digits_val a (s ++ t) =
  match digits_val a s with Some v => digits_val v t | None => None end.
Proof. revert a. induction s as [|[d| |] s IH]; intros a; simpl; auto. Qed.

Lemma digits_val_shift s : forall a v, digits_val 0 s = Some v ->
  digits_val a s = Some (a * 10 ^ Z.of_nat (length s) + v).
Proof.
  induction s as [|c s IH] using rev_ind; intros a v H.
  - simpl in *. injection H as <-. f_equal. lia.
  - rewrite digits_val_app in *. destruct (digits_val 0 s) as [u|] eqn:E; [|discriminate].
    rewrite (IH a u eq_refl). destruct c as [d| |]; simpl in *; try discriminate.
    injection H as <-. f_equal. rewrite app_length, Nat2Z.inj_add. simpl (Z.of_nat (length [Dig d])).
    rewrite Z.pow_add_r, Z.pow_1_r by lia. ring.
Qed.

Lemma digits_spec f : forall z acc, (1 <= f)%nat -> 0 <= z < 2 ^ Z.of_nat f ->
  exists D, digits f z acc = D ++ acc /\ digits_val 0 D = Some z /\ z < 10 ^ Z.of_nat (length D) /\
    (length D = 1%nat \/ 10 ^ (Z.of_nat (length D) - 1) <= z) /\ (1 <= length D)%nat.
Proof.
  induction f as [|f IH]; intros z acc Hf Hz; [lia|]. cbn [digits].
  destruct (Z.ltb_spec z 10).
  - exists [Dig z]. simpl. repeat split; auto; lia.
  - rewrite Nat2Z.inj_succ, Z.pow_succ_r in Hz by lia.
    assert (f <> 0%nat). { intros ->. simpl in Hz. lia. }
    pose proof (Z.div_mod z 10 ltac:(lia)). pose proof (Z.mod_pos_bound z 10 ltac:(lia)).
    destruct (IH (z / 10) (Dig (z mod 10) :: acc)) as (D & E & V & U & L & G); [lia|lia|].
    exists (D ++ [Dig (z mod 10)]). rewrite E, <- app_assoc, app_length. simpl.
    rewrite digits_val_app, V. simpl. replace (Z.of_nat (length D + 1)) with (Z.succ (Z.of_nat (length D))) by lia.
    rewrite Z.pow_succ_r by lia. repeat split; try (f_equal; lia); try lia.
    right. replace (Z.succ (Z.of_nat (length D)) - 1) with (Z.of_nat (length D)) by lia.
    destruct L as [L|L].
    + rewrite L. simpl. lia.
    + replace (Z.of_nat (length D)) with (Z.succ (Z.of_nat (length D) - 1)) by lia.
      rewrite Z.pow_succ_r by lia. lia.
Qed.

Lemma str_Z_spec z : 0 <= z -> exists D, str_Z z = D /\ digits_val 0 D = Some z /\ z < 10 ^ Z.of_nat (length D) /\
    (length D = 1%nat \/ 10 ^ (Z.of_nat (length D) - 1) <= z) /\ (1 <= length D)%nat.
Proof.
  intros Hz. unfold str_Z. destruct (Z.ltb_spec z 0); [lia|].
  destruct (digits_spec (S (Z.to_nat (Z.log2 z))) z []) as (D & E & H1 & H2 & H3 & H4); [lia| |].
  - destruct (Z.eq_dec z 0) as [->|]; [simpl; lia|].
    pose proof (Z.log2_spec z ltac:(lia)). pose proof (Z.log2_nonneg z).
    rewrite Nat2Z.inj_succ, Z2Nat.id by lia. lia.
  - rewrite app_nil_r in E. exists D. auto.
Qed.

Lemma pow10_le a b : (a <= b)%nat -> 10 ^ Z.of_nat a <= 10 ^ Z.of_nat b.
Proof. intros. apply Z.pow_le_mono_r; lia. Qed.

Lemma str_Z_len z w : 0 <= z < 10 ^ Z.of_nat w -> (1 <= w)%nat -> (length (str_Z z) <= w)%nat.
Proof.
  intros [H0 H] Hw. destruct (str_Z_spec z H0) as (D & -> & _ & _ & [L|L] & G); [lia|].
  destruct (Nat.le_gt_cases (length D) w); auto.
  pose proof (pow10_le w (length D - 1) ltac:(lia)).
  replace (Z.of_nat (length D) - 1) with (Z.of_nat (length D - 1)) in L by lia. lia.
Qed.

Lemma str_Z_nodash z : 0 <= z -> forall r, str_Z z <> Minus :: r.
Proof.
  intros Hz r E. destruct (str_Z_spec z Hz) as (D & ED & V & _). rewrite E in ED. subst D. discriminate.
Qed.

Lemma zeros_val k : digits_val 0 (repeat (Dig 0) k) = Some 0.
Proof. induction k; simpl; auto. Qed.

(** padding keeps the value *)
Lemma zfill_spec w z : 0 <= z -> (length (str_Z z) <= w)%nat ->
  digits_val 0 (zfill w (str_Z z)) = Some z /\ length (zfill w (str_Z z)) = w.
Proof.
  intros Hz Hw. destruct (str_Z_spec z Hz) as (D & ED & V & _).
  assert (E : zfill w (str_Z z) = repeat (Dig 0) (w - length (str_Z z)) ++ str_Z z).
  { unfold zfill. destruct (str_Z z) as [|[d| |] r] eqn:E; auto.
    exfalso. exact (str_Z_nodash z Hz r E). }
  rewrite E, digits_val_app, zeros_val, app_length, repeat_length, ED, V. rewrite ED in Hw. split; [reflexivity|lia].
Qed.

Lemma digits_bound s v : digits_val 0 s = Some v -> (forall d, In (Dig d) s -> 0 <= d < 10) -> 0 <= v < 10 ^ Z.of_nat (length s).
Proof.
  revert v. induction s as [|c s IH] using rev_ind; intros v H Hd.
  - simpl in *. injection H as <-. lia.
  - rewrite digits_val_app in H. destruct (digits_val 0 s) as [u|] eqn:E; [|discriminate].
    destruct c as [d| |]; simpl in H; try discriminate. injection H as <-.
    assert (0 <= u < 10 ^ Z.of_nat (length s)). { apply IH; auto. intros; apply Hd, in_or_app; auto. }
    assert (0 <= d < 10). { apply Hd, in_or_app. simpl. auto. }
    rewrite app_length, Nat2Z.inj_add. simpl (Z.of_nat (length [Dig d])). rewrite Z.pow_add_r by lia. lia.
Qed.

(** appending a padded number *)
Lemma append_val s v w z : digits_val 0 s = Some v -> 0 <= z -> (length (str_Z z) <= w)%nat ->
  digits_val 0 (s ++ zfill w (str_Z z)) = Some (v * 10 ^ Z.of_nat w + z).
Proof.
  intros Hv Hz Hw. destruct (zfill_spec w z Hz Hw) as [Hf Hl].
  rewrite digits_val_app, Hv, (digits_val_shift _ v z Hf), Hl. reflexivity.
Qed.

Lemma radix_inj B a b x y : 0 <= x < B -> 0 <= y < B -> (a * B + x = b * B + y <-> a = b /\ x = y).
Proof. intros Hx Hy. split; [|intros [-> ->]; lia]. intros H. assert (a = b) by nia. subst. split; lia. Qed.

Lemma int_str_val s v : s <> [] -> digits_val 0 s = Some v -> int_str s = Ok v.
Proof.
  intros Hs H. destruct s as [|[d| |] r]; [congruence| |discriminate|discriminate].
  unfold int_str. rewrite H. reflexivity.
Qed.

(** ** combined group numbers *)
Lemma zmax_spec l : l <> [] -> exists m, zmax l = Ok m /\ In m l /\ forall x, In x l -> x <= m.
Proof.
  destruct l as [|x r]; [congruence|]. intros _. exists (fold_left Z.max r x).
  destruct (fold_max_spec r x) as (H1 & H2 & H3). repeat split; auto.
  - simpl. destruct H3; auto.
  - intros y [->|Hy]; auto.
Qed.

Lemma padded_spec l w : l <> [] -> fits_width w l -> exists u, (u <= w)%nat /\ (1 <= u)%nat /\
  padded l = Ok (map (fun x => zfill u (str_Z x)) l) /\
  forall x, In x l -> 0 <= x < 10 ^ Z.of_nat u /\ (length (str_Z x) <= u)%nat.
Proof.
  intros Hl [Hw Hx]. destruct (zmax_spec l Hl) as (m & E & Hm & Hle).
  destruct (str_Z_spec m) as (D & ED & V & U & L & G); [apply Hx; auto|].
  exists (length (str_Z m)). unfold padded. rewrite E. cbn [bind]. repeat split; auto.
  - apply str_Z_len; auto.
  - rewrite ED; auto.
  - apply Hx; auto.
  - rewrite ED. specialize (Hle x H). lia.
  - apply str_Z_len; [|rewrite ED; auto]. rewrite ED. specialize (Hle x H). pose proof (proj1 (Hx x H)). lia.
Qed.

Lemma add_str_nth a b i : length a = length b -> nth i (add_str a b) [] = nth i a [] ++ nth i b [].
Proof.
  unfold add_str. revert b i. induction a as [|x a IH]; destruct b as [|y b]; simpl; intros i H; try lia.
  - destruct i; auto.
  - destruct i; auto.
Qed.
Lemma add_str_length a b : length a = length b -> length (add_str a b) = length a.
Proof. intros H. unfold add_str. rewrite map_length, combine_length. lia. Qed.

(** strings [acc] with values [v i] below [10 ^ W] *)
Definition strings_ok (n : nat) (acc : list (list ch)) (v : nat -> Z) (W : nat) : Prop :=
  length acc = n /\ forall i, (i < n)%nat -> nth i acc [] <> [] /\ digits_val 0 (nth i acc []) = Some (v i) /\
                                            0 <= v i < 10 ^ Z.of_nat W.

Lemma padded_strings n c w : length c = n -> (1 <= n)%nat -> fits_width w c ->
  exists u p, (u <= w)%nat /\ padded c = Ok p /\ length p = n /\
    strings_ok n p (fun i => nth i c 0) u /\
    forall i, (i < n)%nat -> exists x, nth i p [] = zfill u (str_Z x) /\ x = nth i c 0 /\ 0 <= x < 10 ^ Z.of_nat u /\ (length (str_Z x) <= u)%nat.
Proof.
  intros Hn H1 Hf. destruct (padded_spec c w) as (u & Hu & H1u & E & Hx); auto.
  { intros ->. simpl in Hn. lia. }
  exists u, (map (fun x => zfill u (str_Z x)) c). rewrite map_length.
  assert (Hnth : forall i, (i < n)%nat -> nth i (map (fun x => zfill u (str_Z x)) c) [] = zfill u (str_Z (nth i c 0))).
  { intros i Hi. rewrite (nth_indep _ [] (zfill u (str_Z 0))) by (rewrite map_length; lia).
    rewrite map_nth with (f := fun x => zfill u (str_Z x)). reflexivity. }
  assert (Hin : forall i, (i < n)%nat -> In (nth i c 0) c) by (intros; apply nth_In; lia).
  repeat split; auto.
  - rewrite map_length; auto.
  - rewrite Hnth by auto. destruct (Hx _ (Hin _ H)) as [[Ha Hb] Hc].
    destruct (zfill_spec u (nth i c 0) Ha Hc) as [_ Hl]. intros E0. rewrite E0 in Hl. simpl in Hl. lia.
  - rewrite Hnth by auto. destruct (Hx _ (Hin _ H)) as [[Ha Hb] Hc]. apply zfill_spec; auto.
  - destruct (Hx _ (Hin _ H)) as [[Ha Hb] Hc]. lia.
  - destruct (Hx _ (Hin _ H)) as [[Ha Hb] Hc]. lia.
  - intros i Hi. exists (nth i c 0). destruct (Hx _ (Hin _ Hi)) as [[Ha Hb] Hc]. auto.
Qed.

Lemma conc_spec n : (1 <= n)%nat -> forall cols ws acc v W, strings_ok n acc v W ->
  (forall c, In c cols -> length c = n) -> Forall2 fits_width ws cols ->
  exists acc' v' W', conc acc cols = Ok acc' /\ strings_ok n acc' v' W' /\ (W' <= W + total ws)%nat /\
    forall i j, (i < n)%nat -> (j < n)%nat -> (v' i = v' j <-> v i = v j /\ agree cols i j).
Proof.
  intros H1. induction cols as [|c cols IH]; intros ws acc v W Ha Hl Hw; inversion Hw as [|w c' ws' cols' Hwc Hws]; subst; cbn [conc].
  - exists acc, v, W. split; [reflexivity|]. split; [exact Ha|]. split; [simpl; lia|].
    intros i j Hi Hj. split; [|tauto]. intros H. split; [exact H|intros c []].
  - destruct (padded_strings n c w (Hl c (or_introl eq_refl)) H1 Hwc) as (u & p & Hu & Ep & Lp & Hp & Hpi).
    rewrite Ep. cbn [bind].
    destruct (IH ws' (add_str acc p) (fun i => v i * 10 ^ Z.of_nat u + nth i c 0) (W + u)%nat) as (acc' & v' & W' & E & Hs & HW & Hv); auto.
    + destruct Ha as [La Ha]. split; [rewrite add_str_length; lia|].
      intros i Hi. rewrite add_str_nth by lia. destruct (Ha i Hi) as (A1 & A2 & A3).
      destruct (Hpi i Hi) as (x & Ex & -> & B1 & B2). rewrite Ex. repeat split.
      * intros E0. apply app_eq_nil in E0. tauto.
      * apply append_val; auto. lia.
      * nia.
      * rewrite Nat2Z.inj_add, Z.pow_add_r by lia. nia.
    + intros; apply Hl; right; auto.
    + exists acc', v', W'. split; [exact E|]. split; [exact Hs|]. split; [simpl; lia|].
      intros i j Hi Hj. rewrite (Hv i j Hi Hj). cbv beta.
      destruct (Hpi i Hi) as (x & _ & Ex & B1 & _). destruct (Hpi j Hj) as (y & _ & Ey & B2 & _).
      rewrite <- Ex, <- Ey. rewrite (radix_inj _ _ _ _ _ B1 B2). subst x y. split.
      * intros [[H2 H3] H4]. split; [exact H2|]. intros c0 [<-|Hc0]; auto.
      * intros [H2 H3]. split; [|intros c0 Hc0; apply H3; right; auto]. split; [exact H2|]. apply H3; left; auto.
Qed.

Lemma mapM_int_str n acc v W : strings_ok n acc v W -> mapM int_str acc = Ok (map v (seq 0 n)).
Proof.
  intros [<- H]. revert v W H. induction acc as [|s acc IH]; intros v W H; simpl; [reflexivity|].
  destruct (H 0%nat) as (A & B & _); [simpl; lia|]. simpl in A, B. rewrite (int_str_val s _ A B). cbn [bind].
  rewrite (IH (fun i => v (S i)) W).
  - cbn [bind]. do 2 f_equal. rewrite <- seq_shift, map_map. reflexivity.
  - intros i Hi. apply (H (S i)). simpl; lia.
Qed.

Lemma np_int_small l : (forall x, In x l -> x < 2 ^ 63) -> np_int_array l = l.
Proof.
  intros H. unfold np_int_array. rewrite (proj2 (forallb_forall _ l)); auto.
  intros x Hx. apply Z.ltb_lt. auto.
Qed.

Lemma groupindex_ok cols ws n : (1 <= n)%nat -> cols <> [] -> (forall c, In c cols -> length c = n) ->
  Forall2 fits_width ws cols -> (total ws <= 18)%nat ->
  exists gi, groupindex cols = Ok gi /\ length gi = n /\
    forall i j, (i < n)%nat -> (j < n)%nat -> (nth i gi 0 = nth j gi 0 <-> agree cols i j).
Proof.
  intros H1 Hne Hl Hw HW. destruct cols as [|c cols]; [congruence|].
  inversion Hw as [|w c' ws' cols' Hwc Hws]; subst. cbn [groupindex].
  destruct (padded_strings n c w (Hl c (or_introl eq_refl)) H1 Hwc) as (u & p & Hu & Ep & Lp & Hp & _).
  rewrite Ep. cbn [bind].
  destruct (conc_spec n H1 cols ws' p _ u Hp) as (acc' & v' & W' & E & Hs & HW' & Hv); auto.
  { intros; apply Hl; right; auto. }
  rewrite E. cbn [bind]. rewrite (mapM_int_str n acc' v' W' Hs). cbn [bind].
  exists (map v' (seq 0 n)). split; [|split].
  - f_equal. apply np_int_small. intros x Hx. apply in_map_iff in Hx. destruct Hx as (i & <- & Hi).
    apply in_seq in Hi. destruct Hs as [_ Hs]. destruct (Hs i ltac:(lia)) as (_ & _ & B).
    pose proof (pow10_le W' 18 ltac:(simpl in HW; lia)).
    assert (10 ^ Z.of_nat 18 < 2 ^ 63) by reflexivity. lia.
  - rewrite map_length, seq_length. reflexivity.
  - intros i j Hi Hj.
    assert (Hnth : forall k, (k < n)%nat -> nth k (map v' (seq 0 n)) 0 = v' k).
    { intros k Hk. rewrite (nth_indep _ 0 (v' 0%nat)) by (rewrite map_length, seq_length; lia).
      rewrite map_nth, seq_nth by lia. reflexivity. }
    rewrite !Hnth by auto. rewrite Hv by auto. split.
    + intros [A B] c0 [<-|Hc0]; auto.
    + intros A. split; [apply A; left; auto|]. intros c0 Hc0; apply A; right; auto.
Qed.

(** ** manual variability *)
Lemma round53_small z : z < 2 ^ 53 -> round53 z = z.
Proof. intros H. unfold round53. destruct (Z.ltb_spec z (2 ^ 53)); [reflexivity|lia]. Qed.
Lemma astype_small z : z < 2 ^ 53 -> astype_int z = z.
Proof.
  intros H. unfold astype_int. assert (2 ^ 53 < 2 ^ 63) by reflexivity.
  destruct (Z.ltb_spec z (2 ^ 63)); [reflexivity|lia].
Qed.
Lemma int_part_digits s v a : digits_val a s = Some v -> int_part s = s /\ frac_part s = None.
Proof.
  revert a. induction s as [|[d| |] s IH]; simpl; intros a H; try discriminate; auto.
  destruct (IH _ H) as [-> ->]. auto.
Qed.
Lemma int_part_app s v a r : digits_val a s = Some v -> int_part (s ++ Dot :: r) = s /\ frac_part (s ++ Dot :: r) = Some r.
Proof.
  revert a. induction s as [|[d| |] s IH]; simpl; intros a H; try discriminate; auto.
  destruct (IH _ H) as [-> ->]. auto.
Qed.
Lemma float_int_str_digits s v : digits_val 0 s = Some v -> v < 2 ^ 53 -> float_int_str s = Ok v.
Proof.
  intros H Hv. unfold float_int_str. destruct (int_part_digits s v 0 H) as [-> ->].
  rewrite H, round53_small, astype_small by auto. reflexivity.
Qed.
Lemma float_int_str_frac s v r u : digits_val 0 s = Some v -> digits_val 0 r = Some u -> v < 2 ^ 53 ->
  float_int_str (s ++ Dot :: r) = Ok v.
Proof.
  intros H Hr Hv. unfold float_int_str. destruct (int_part_app s v 0 r H) as [-> ->].
  rewrite H, Hr, round53_small, astype_small by auto. reflexivity.
Qed.

Lemma nth_map_lt {A B} (f : A -> B) l i d e : (i < length l)%nat -> nth i (map f l) e = f (nth i l d).
Proof.
  intros H. rewrite (nth_indep _ e (f d)) by (rewrite map_length; lia). apply map_nth.
Qed.

Lemma mapM_nth {A B} (f : A -> res B) l (v : nat -> B) d : (forall i, (i < length l)%nat -> f (nth i l d) = Ok (v i)) ->
  mapM f l = Ok (map v (seq 0 (length l))).
Proof.
  revert v. induction l as [|x l IH]; intros v H; simpl; [reflexivity|].
  pose proof (H 0%nat ltac:(simpl; lia)) as H0. simpl in H0. rewrite H0. cbn [bind].
  rewrite (IH (fun i => v (S i))).
  - cbn [bind]. do 2 f_equal. rewrite <- seq_shift, map_map. reflexivity.
  - intros i Hi. apply (H (S i)). simpl; lia.
Qed.

Lemma width_str l w : fits_width w l -> (width (map str_Z l) <= w)%nat.
Proof.
  intros [Hw Hx]. induction l as [|x l IH]; simpl; [lia|].
  unfold width in *. simpl. apply Nat.max_lub.
  - apply str_Z_len; auto. apply Hx; left; auto.
  - apply IH. intros; apply Hx; right; auto.
Qed.
Lemma width_in s l : In s l -> (length s <= width l)%nat.
Proof. apply maxlen_ge. Qed.

Lemma manual_value w1 w2 b s suffix c : 0 <= b -> 0 <= c -> (length (str_Z b) <= w1)%nat ->
  s = str_Z c ++ suffix -> (length s <= w2)%nat ->
  exists t, zfill w1 (str_Z b) ++ zfill w2 s = t ++ suffix /\
    digits_val 0 t = Some (b * 10 ^ Z.of_nat (w2 - length suffix) + c) /\
    c < 10 ^ Z.of_nat (w2 - length suffix).
Proof.
  intros Hb Hc L1 -> L2. rewrite app_length in L2.
  exists (zfill w1 (str_Z b) ++ repeat (Dig 0) (w2 - (length (str_Z c) + length suffix)) ++ str_Z c).
  assert (E : zfill w2 (str_Z c ++ suffix) = repeat (Dig 0) (w2 - (length (str_Z c) + length suffix)) ++ str_Z c ++ suffix).
  { unfold zfill. rewrite <- app_length. destruct (str_Z c) as [|[d| |] r] eqn:E; simpl; auto.
    - destruct (str_Z_spec c Hc) as (D & ED & _ & _ & _ & G). rewrite E in ED. subst D. simpl in G. lia.
    - exfalso. exact (str_Z_nodash c Hc r E). }
  rewrite E, !app_assoc. split; [reflexivity|].
  destruct (zfill_spec w1 b Hb L1) as [V1 _]. destruct (str_Z_spec c Hc) as (D & ED & VD & U & _ & G).
  assert (V2 : digits_val 0 (repeat (Dig 0) (w2 - (length (str_Z c) + length suffix)) ++ str_Z c) = Some c).
  { rewrite digits_val_app, zeros_val, ED. exact VD. }
  rewrite <- app_assoc, digits_val_app, V1, (digits_val_shift _ b c V2), app_length, repeat_length.
  replace (w2 - (length (str_Z c) + length suffix) + length (str_Z c))%nat with (w2 - length suffix)%nat by lia.
  split; [reflexivity|]. rewrite ED in *. pose proof (pow10_le (length D) (w2 - length suffix) ltac:(lia)). lia.
Qed.

Lemma combine_manual_unfold base col : base <> [] -> length base = length col ->
  combine_manual base col =
  mapM float_int_str (add_str (map (zfill (width (map str_Z base))) (map str_Z base)) (map (zfill (width col)) col)).
Proof.
  intros Hne Hl. unfold combine_manual. rewrite Hl, Nat.eqb_refl. destruct base; [congruence|reflexivity].
Qed.

Lemma combine_manual_ok base cz w1 w2 : length base = length cz -> base <> [] ->
  fits_width w1 base -> fits_width w2 cz -> (w1 + w2 <= 15)%nat ->
  exists d, combine_manual base (map str_Z cz) = Ok d /\ length d = length base /\
    (forall x, In x d -> 0 <= x < 10 ^ Z.of_nat (w1 + w2)) /\
    forall i j, (i < length base)%nat -> (j < length base)%nat ->
      (nth i d 0 = nth j d 0 <-> nth i base 0 = nth j base 0 /\ nth i cz 0 = nth j cz 0).
Proof.
  intros Hl Hne H1 H2 Hw. rewrite combine_manual_unfold by (rewrite ?map_length; auto).
  set (u1 := width (map str_Z base)). set (u2 := width (map str_Z cz)).
  assert (U1 : (u1 <= w1)%nat) by (apply width_str; auto). assert (U2 : (u2 <= w2)%nat) by (apply width_str; auto).
  set (v := fun i => nth i base 0 * 10 ^ Z.of_nat u2 + nth i cz 0).
  assert (Hv : forall i, (i < length base)%nat ->
     0 <= nth i base 0 < 10 ^ Z.of_nat w1 /\ 0 <= nth i cz 0 < 10 ^ Z.of_nat u2 /\
     digits_val 0 (zfill u1 (str_Z (nth i base 0)) ++ zfill u2 (str_Z (nth i cz 0))) = Some (v i)).
  { intros i Hi. destruct H1 as [_ H1], H2 as [_ H2].
    pose proof (H1 (nth i base 0) (nth_In _ _ Hi)) as B1.
    assert (Hi' : (i < length cz)%nat) by lia.
    pose proof (H2 (nth i cz 0) (nth_In _ _ Hi')) as B2.
    assert (L1 : (length (str_Z (nth i base 0%Z)) <= u1)%nat).
    { apply width_in, in_map, nth_In; auto. }
    assert (L2 : (length (str_Z (nth i cz 0%Z)) <= u2)%nat).
    { apply width_in, in_map, nth_In; lia. }
    destruct (manual_value u1 u2 (nth i base 0) (str_Z (nth i cz 0)) [] (nth i cz 0)) as (t & E & V & U); try lia.
    { rewrite app_nil_r; auto. }
    rewrite app_nil_r in E. simpl in V, U. rewrite Nat.sub_0_r in *. rewrite E. repeat split; try lia. exact V. }
  assert (Hb : forall i, (i < length base)%nat -> 0 <= v i < 10 ^ Z.of_nat (w1 + w2)).
  { intros i Hi. destruct (Hv i Hi) as (A & B & _). unfold v. pose proof (pow10_le u2 w2 U2).
    rewrite Nat2Z.inj_add, Z.pow_add_r by lia. nia. }
  exists (map v (seq 0 (length base))). split; [|split; [|split]].
  - rewrite (mapM_nth _ _ v []).
    + rewrite add_str_length by (rewrite !map_length; lia). rewrite !map_length. reflexivity.
    + intros i. rewrite add_str_length by (rewrite !map_length; lia). rewrite !map_length. intros Hi.
      rewrite add_str_nth by (rewrite !map_length; lia).
      rewrite !map_map, (nth_map_lt _ base i 0), (nth_map_lt _ cz i 0) by lia.
      destruct (Hv i Hi) as (A & B & V). apply float_int_str_digits; auto.
      destruct (Hb i Hi) as [_ Hb1]. pose proof (pow10_le (w1 + w2) 15 Hw).
      assert (10 ^ Z.of_nat 15 < 2 ^ 53) by reflexivity. lia.
  - rewrite map_length, seq_length. reflexivity.
  - intros x Hx. apply in_map_iff in Hx. destruct Hx as (i & <- & Hi). apply in_seq in Hi. apply Hb. lia.
  - intros i j Hi Hj. rewrite (nth_map_lt v (seq 0 (length base)) i 0%nat 0) by (rewrite seq_length; auto).
    rewrite (nth_map_lt v (seq 0 (length base)) j 0%nat 0) by (rewrite seq_length; auto).
    rewrite !seq_nth by auto. cbn [Nat.add]. unfold v.
    destruct (Hv i Hi) as (_ & B & _). destruct (Hv j Hj) as (_ & B' & _).
    apply radix_inj; auto.
Qed.

(** numbers printed with [k] decimals: only the integer part counts *)
Lemma combine_manual_frac base cz fr k w1 w2 : length base = length cz -> length fr = length cz -> base <> [] ->
  fits_width w1 base -> fits_width w2 cz -> (w1 + w2 <= 15)%nat ->
  (forall r, In r fr -> length r = k /\ exists u, digits_val 0 r = Some u) ->
  exists d, combine_manual base (map (fun p => str_Z (fst p) ++ Dot :: snd p) (combine cz fr)) = Ok d /\
    length d = length base /\
    forall i j, (i < length base)%nat -> (j < length base)%nat ->
      (nth i d 0 = nth j d 0 <-> nth i base 0 = nth j base 0 /\ nth i cz 0 = nth j cz 0).
Proof.
  intros Hl Hlf Hne H1 H2 Hw Hfr.
  set (col := map (fun p => str_Z (fst p) ++ Dot :: snd p) (combine cz fr)).
  assert (Lc : length col = length base). { unfold col. rewrite map_length, combine_length. lia. }
  rewrite combine_manual_unfold by auto.
  set (u1 := width (map str_Z base)). set (u2 := width col).
  assert (U1 : (u1 <= w1)%nat) by (apply width_str; auto).
  assert (Hcol : forall i, (i < length base)%nat -> nth i col [] = str_Z (nth i cz 0) ++ Dot :: nth i fr []).
  { intros i Hi. unfold col. rewrite (nth_map_lt _ _ i (0, [])) by (rewrite combine_length; lia).
    rewrite combine_nth by auto. reflexivity. }
  assert (Hlen : forall i, (i < length base)%nat -> length (nth i fr []) = k).
  { intros i Hi. apply Hfr, nth_In. lia. }
  assert (U2 : (u2 <= w2 + S k)%nat).
  { unfold u2, width. destruct col as [|s0 sr] eqn:Ec; [simpl; lia|]. rewrite <- Ec in *.
    destruct (maxlen_attained col) as (s & Hs & E); [rewrite Ec; congruence|]. rewrite <- E.
    apply In_nth with (d := []) in Hs. destruct Hs as (i & Hi & <-). rewrite Lc in Hi.
    rewrite Hcol, app_length by auto. simpl. rewrite Hlen by auto.
    pose proof (str_Z_len (nth i cz 0) w2). destruct H2 as [W2 H2].
    assert (Hi' : (i < length cz)%nat) by lia.
    specialize (H2 (nth i cz 0) (nth_In _ _ Hi')). specialize (H H2 W2). lia. }
  set (v := fun i => nth i base 0 * 10 ^ Z.of_nat (u2 - S k) + nth i cz 0).
  assert (Hv : forall i, (i < length base)%nat ->
     0 <= nth i base 0 < 10 ^ Z.of_nat w1 /\ 0 <= nth i cz 0 < 10 ^ Z.of_nat (u2 - S k) /\
     exists t, zfill u1 (str_Z (nth i base 0)) ++ zfill u2 (nth i col []) = t ++ Dot :: nth i fr [] /\
     digits_val 0 t = Some (v i)).
  { intros i Hi. destruct H1 as [_ H1], H2 as [_ H2].
    pose proof (H1 (nth i base 0) (nth_In _ _ Hi)) as B1.
    assert (Hi' : (i < length cz)%nat) by lia.
    pose proof (H2 (nth i cz 0) (nth_In _ _ Hi')) as B2.
    assert (L1 : (length (str_Z (nth i base 0%Z)) <= u1)%nat).
    { apply width_in, in_map, nth_In; auto. }
    assert (L2 : (length (nth i col []) <= u2)%nat).
    { apply width_in, nth_In; lia. }
    destruct (manual_value u1 u2 (nth i base 0) (nth i col []) (Dot :: nth i fr []) (nth i cz 0)) as (t & E & V & U); try lia.
    { apply Hcol; auto. }
    simpl length in V, U. rewrite Hlen in V, U by auto. repeat split; try lia. exists t. auto. }
  exists (map v (seq 0 (length base))). split; [|split].
  - rewrite (mapM_nth _ _ v []).
    + rewrite add_str_length by (rewrite !map_length; lia). rewrite !map_length. reflexivity.
    + intros i. rewrite add_str_length by (rewrite !map_length; lia). rewrite !map_length. intros Hi.
      rewrite add_str_nth by (rewrite !map_length; lia).
      rewrite !map_map, (nth_map_lt _ base i 0), (nth_map_lt _ col i []) by lia.
      destruct (Hv i Hi) as (A & B & t & E & V). rewrite E.
      destruct (Hfr (nth i fr [])) as [_ [u Hu]]; [apply nth_In; lia|].
      apply float_int_str_frac with u; auto.
      assert (v i < 10 ^ Z.of_nat 15).
      { unfold v. apply Z.lt_le_trans with (10 ^ Z.of_nat w1 * 10 ^ Z.of_nat (u2 - S k)); [nia|].
        rewrite <- Z.pow_add_r, <- Nat2Z.inj_add by lia. apply pow10_le. lia. }
      assert (10 ^ Z.of_nat 15 < 2 ^ 53) by reflexivity. lia.
  - rewrite map_length, seq_length. reflexivity.
  - intros i j Hi Hj. rewrite (nth_map_lt v (seq 0 (length base)) i 0%nat 0) by (rewrite seq_length; auto).
    rewrite (nth_map_lt v (seq 0 (length base)) j 0%nat 0) by (rewrite seq_length; auto).
    rewrite !seq_nth by auto. cbn [Nat.add]. unfold v.
    destruct (Hv i Hi) as (_ & B & _). destruct (Hv j Hj) as (_ & B' & _).
    apply radix_inj; auto.
Qed.
