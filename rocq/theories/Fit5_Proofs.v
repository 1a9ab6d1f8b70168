(** Proofs about start values, bounds and the optimiser's vector; residuals *)
From Coq Require Import String Ascii ZArith Bool Lia Permutation Sorted Arith List.
From Verif Require Import Base Base_Proofs GF_Model GF_Proofs Str_Model Fit_Model Fit_Spec Fit_Proofs Fit2_Proofs Fit3_Proofs Fit4_Proofs.
Import ListNotations.
Local Open Scope list_scope.

Section Align.
Context {V : Type} (mean : list V -> V).

(** number of groups of a parameter *)
Definition ngroups (gi : list Z) (p : param V) : nat := nunique (dyn_df gi (p_dyn p)).

Lemma param_assigns_length gi dyn : length (param_assigns gi dyn) = nunique (dyn_df gi dyn).
Proof.
  unfold param_assigns, param_assigns_dataset. rewrite rowsets_groupby. unfold rowsets. rewrite map_length, nunique_uniq. reflexivity.
Qed.

Lemma startvals_length gi p l : startvals mean gi p = Ok (Some l) ->
  match p_start p with
  | SList l' => length l' = ngroups gi p
  | SAux col => length col = length gi /\ (p_freq p = FIndex -> length (uniq gi) = ngroups gi p)
  | _ => True
  end -> length l = ngroups gi p.
Proof.
  unfold startvals, ngroups. destruct (p_start p) as [v|l'|col|].
  - intros E _. injection E as <-. apply repeat_length.
  - intros E H. injection E as <-. exact H.
  - intros E [Lc Hi].
    assert (G : length (map mean (grouped gi col)) = length (uniq gi)).
    { rewrite map_length. unfold grouped. rewrite groupby_closed, !map_length, map_fst_combine, <- uniq_first_occ by auto. reflexivity. }
    destruct (p_freq p); try (injection E as <-; rewrite map_length; apply param_assigns_length).
    destruct (same_len (grouped gi col)); [|discriminate]. injection E as <-. rewrite <- Hi by auto. exact G.
  - discriminate.
Qed.

Lemma concat_single {A} (x : A) n : concat (repeat [x] n) = repeat x n.
Proof. induction n; simpl; congruence. Qed.

Lemma boundsvals_ok gi p : (length (p_lo p) = 1 /\ length (p_hi p) = 1 \/ length (p_lo p) = ngroups gi p /\ length (p_hi p) = ngroups gi p)%nat ->
  (1 <= ngroups gi p)%nat ->
  length (fst (boundsvals gi p)) = ngroups gi p /\ length (snd (boundsvals gi p)) = ngroups gi p /\
  boundsvals gi p = (if Nat.eqb (length (p_lo p)) 1 then (concat (repeat (p_lo p) (ngroups gi p)), concat (repeat (p_hi p) (ngroups gi p)))
                     else (p_lo p, p_hi p)).
Proof.
  intros H Hn. unfold boundsvals. fold (ngroups gi p).
  destruct (Nat.leb_spec 1 (ngroups gi p)); [|lia]. cbn [andb].
  assert (C : forall l : list V, length l = 1%nat -> length (concat (repeat l (ngroups gi p))) = ngroups gi p).
  { intros [|x [|]] E; try discriminate. rewrite concat_single, repeat_length. reflexivity. }
  destruct (Nat.eqb_spec (length (p_lo p)) 1) as [E|E]; cbn [fst snd].
  - assert (E' : length (p_hi p) = 1%nat) by lia. auto.
  - destruct H as [H|H]; [lia|]. tauto.
Qed.

Lemma splitpos_sizes gi o : splitpos gi o = map (fun n => Some (Z.of_nat n)) (map (fun x : string * param V * list V => ngroups gi (snd (fst x))) o).
Proof. unfold splitpos, ngroups. rewrite map_map. reflexivity. Qed.

(** cutting a concatenation into its parts *)
Lemma split_into_parts {A} (ls : list (list A)) : split_into (concat ls) (map (fun n => Some (Z.of_nat n)) (map (@length A) ls)) = Ok ls.
Proof.
  induction ls as [|l ls IH]; [reflexivity|]. cbn [map concat split_into].
  destruct (Z.ltb_spec (Z.of_nat (length l)) 0); [lia|]. rewrite Nat2Z.id.
  rewrite skipn_app, skipn_all, Nat.sub_diag. cbn [app skipn]. rewrite IH. cbn [bind].
  rewrite firstn_app, firstn_all, Nat.sub_diag. cbn [firstn]. rewrite app_nil_r. reflexivity.
Qed.

Lemma split_vector_parts gi (o : list (string * param V * list V)) (f : string * param V * list V -> list V) :
  (forall x, In x o -> length (f x) = ngroups gi (snd (fst x))) ->
  split_vector gi o (concat (map f o)) = Ok (map (fun x => (fst (fst x), f x)) o).
Proof.
  intros H. unfold split_vector. rewrite splitpos_sizes.
  assert (E : map (fun x : string * param V * list V => ngroups gi (snd (fst x))) o = map (@length V) (map f o)).
  { rewrite map_map. apply map_ext_in. intros x Hx. rewrite H; auto. }
  rewrite E, split_into_parts. cbn [bind]. f_equal. clear. induction o; simpl; [reflexivity|]. f_equal. exact IHo.
Qed.

Lemma order_in gi ps : forall o, order mean gi ps = Ok o -> forall k p l, In (k, p, l) o ->
  In (k, p) ps /\ startvals mean gi p = Ok (Some l).
Proof.
  induction ps as [|[k0 p0] ps IH]; simpl; intros o E k p l Hin.
  - injection E as <-. destruct Hin.
  - destruct (startvals mean gi p0) as [s|] eqn:Es; [|discriminate]. cbn [bind] in E.
    destruct (order mean gi ps) as [o'|]; [|discriminate]. cbn [bind] in E. destruct s as [l0|].
    + injection E as <-. destruct Hin as [Q|Hin].
      * injection Q as <- <- <-. auto.
      * destruct (IH o' eq_refl k p l Hin). auto.
    + injection E as <-. destruct (IH o' eq_refl k p l Hin). auto.
Qed.

Lemma concat_length {A B} (f : B -> list A) (n : B -> nat) l : (forall x, In x l -> length (f x) = n x) ->
  length (concat (map f l)) = total (map n l).
Proof.
  induction l as [|x l IH]; simpl; intros H; [reflexivity|]. rewrite app_length, IH by (intros; apply H; auto).
  rewrite H by auto. reflexivity.
Qed.

Lemma split_vector_any gi (o : list (string * param V * list V)) x :
  length x = total (map (fun y => ngroups gi (snd (fst y))) o) ->
  exists parts, split_vector gi o x = Ok parts /\ map fst parts = map (fun y => fst (fst y)) o /\
    concat (map snd parts) = x /\ map (fun q => length (snd q)) parts = map (fun y => ngroups gi (snd (fst y))) o.
Proof.
  intros L.
  assert (G : forall (ns : list nat) (y : list V), length y = total ns -> exists ls, concat ls = y /\ map (@length V) ls = ns).
  { induction ns as [|n ns IH]; simpl; intros y Hy.
    - exists []. destruct y; [auto|discriminate].
    - destruct (IH (skipn n y)) as (ls & E1 & E2); [rewrite skipn_length; lia|].
      exists (firstn n y :: ls). simpl. rewrite E1, E2, firstn_skipn, firstn_length, Nat.min_l by lia. auto. }
  destruct (G _ _ L) as (ls & E1 & E2). exists (combine (map (fun y => fst (fst y)) o) ls).
  assert (Ll : length ls = length o) by (apply (f_equal (@length nat)) in E2; rewrite !map_length in E2; exact E2).
  unfold split_vector. rewrite splitpos_sizes, <- E1, <- E2, split_into_parts. cbn [bind].
  assert (S : map snd (combine (map (fun y : string * param V * list V => fst (fst y)) o) ls) = ls).
  { clear -Ll. revert ls Ll. induction o as [|a o IH]; destruct ls; simpl; intros; try lia; [reflexivity|]. f_equal. apply IH. lia. }
  split; [reflexivity|]. split; [apply map_fst_combine; rewrite map_length; auto|]. rewrite S. split; [reflexivity|].
  rewrite <- (map_map snd (@length V)), S. reflexivity.
Qed.
End Align.

(** ** residuals *)
Lemma unmasked_map {A B} (f : A -> B) row mask : unmasked (map f row) mask = map f (unmasked row mask).
Proof.
  unfold unmasked. generalize (concat mask). induction row as [|x l IH]; intros [|m ms]; simpl; auto.
  destruct m; simpl; [|f_equal]; apply IH.
Qed.

Lemma residuals_ok {V} (mul sub : V -> V -> V) (w t d : nat -> V) gi index mask : gi <> [] -> length index = length gi ->
  get_mask gi index = Ok mask ->
  residuals mul sub (map (map w) (pad (rowsets gi))) (map (map t) (pad (rowsets gi))) (map (map d) (pad (rowsets gi))) mask =
  map (fun i => mul (w i) (sub (t i) (d i))) (processing_order gi).
Proof.
  intros Hg L Hm. unfold residuals. rewrite <- !concat_map.
  assert (E : forall l, map (fun p : V * (V * V) => mul (fst p) (sub (fst (snd p)) (snd (snd p)))) (combine (map w l) (combine (map t l) (map d l))) =
               map (fun i => mul (w i) (sub (t i) (d i))) l).
  { induction l; simpl; congruence. }
  rewrite E, unmasked_map. f_equal.
  rewrite get_mask_ok in Hm by auto. injection Hm as <-. apply visible_pad.
Qed.
