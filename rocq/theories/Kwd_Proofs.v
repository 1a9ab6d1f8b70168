(** Proofs for Kwd_Model.v *)
From Coq Require Import String List Bool ZArith QArith Arith Lia.
From Verif Require Import Base Base_Proofs Kwd_Model Kwd_Spec.
Import ListNotations.
Local Open Scope string_scope.
Local Open Scope nat_scope.

Lemma sig_arguments c : sig c = arguments c. Proof. destruct c; reflexivity. Qed.
Lemma sig_nodup c : NoDup (sig c). Proof. destruct c; cbn; repeat constructor; cbn; intuition discriminate. Qed.
Lemma dget_snoc (k k2 : string) (v : val) d : dget string_dec k (d ++ [(k2, v)])%list =
  match dget string_dec k d with Some x => Some x | None => if string_dec k k2 then Some v else None end.
Proof.
  induction d as [|[a b] d IH]; cbn; [destruct (string_dec k k2); reflexivity|]. destruct (string_dec k a); [reflexivity|exact IH].
Qed.
Lemma dmem_in (k : string) (d : dict string val) : dmem string_dec k d = true <-> In k (keys d).
Proof.
  unfold dmem. rewrite (dget_in_keys string_dec). destruct (dget string_dec k d); split; intros H; congruence.
Qed.

Lemma bind_pos_spec names : NoDup names -> forall pos,
  match bind_pos names pos with
  | Ok d => List.length pos <= List.length names /\ (forall n k, nth_error names n = Some k -> dget string_dec k d = nth_error pos n) /\
            (forall k, ~ In k names -> dget string_dec k d = None) /\ keys d = firstn (List.length pos) names
  | Err e => e = TypeError /\ List.length names < List.length pos
  end.
Proof.
  induction names as [|n ns IH]; intros ND pos.
  - destruct pos as [|v r]; cbn; [|split; [reflexivity|lia]]. repeat split; auto. intros n k H. destruct n; discriminate.
  - inversion ND as [|? ? NI ND2]; subst. destruct pos as [|v r]; cbn [bind_pos].
    + split; [cbn; lia|]. split; [intros i k _; now destruct i|]. split; [reflexivity|reflexivity].
    + specialize (IH ND2 r). destruct (bind_pos ns r) as [d|e]; cbn [bind].
      * destruct IH as (L & G & N & K). split; [cbn; lia|]. split; [|split].
        -- intros [|i] k H; cbn in H |- *.
           ++ inversion H; subst. destruct (string_dec k k); [reflexivity|congruence].
           ++ destruct (string_dec k n) as [->|D]; [exfalso; apply NI; eapply nth_error_In; eassumption|]. now apply G.
        -- intros k H. cbn in H |- *. destruct (string_dec k n) as [->|D]; [tauto|]. apply N. tauto.
        -- cbn. f_equal. exact K.
      * destruct IH as [-> L]. split; [reflexivity|cbn; lia].
Qed.

Lemma bind_kw_spec names : forall kw bound, NoDup (keys kw) ->
  match bind_kw names bound kw with
  | Ok (A, K) => ~ In "self" (keys kw) /\ (forall k, In k names -> In k (keys kw) -> ~ In k (keys bound)) /\
      (forall k, dget string_dec k A = match dget string_dec k bound with Some v => Some v | None => if inb string_dec k names then dget string_dec k kw else None end) /\
      (forall k, dget string_dec k K = if inb string_dec k names then None else dget string_dec k kw)
  | Err e => e = TypeError /\ ~ (~ In "self" (keys kw) /\ forall k, In k names -> In k (keys kw) -> ~ In k (keys bound))
  end.
Proof.
  induction kw as [|[k v] r IH]; intros bound ND; cbn [bind_kw].
  - split; [auto|]. split; [cbn; auto|]. split; intros k; cbn; destruct (inb string_dec k names); destruct (dget string_dec k bound); reflexivity.
  - inversion ND as [|? ? NI ND2]; subst. change (~ In k (keys r)) in NI. destruct (String.eqb_spec k "self") as [->|NS].
    + split; [reflexivity|]. intros [H _]. apply H. now left.
    + destruct (inb string_dec k names) eqn:EN.
      * destruct (dmem string_dec k bound) eqn:EM.
        -- split; [reflexivity|]. intros [_ H]. apply (H k); [now apply (inb_iff string_dec)|now left|now apply dmem_in].
        -- assert (NB : ~ In k (keys bound)) by (rewrite <- dmem_in; congruence).
           specialize (IH (bound ++ [(k, v)])%list ND2). destruct (bind_kw names (bound ++ [(k, v)])%list r) as [[A K]|e].
           ++ destruct IH as (S & D & GA & GK). split; [cbn; intuition congruence|]. split; [|split].
              ** intros k2 H1 [H2|H2] HB; cbn in H2; [subst; tauto|]. apply (D k2 H1 H2). unfold keys in *. rewrite map_app. apply in_or_app. now left.
              ** intros k2. rewrite GA, dget_snoc. destruct (dget string_dec k2 bound) eqn:B; [reflexivity|]. cbn [dget].
                 destruct (string_dec k2 k) as [->|]; [rewrite EN; reflexivity|reflexivity].
              ** intros k2. rewrite GK. cbn [dget]. destruct (string_dec k2 k) as [->|]; [rewrite EN; reflexivity|reflexivity].
           ++ destruct IH as [-> H]. split; [reflexivity|]. intros [S D]. apply H. split; [cbn in S; tauto|].
              intros k2 H1 H2 HB. unfold keys in HB. rewrite map_app in HB. apply in_app_or in HB. destruct HB as [HB|[HB|[]]].
              ** exact (D k2 H1 (or_intror H2) HB).
              ** cbn in HB. subst. contradiction.
      * specialize (IH bound ND2). destruct (bind_kw names bound r) as [[A K]|e]; cbn [bind fst snd].
        -- destruct IH as (S & D & GA & GK). split; [cbn; intuition congruence|]. split; [|split].
           ** intros k2 H1 [H2|H2]; cbn in H2; [subst; apply (inb_iff string_dec) in H1; congruence|]. now apply D.
           ** intros k2. rewrite GA. cbn [dget]. destruct (dget string_dec k2 bound); [reflexivity|]. destruct (string_dec k2 k) as [->|]; [rewrite EN; reflexivity|reflexivity].
           ** intros k2. cbn [dget]. rewrite GK. destruct (string_dec k2 k) as [->|]; [rewrite EN; reflexivity|reflexivity].
        -- destruct IH as [-> H]. split; [reflexivity|]. intros [S D]. apply H. split; [cbn in S; tauto|]. intros k2 H1 H2. apply D; [exact H1|now right].
Qed.

Lemma position_nth k l n : position k l = Some n -> nth_error l n = Some k.
Proof.
  revert n. induction l as [|x r IH]; intros n; cbn; [discriminate|]. destruct (String.eqb_spec x k) as [->|]; [intros E; inversion E; reflexivity|].
  destruct (position k r); cbn; [|discriminate]. intros E. inversion E. cbn. now apply IH.
Qed.
Lemma position_none k l : position k l = None <-> ~ In k l.
Proof.
  induction l as [|x r IH]; cbn; [tauto|]. destruct (String.eqb_spec x k) as [->|]; [split; [discriminate|tauto]|].
  destruct (position k r); cbn; split; intros H; try discriminate; try reflexivity; intuition congruence.
Qed.

(** the arguments that reach __init__ *)
Definition bound (c : cls) (pos : list val) (kw : dict string val) : res (dict string val * dict string val) :=
  do p <- bind_pos (sig c) pos; bind_kw (sig c) p kw.
Lemma bound_spec c pos kw : NoDup (keys kw) ->
  match bound c pos kw with
  | Ok (A, K) => well_called c pos kw /\ (forall k, In k (arguments c) -> dget string_dec k A = given c pos kw k) /\
                 (forall k, ~ In k (arguments c) -> dget string_dec k K = given c pos kw k)
  | Err e => e = TypeError /\ ~ well_called c pos kw
  end.
Proof.
  intros ND. unfold bound, well_called. pose proof (bind_pos_spec (sig c) (sig_nodup c) pos) as P. rewrite <- (sig_arguments c).
  destruct (bind_pos (sig c) pos) as [d|e]; cbn [bind]; [|destruct P as [-> L]; split; [reflexivity|]; intros [L2 _]; lia].
  destruct P as (L & G & N & KD). pose proof (bind_kw_spec (sig c) kw d ND) as Q.
  assert (W : (forall k, In k (sig c) -> In k (keys kw) -> ~ In k (keys d)) <-> (forall n k, nth_error (sig c) n = Some k -> n < List.length pos -> ~ In k (keys kw))).
  { rewrite KD. split.
    - intros H n k E Hn HK. apply (H k); [eapply nth_error_In; eassumption|exact HK|].
      assert (X : nth_error (firstn (List.length pos) (sig c)) n = Some k).
      { rewrite <- (firstn_skipn (List.length pos) (sig c)) in E. rewrite nth_error_app1 in E; [exact E|]. rewrite firstn_length. lia. }
      eapply nth_error_In; eassumption.
    - intros H k _ HK HI. apply In_nth_error in HI. destruct HI as [n E]. apply (H n k); [| |exact HK].
      + rewrite <- (firstn_skipn (List.length pos) (sig c)). rewrite nth_error_app1; [exact E|]. apply nth_error_Some. congruence.
      + assert (X : n < List.length (firstn (List.length pos) (sig c))) by (apply nth_error_Some; congruence). rewrite firstn_length in X. lia. }
  destruct (bind_kw (sig c) d kw) as [[A K]|e].
  - destruct Q as (S & D & GA & GK). split; [split; [lia|]; split; [exact S|now apply W]|]. split.
    + intros k Hk. rewrite GA. unfold given. rewrite <- (sig_arguments c). destruct (position k (sig c)) as [n|] eqn:EP; [|apply position_none in EP; contradiction].
      rewrite (G n k (position_nth _ _ _ EP)). destruct (nth_error pos n); [reflexivity|]. rewrite (proj2 (inb_iff string_dec k (sig c)) Hk). reflexivity.
    + intros k Hk. rewrite GK. unfold given. rewrite <- (sig_arguments c). rewrite (proj2 (position_none k (sig c)) Hk). rewrite (proj2 (inb_false string_dec k (sig c)) Hk). reflexivity.
  - destruct Q as [-> H]. split; [reflexivity|]. intros (_ & S & D). apply H. split; [exact S|]. now apply W.
Qed.

Lemma new_eq c pos kw h : snd (new c pos kw h) = do b <- bound c pos kw; do at_ <- init c h (fst b) (snd b); Ok (mkobj c at_).
Proof. unfold new, bound. cbn [snd]. destruct (bind_pos (sig c) pos); reflexivity. Qed.
Lemma assert_ok b u : assert_ b = Ok u <-> b = true.
Proof. destruct b, u; cbn; split; congruence. Qed.
Lemma check_pos_ok v u : check_pos v = Ok u <-> positive v.
Proof.
  unfold check_pos, positive. destruct u. split.
  - destruct v; cbn; try discriminate.
    + destruct b; cbn; [auto|discriminate].
    + intros H. apply assert_ok in H. apply Z.ltb_lt in H. right. left. eauto.
    + intros H. apply assert_ok in H. right. right. exists q. split; [reflexivity|]. apply Bool.negb_true_iff in H.
      destruct (Qlt_le_dec 0 q) as [L|L]; [exact L|]. apply Qle_bool_iff in L. congruence.
  - intros [-> | [(z & -> & H) | (q & -> & H)]]; cbn; [reflexivity| |].
    + apply assert_ok. now apply Z.ltb_lt.
    + apply assert_ok. apply Bool.negb_true_iff. destruct (Qle_bool q 0) eqn:E; [|reflexivity]. apply Qle_bool_iff in E. exfalso. exact (Qlt_not_le _ _ H E).
Qed.
Lemma check_i_ok v u : check_i v = Ok u <-> power v.
Proof.
  unfold power. destruct u. split.
  - destruct v; cbn; try discriminate; [left; eauto|]. intros H. apply assert_ok in H. apply Z.leb_le in H. right. eauto.
  - intros [[b ->] | (z & -> & H)]; cbn; [reflexivity|]. apply assert_ok. now apply Z.leb_le.
Qed.
Lemma three {A} (l : list A) : List.length l = 3 -> exists x y z, l = [x; y; z].
Proof. destruct l as [|x [|y [|z [|? ?]]]]; cbn; intros H; try discriminate. eauto. Qed.
Lemma nth_some (h : heap) l x : nth l h [] = x -> x <> [] -> nth_error h l = Some x.
Proof.
  intros E N. destruct (nth_error h l) as [y|] eqn:E2; [apply nth_error_nth with (d := []) in E2; congruence|].
  apply nth_error_None in E2. rewrite nth_overflow in E by exact E2. congruence.
Qed.
Lemma check_a_ok h v u : check_a h false v = Ok u <-> triple h v.
Proof.
  unfold triple. destruct u. split.
  - destruct v; cbn [check_a]; try discriminate. cbv zeta. destruct (Nat.eqb _ 3) eqn:E; cbn; [|discriminate]. intros _.
    apply Nat.eqb_eq in E. destruct (three _ E) as (x & y & z & T). exists loc, x, y, z. split; [reflexivity|]. apply nth_some; [exact T|discriminate].
  - intros (l & x & y & z & -> & E). cbn. rewrite (nth_error_nth h l [] E). reflexivity.
Qed.
Lemma check_af_ok h v u : check_a h true v = Ok u <-> float_triple h v.
Proof.
  unfold float_triple. destruct u. split.
  - destruct v; cbn [check_a]; try discriminate. cbv zeta. destruct (Nat.eqb _ 3) eqn:E; cbn [assert_ bind]; [|discriminate]. intros F. apply assert_ok in F.
    apply Nat.eqb_eq in E. destruct (three _ E) as (x & y & z & T). rewrite T in F. cbn in F.
    destruct x; cbn in F; try discriminate. destruct y; cbn in F; try discriminate. destruct z; cbn in F; try discriminate.
    exists loc, q, q0, q1. split; [reflexivity|]. apply nth_some; [exact T|discriminate].
  - intros (l & x & y & z & -> & E). cbn. rewrite (nth_error_nth h l [] E). reflexivity.
Qed.
Lemma not_none_ok v : not_none v = true <-> v <> VNone.
Proof. destruct v; cbn; split; congruence. Qed.
Lemma positive_some v : positive v -> v <> VNone.
Proof. intros [-> | [(z & -> & _) | (q & -> & _)]]; discriminate. Qed.
Lemma power_some v : power v -> v <> VNone.
Proof. intros [[b ->] | (z & -> & _)]; discriminate. Qed.

Ltac checks :=
  repeat match goal with
  | H : bind ?m _ = Ok _ |- _ => let E := fresh "E" in destruct m eqn:E; cbn [bind] in H; [|discriminate H]
  end.
Ltac facts :=
  repeat match goal with
  | H : assert_ (not_none _) = Ok _ |- _ => apply assert_ok, not_none_ok in H
  | H : check_pos _ = Ok _ |- _ => apply check_pos_ok in H
  | H : check_i _ = Ok _ |- _ => apply check_i_ok in H
  | H : check_a _ true _ = Ok _ |- _ => apply check_af_ok in H
  | H : check_a _ false _ = Ok _ |- _ => apply check_a_ok in H
  end.
Lemma init_valid c h A K g : (forall k, In k (arguments c) -> dget string_dec k A = g k) -> (forall k, ~ In k (arguments c) -> dget string_dec k K = g k) ->
  (exists at_, init c h A K = Ok at_) <-> valid c h g.
Proof.
  intros HA HK. unfold init. cbv zeta.
  assert (EA : forall k d, In k (arguments c) -> argval A k d = gor g k d) by (intros k d H; unfold argval, gor; now rewrite HA).
  destruct c; cbn [valid default_loc a_default]; try (split; [intros _; exact I|intros _; eexists; reflexivity]);
    rewrite !EA by (cbn; auto).
  all: split; [intros [at_ H]; checks; facts; auto|].
  - intros (P & Q & R). rewrite (proj2 (assert_ok _ tt) (proj2 (not_none_ok _) (positive_some _ P))). cbn [bind].
    rewrite (proj2 (assert_ok _ tt) (proj2 (not_none_ok _) (power_some _ Q))). cbn [bind].
    rewrite (proj2 (check_pos_ok _ tt) P), (proj2 (check_i_ok _ tt) Q), (proj2 (check_af_ok _ _ tt) R). cbn [bind]. eauto.
  - intros (P & Q & R). rewrite (proj2 (assert_ok _ tt) (proj2 (not_none_ok _) P)). cbn [bind].
    rewrite (proj2 (assert_ok _ tt) (proj2 (not_none_ok _) (positive_some _ Q))). cbn [bind].
    rewrite (proj2 (check_pos_ok _ tt) Q), (proj2 (check_a_ok _ _ tt) R). cbn [bind]. eauto.
  - intros (P & Q & R). rewrite (proj2 (assert_ok _ tt) (proj2 (not_none_ok _) P)). cbn [bind].
    rewrite (proj2 (assert_ok _ tt) (proj2 (not_none_ok _) (positive_some _ Q))). cbn [bind].
    rewrite (proj2 (check_pos_ok _ tt) Q), (proj2 (check_a_ok _ _ tt) R). cbn [bind]. eauto.
  - intros (P & Q & R). rewrite (proj2 (assert_ok _ tt) (proj2 (not_none_ok _) P)). cbn [bind].
    rewrite (proj2 (assert_ok _ tt) (proj2 (not_none_ok _) (positive_some _ Q))). cbn [bind].
    rewrite (proj2 (check_pos_ok _ tt) Q), (proj2 (check_a_ok _ _ tt) R). cbn [bind]. eauto.
  - intros (P & Q & R). rewrite (proj2 (assert_ok _ tt) (proj2 (not_none_ok _) P)). cbn [bind].
    rewrite (proj2 (assert_ok _ tt) (proj2 (not_none_ok _) (positive_some _ Q))). cbn [bind].
    rewrite (proj2 (check_pos_ok _ tt) Q), (proj2 (check_af_ok _ _ tt) R). cbn [bind]. eauto.
Qed.

Lemma gor_some g k : gor g k VNone <> VNone -> g k = Some (gor g k VNone).
Proof. unfold gor. destruct (g k); congruence. Qed.
Lemma init_attrs c h A K g at_ : (forall k, In k (arguments c) -> dget string_dec k A = g k) -> (forall k, ~ In k (arguments c) -> dget string_dec k K = g k) ->
  init c h A K = Ok at_ -> forall k, dget string_dec k at_ = expected c h g k.
Proof.
  intros HA HK. unfold init. cbv zeta.
  assert (EA : forall k d, In k (arguments c) -> argval A k d = gor g k d) by (intros k d H; unfold argval, gor; now rewrite HA).
  assert (EK : forall k d, ~ In k (arguments c) -> match dget string_dec k K with Some v => v | None => d end = gor g k d) by (intros k d H; unfold gor; now rewrite HK).
  assert (NN : forall x, ~ In x (arguments c) -> True) by auto.
  destruct c; cbn [base_attrs default_loc] in *; rewrite !EK by (cbn; intuition discriminate); rewrite ?EA by (cbn; auto); intros H k; checks; facts;
    inversion H; clear H; subst; unfold expected; cbn [a_default];
    repeat match goal with
    | |- context [dget _ k (dset _ ?k2 ?v ?d)] => destruct (string_dec k k2) as [->|?]; [rewrite dget_dset_same|rewrite (dget_dset_other string_dec k2 k v d) by assumption]
    end; cbn [dget];
    repeat match goal with |- context [string_dec k ?x] => destruct (string_dec k x) as [->|?] end;
    try reflexivity; try (cbn; rewrite gor_some by auto using positive_some, power_some; reflexivity);
    repeat match goal with |- context [String.eqb k ?x] => destruct (String.eqb_spec k x); [first [congruence|subst; reflexivity]|] end; reflexivity.
Qed.
