From Coq Require Import ZArith QArith Reals Qreals Bool Arith String Lia Lra List.
From Verif Require Import Base Ini_Model Ini_Spec.
Import ListNotations.
Local Open Scope string_scope.
Local Open Scope list_scope.

Lemma dget_In : forall (l : list (string * sx)) s v, dget string_dec s l = Some v -> In (s, v) l.
Proof.
  induction l as [|[k w] l IH]; simpl; intros s v H; [discriminate|].
  destruct (string_dec s k) as [->|N]; [inversion H; auto|auto].
Qed.

Section S.
Variable op : string -> R -> R -> R.
Variable fn : string -> R -> R.
Notation val := (val op fn).

Lemma val_xreplace : forall d env e, parameters d ->
  val env (xreplace d e) = val (argument_values d env) e.
Proof.
  intros d env e P. induction e as [q|s|o a IHa b IHb|f a IHa]; simpl; try congruence.
  unfold argument_values. destruct (dget string_dec s d) as [v|] eqn:E; [|reflexivity].
  destruct (P s v (dget_In _ _ _ E)) as [->|[q ->]]; reflexivity.
Qed.

Lemma free_occurs : forall t e, In t (free_symbols e) <-> occurs t e.
Proof.
  intros t e; induction e as [q|s|o a IHa b IHb|f a IHa]; simpl.
  - split; [tauto|inversion 1].
  - split; [intros [->|[]]; constructor|inversion 1; auto].
  - rewrite in_app_iff, IHa, IHb. split; [intros [H|H]; [apply occ_l|apply occ_r]; auto|inversion 1; auto].
  - rewrite IHa. split; [constructor; auto|inversion 1; auto].
Qed.

Lemma counted_spec : forall k, counted k = true <-> ~ not_counted k.
Proof.
  intro k. unfold counted, not_counted. rewrite negb_true_iff. split.
  - intros H I. assert (existsb (String.eqb k) ignore_keys = true) as E.
    { apply existsb_exists. exists k. split; [exact I|apply String.eqb_refl]. }
    congruence.
  - intro N. destruct (existsb _ _) eqn:E; [|reflexivity].
    apply existsb_exists in E. destruct E as [y [I Q]]. apply String.eqb_eq in Q. subst. contradiction.
Qed.

Section P.
Variable parse : string -> option sx.

Lemma checkval_spec : forall d k v u f, names_are_symbols parse d -> parameters d ->
  checkval parse d k v = Ok (u, f) ->
  exists e, denotes parse v = Some e /\ u = xreplace d e /\ (forall t, In t f <-> ~ not_counted k /\ occurs t u).
Proof.
  intros d k v u f N P H. destruct v as [s|q]; simpl in H.
  - destruct (dget string_dec s d) as [e|] eqn:E.
    + inversion H; subst; clear H. exists (SSym s). simpl. rewrite E.
      split; [apply (N s u), dget_In, E|split; [reflexivity|]].
      intro t. destruct (P _ _ (dget_In _ _ _ E)) as [->|[q ->]].
      * destruct (counted k) eqn:Ck.
        -- apply counted_spec in Ck. simpl. split; [intros [->|[]]; split; [auto|constructor]|intros [_ O]; inversion O; auto].
        -- split; [intros []|]. intros [X _]. apply counted_spec in X. congruence.
      * split; [intros []|intros [_ O]; inversion O].
    + destruct (parse s) as [e|] eqn:Ps; [|discriminate]. inversion H; subst; clear H.
      exists e. simpl. split; [exact Ps|split; [reflexivity|]]. intro t.
      destruct (counted k) eqn:Ck.
      * apply counted_spec in Ck. rewrite free_occurs. tauto.
      * split; [intros []|]. intros [X _]. apply counted_spec in X. congruence.
  - inversion H; subst. exists (SNum q). simpl. split; [reflexivity|split; [reflexivity|]].
    intro t; split; [intros []|intros [_ O]; inversion O].
Qed.

(** the loop over the components *)
Definition comps (d : list (string * sx)) :=
  fix go (l : list (pval * props)) : res (list (sx * obj) * list string) :=
    match l with
    | [] => Ok ([], [])
    | (w, q) :: r =>
        let key := match w with VStr s => s | VNum _ => "" end in
        do u <- checkval parse d key w;
        do o <- init_V_SRF parse [] q;
        do rest <- go r;
        Ok ((fst u, o) :: fst rest, snd u ++ snd rest)
    end.

Lemma init_eq : forall d n kv ch, init_V_SRF parse d (Props n kv ch) =
  do cs <- (if lincomb n then comps d ch else Ok ([], []));
  do vals <- mapM (fun x => do u <- checkval parse d (fst x) (snd x); Ok (fst x, u)) kv;
  Ok (Obj n (map (fun x => (fst x, fst (snd x))) vals) (fst cs)
          (snd cs ++ flat_map (fun x => snd (snd x)) vals)).
Proof. reflexivity. Qed.

Lemma kv_spec : forall d kv vals,
  mapM (fun x => do u <- checkval parse d (fst x) (snd x); Ok (fst x, u)) kv = Ok vals ->
  Forall2 (fun x y => fst y = fst x /\ checkval parse d (fst x) (snd x) = Ok (snd y)) kv vals.
Proof.
  intros d kv; induction kv as [|[k v] kv IH]; intros vals H; cbn [mapM] in H.
  - inversion H; constructor.
  - cbn [fst snd] in H. destruct (checkval parse d k v) as [u|] eqn:E; cbn [bind] in H; [|discriminate].
    destruct (mapM _ kv) as [r|] eqn:E2; cbn [bind] in H; [|discriminate].
    inversion H; subst. constructor; [cbn; auto|]. apply IH; auto.
Qed.

Lemma comps_spec : forall d ch cs f, comps d ch = Ok (cs, f) ->
  Forall2 (fun x y => (exists fu, checkval parse d (match fst x with VStr s => s | VNum _ => "" end) (fst x) = Ok (fst y, fu)
                                  /\ forall t, In t fu -> In t f)
                      /\ init_V_SRF parse [] (snd x) = Ok (snd y)) ch cs
  /\ (forall t, In t f -> exists x y fu, In x ch /\ In y cs
        /\ checkval parse d (match fst x with VStr s => s | VNum _ => "" end) (fst x) = Ok (fst y, fu) /\ In t fu).
Proof.
  intros d ch; induction ch as [|[w q] ch IH]; intros cs f H; cbn [comps] in H.
  - inversion H; subst. split; [constructor|intros t []].
  - fold (comps d) in H.
    destruct (checkval parse d _ w) as [[u fu]|] eqn:E; cbn [bind] in H; [|discriminate].
    destruct (init_V_SRF parse [] q) as [o|] eqn:Eo; cbn [bind] in H; [|discriminate].
    destruct (comps d ch) as [[cs' f']|] eqn:Er; cbn [bind] in H; [|discriminate].
    cbn [fst snd] in H. inversion H; subst; clear H.
    destruct (IH _ _ eq_refl) as [A B]. split.
    + constructor.
      * cbn [fst snd]. split; [exists fu; split; [exact E|intros t I; apply in_or_app; auto]|exact Eo].
      * clear - A. induction A as [|x y l l' [[fu0 [X Y]] Z] A IHA]; constructor; auto.
        split; [|exact Z]. exists fu0. split; [exact X|intros t I; apply in_or_app; auto].
    + intros t I. apply in_app_or in I. destruct I as [I|I].
      * exists (w, q), (u, o), fu. cbn. auto.
      * destruct (B t I) as (x & y & g & I1 & I2 & X & Y). exists x, y, g. cbn. auto.
Qed.

Lemma Forall2_In_l : forall A B (R : A -> B -> Prop) l l' x, Forall2 R l l' -> In x l -> exists y, In y l' /\ R x y.
Proof. intros A B R l l' x H; induction H; intros []; [subst; eexists; split; [left|]; eauto|]. destruct (IHForall2 H1) as [z [? ?]]; exists z; split; [right|]; auto. Qed.
Lemma Forall2_In_r : forall A B (R : A -> B -> Prop) l l' y, Forall2 R l l' -> In y l' -> exists x, In x l /\ R x y.
Proof. intros A B R l l' x H; induction H; intros []; [subst; eexists; split; [left|]; eauto|]. destruct (IHForall2 H1) as [z [? ?]]; exists z; split; [right|]; auto. Qed.

(** ** attributes *)
Lemma attr_values : forall d n kv ch o, names_are_symbols parse d -> parameters d ->
  init_V_SRF parse d (Props n kv ch) = Ok o ->
  map fst (attributes o) = map fst kv /\
  Forall2 (fun x y => fst y = fst x /\ exists e, denotes parse (snd x) = Some e /\
     forall env, val env (snd y) = val (argument_values d env) e) kv (attributes o).
Proof.
  intros d n kv ch o N P H. rewrite init_eq in H.
  destruct (if lincomb n then comps d ch else Ok ([], [])) as [cs|] eqn:Ec; cbn [bind] in H; [|discriminate].
  destruct (mapM _ kv) as [vals|] eqn:Ev; cbn [bind] in H; [|discriminate].
  inversion H; subst; clear H. cbn [attributes].
  apply kv_spec in Ev.
  assert (Forall2 (fun x y => fst y = fst x /\ exists e, denotes parse (snd x) = Some e /\
     forall env, val env (snd y) = val (argument_values d env) e) kv (map (fun x => (fst x, fst (snd x))) vals)) as F.
  { clear Ec. induction Ev as [|[k v] [k' [u fu]] l l' [X Y] A IH]; cbn [map]; constructor; auto.
    cbn [fst snd] in *. split; [exact X|].
    destruct (checkval_spec _ _ _ _ _ N P Y) as (e & D & -> & _).
    exists e. split; [exact D|]. intro env. apply val_xreplace, P. }
  split; [|exact F].
  clear - F. induction F as [|x y l l' [X _] F IH]; cbn [map]; [reflexivity|congruence].
Qed.

Lemma component_values : forall d n kv ch o, names_are_symbols parse d -> parameters d -> lincomb n = true ->
  init_V_SRF parse d (Props n kv ch) = Ok o ->
  Forall2 (fun x y => (exists e, denotes parse (fst x) = Some e /\
                        forall env, val env (fst y) = val (argument_values d env) e) /\
                      init_V_SRF parse [] (snd x) = Ok (snd y)) ch (components o).
Proof.
  intros d n kv ch o N P L H. rewrite init_eq, L in H.
  destruct (comps d ch) as [[cs f]|] eqn:Ec; cbn [bind] in H; [|discriminate].
  destruct (mapM _ kv) as [vals|] eqn:Ev; cbn [bind] in H; [|discriminate].
  inversion H; subst; clear H. cbn [components fst].
  destruct (comps_spec _ _ _ _ Ec) as [A _].
  clear - A N P. induction A as [|x y l l' [[fu [X Y]] Z] A IH]; constructor; auto.
  split; [|exact Z]. destruct (checkval_spec _ _ _ _ _ N P X) as (e & D & E & _).
  exists e. split; [exact D|]. intro env. rewrite E. apply val_xreplace, P.
Qed.


Lemma key_ignored : forall w, not_counted (match w with VStr s => s | VNum _ => "" end) <-> exists k, w = VStr k /\ not_counted k.
Proof.
  intros [s|q]; split.
  - intro H; exists s; auto.
  - intros [k [E H]]; inversion E; subst; auto.
  - intro H; unfold not_counted in H; cbn in H; exfalso; intuition discriminate.
  - intros [k [E _]]; discriminate.
Qed.

Lemma comps_symbols : forall d, names_are_symbols parse d -> parameters d -> forall ch cs f, comps d ch = Ok (cs, f) ->
  forall t, In t f <-> exists w q u s, In ((w, q), (u, s)) (combine ch cs) /\
       ~ (exists k, w = VStr k /\ not_counted k) /\ occurs t u.
Proof.
  intros d N P ch; induction ch as [|[w q] ch IH]; intros cs f H t; cbn [comps] in H.
  - inversion H; subst. split; [intros []|intros (?&?&?&?&[]&_)].
  - fold (comps d) in H.
    destruct (checkval parse d _ w) as [[u fu]|] eqn:E; cbn [bind] in H; [|discriminate].
    destruct (init_V_SRF parse [] q) as [o|] eqn:Eo; cbn [bind] in H; [|discriminate].
    destruct (comps d ch) as [[cs' f']|] eqn:Er; cbn [bind] in H; [|discriminate].
    cbn [fst snd] in H. inversion H; subst; clear H.
    destruct (checkval_spec _ _ _ _ _ N P E) as (e & _ & _ & F).
    rewrite in_app_iff, F, (IH _ _ eq_refl), key_ignored. cbn [combine In]. split.
    + intros [[A B]|(w' & q' & u' & s' & I & R)].
      * exists w, q, u, o; auto.
      * exists w', q', u', s'; auto.
    + intros (w' & q' & u' & s' & [I|I] & R).
      * inversion I; subst. left; auto.
      * right. exists w', q', u', s'; auto.
Qed.

Lemma kv_symbols : forall d, names_are_symbols parse d -> parameters d -> forall kv vals,
  mapM (fun x => do u <- checkval parse d (fst x) (snd x); Ok (fst x, u)) kv = Ok vals ->
  forall t, In t (flat_map (fun x => snd (snd x)) vals) <->
    exists k u, In (k, u) (map (fun x => (fst x, fst (snd x))) vals) /\ ~ not_counted k /\ occurs t u.
Proof.
  intros d N P kv vals H t. apply kv_spec in H.
  induction H as [|[k v] [k' [u fu]] l l' [X Y] A IH]; cbn [flat_map map].
  - split; [intros []|intros (?&?&[]&_)].
  - cbn [fst snd] in *. subst k'. destruct (checkval_spec _ _ _ _ _ N P Y) as (e & _ & _ & F).
    rewrite in_app_iff, F, IH. cbn [In]. split.
    + intros [[B C]|(k1 & u1 & I & R)]; [exists k, u; auto|exists k1, u1; auto].
    + intros (k1 & u1 & [I|I] & R); [inversion I; subst; auto|right; exists k1, u1; auto].
Qed.

Lemma symbols_spec : forall d n kv ch o, names_are_symbols parse d -> parameters d ->
  init_V_SRF parse d (Props n kv ch) = Ok o ->
  forall t, In t (symbols o) <->
    (exists k u, In (k, u) (attributes o) /\ ~ not_counted k /\ occurs t u) \/
    (exists w q u s, In ((w, q), (u, s)) (combine ch (components o)) /\
       ~ (exists k, w = VStr k /\ not_counted k) /\ occurs t u).
Proof.
  intros d n kv ch o N P H t. rewrite init_eq in H.
  destruct (if lincomb n then comps d ch else Ok ([], [])) as [[cs f]|] eqn:Ec; cbn [bind] in H; [|discriminate].
  destruct (mapM _ kv) as [vals|] eqn:Ev; cbn [bind] in H; [|discriminate].
  inversion H; subst; clear H. cbn [attributes components symbols fst snd].
  rewrite in_app_iff, (kv_symbols d N P kv vals Ev).
  assert (In t f <-> exists w q u s, In ((w, q), (u, s)) (combine ch cs) /\
       ~ (exists k, w = VStr k /\ not_counted k) /\ occurs t u) as F.
  { destruct (lincomb n); [apply (comps_symbols d N P), Ec|]. inversion Ec; subst.
    destruct ch; (split; [intros []|intros (?&?&?&?&[]&_)]). }
  rewrite F. tauto.
Qed.

(** ** the inverse *)
Variable show : sx -> string.
Variable num_op : string -> Q -> Q -> Q.
Hypothesis exact_ops : forall o a b, Q2R (num_op o a b) = op o (Q2R a) (Q2R b).
Hypothesis op_add : forall x y, op "+" x y = (x + y)%R.
Hypothesis op_mul : forall x y, op "*" x y = (x * y)%R.

(** value of a Python value that is no string *)
Definition sval (env : string -> R) (v : sv) : option R :=
  match to_sx v with Some e => Some (val env e) | None => None end.

Lemma Q2R_inject : forall z, Q2R (inject_Z z) = IZR z.
Proof. intro z. unfold Q2R, inject_Z. cbn. field. Qed.

Lemma sv_op_val : forall o x y env a b, sval env x = Some a -> sval env y = Some b ->
  exists v, sv_op num_op o x y = Ok v /\ sval env v = Some (op o a b).
Proof.
  intros o x y env a b A B.
  destruct x, y; unfold sval in *; cbn in *; try discriminate; inversion A; inversion B; subst; clear A B;
    eexists; (split; [reflexivity|]); cbn; rewrite ?exact_ops; reflexivity.
Qed.
Lemma sv_add_val : forall x y env a b, sval env x = Some a -> sval env y = Some b ->
  exists v, sv_add num_op x y = Ok v /\ sval env v = Some (op "+" a b).
Proof.
  intros x y env a b A B.
  destruct x, y; try (apply sv_op_val; assumption); unfold sval in *; cbn [to_sx] in *; try discriminate.
  inversion A; inversion B; subst; clear A B. eexists; split; [reflexivity|].
  cbn [to_sx Ini_Spec.val]. rewrite op_add, !Q2R_inject, plus_IZR. reflexivity.
Qed.
Lemma sv_mul_val : forall x y env a b, sval env x = Some a -> sval env y = Some b ->
  exists v, sv_mul num_op x y = Ok v /\ sval env v = Some (op "*" a b).
Proof.
  intros x y env a b A B.
  destruct x, y; try (apply sv_op_val; assumption); unfold sval in *; cbn [to_sx] in *; try discriminate.
  inversion A; inversion B; subst; clear A B. eexists; split; [reflexivity|].
  cbn [to_sx Ini_Spec.val]. rewrite op_mul, !Q2R_inject, mult_IZR. reflexivity.
Qed.
Lemma sv_fun_val : forall f x env a, sval env x = Some a ->
  exists v, sv_fun parse f x = Ok v /\ sval env v = Some (fn f a).
Proof.
  intros f x env a A.
  destruct x; unfold sval in *; cbn in *; try discriminate; inversion A; subst; clear A;
    eexists; (split; [reflexivity|]); reflexivity.
Qed.

Lemma direct_val : forall d env e, parameters d ->
  exists v, direct_attribute parse num_op d e = Ok v /\
            sval env v = Some (meant op fn (argument_values d env) e).
Proof.
  intros d env e P. unfold direct_attribute.
  induction e as [s|z|q|a [x [Hx Vx]] b [y [Hy Vy]]|a [x [Hx Vx]] b [y [Hy Vy]]|o a [x [Hx Vx]] b [y [Hy Vy]]|f a [x [Hx Vx]]];
    cbn [body meant].
  - eexists; split; [reflexivity|]. unfold argument_values.
    destruct (dget string_dec s d) as [v|] eqn:E; [|reflexivity].
    destruct (P s v (dget_In _ _ _ E)) as [->|[q ->]]; reflexivity.
  - eexists; split; [reflexivity|]. unfold sval; cbn. rewrite Q2R_inject. reflexivity.
  - eexists; split; reflexivity.
  - rewrite Hx, Hy. cbn [bind]. apply sv_add_val; assumption.
  - rewrite Hx, Hy. cbn [bind]. apply sv_mul_val; assumption.
  - rewrite Hx, Hy. cbn [bind]. apply sv_op_val; assumption.
  - rewrite Hx. cbn [bind]. apply sv_fun_val; assumption.
Qed.

(** the value for the names *)
Definition shaped (sh : shape) (env : string -> R) (e : px) (v : sv) : Prop :=
  match sh with
  | Bare => exists s, e = XVar s /\ v = WStr s
  | Numeral => (exists z, v = WInt z) \/ (exists q, v = WFlt q)
  | Symbolic => exists x, v = WSym x
  end /\ (sh <> Bare -> sval env v = Some (meant op fn env e)).

Lemma shape2_inv : forall x y z, shape2 x y = Some z ->
  exists a b, x = Some a /\ y = Some b /\ a <> Bare /\ b <> Bare /\
    z = match a, b with Numeral, Numeral => Numeral | _, _ => Symbolic end.
Proof.
  intros [[]|] [[]|] z H; cbn in H; try discriminate; inversion H; subst; eexists _, _; repeat split; congruence.
Qed.

Lemma shaped_op : forall (f : sv -> sv -> res sv) (o : string) sa sb env a b e x y,
  (forall u v r, f u v = Ok r -> (exists t, u = WSym t) \/ (exists t, v = WSym t) ->
     (forall s, u <> WStr s) -> (forall s, v <> WStr s) -> exists t, r = WSym t) ->
  (forall u v r, f u v = Ok r -> (exists z, u = WInt z) \/ (exists q, u = WFlt q) ->
     (exists z, v = WInt z) \/ (exists q, v = WFlt q) -> (exists z, r = WInt z) \/ (exists q, r = WFlt q)) ->
  (forall x y c d, sval env x = Some c -> sval env y = Some d -> exists v, f x y = Ok v /\ sval env v = Some (op o c d)) ->
  meant op fn env e = op o (meant op fn env a) (meant op fn env b) ->
  sa <> Bare -> sb <> Bare -> shaped sa env a x -> shaped sb env b y ->
  exists v, f x y = Ok v /\ shaped (match sa, sb with Numeral, Numeral => Numeral | _, _ => Symbolic end) env e v.
Proof.
  intros f o sa sb env a b e x y Fs Fn Fv M Na Nb [Ha Va] [Hb Vb].
  destruct (Fv x y _ _ (Va Na) (Vb Nb)) as [v [E V]]. exists v. split; [exact E|].
  assert (forall s, x <> WStr s) as Nx by (intros s ->; specialize (Va Na); discriminate).
  assert (forall s, y <> WStr s) as Ny by (intros s ->; specialize (Vb Nb); discriminate).
  split; [|intros _; rewrite M; exact V].
  destruct sa, sb; try congruence; cbn in Ha, Hb |- *.
  - apply (Fn _ _ _ E); assumption.
  - apply (Fs _ _ _ E); auto.
  - apply (Fs _ _ _ E); auto.
  - apply (Fs _ _ _ E); auto.
Qed.

Lemma op_sym : forall o u v r, sv_op num_op o u v = Ok r -> (exists t, u = WSym t) \/ (exists t, v = WSym t) ->
     (forall s, u <> WStr s) -> (forall s, v <> WStr s) -> exists t, r = WSym t.
Proof.
  intros o u v r H K Nu Nv. destruct u, v; cbn in H; try discriminate; inversion H; subst; eauto;
    destruct K as [[t K]|[t K]]; discriminate.
Qed.
Lemma op_num : forall o u v r, sv_op num_op o u v = Ok r -> (exists z, u = WInt z) \/ (exists q, u = WFlt q) ->
     (exists z, v = WInt z) \/ (exists q, v = WFlt q) -> (exists z, r = WInt z) \/ (exists q, r = WFlt q).
Proof.
  intros o u v r H [[z ->]|[q ->]] [[z' ->]|[q' ->]]; cbn in H; inversion H; subst; eauto.
Qed.

Lemma shaped_body : forall env e sh, (forall s, In s (variables e) -> parse s = Some (SSym s)) ->
  shape_of e = Some sh -> exists v, body parse num_op WStr e = Ok v /\ shaped sh env e v.
Proof.
  intros env e; induction e as [s|z|q|a IHa b IHb|a IHa b IHb|o a IHa b IHb|f a IHa]; intros sh V H;
    cbn [shape_of body variables] in *.
  - inversion H; subst. eexists; split; [reflexivity|]. split; [exists s; auto|congruence].
  - inversion H; subst. eexists; split; [reflexivity|]. split; [eauto|]. intros _. unfold sval; cbn. rewrite Q2R_inject. reflexivity.
  - inversion H; subst. eexists; split; [reflexivity|]. split; [eauto|]. reflexivity.
  - apply shape2_inv in H. destruct H as (sa & sb & Ea & Eb & Na & Nb & ->).
    destruct (IHa sa) as [x [Hx Sx]]; [intros; apply V, in_or_app; auto|exact Ea|].
    destruct (IHb sb) as [y [Hy Sy]]; [intros; apply V, in_or_app; auto|exact Eb|].
    rewrite Hx, Hy. cbn [bind]. apply (shaped_op _ "+" sa sb env a b); try assumption; try reflexivity.
    + intros u v r E K Nu Nv. destruct u, v; try (exact (op_sym "+" _ _ _ E K Nu Nv)); exfalso.
      * eapply Nu; reflexivity.
      * destruct K as [[t K]|[t K]]; discriminate.
    + intros u v r E K L. destruct u, v; try (exact (op_num "+" _ _ _ E K L)); cbn in E; inversion E; subst; eauto.
      destruct K as [[t K]|[t K]]; discriminate.
    + intros; apply sv_add_val; assumption.
  - apply shape2_inv in H. destruct H as (sa & sb & Ea & Eb & Na & Nb & ->).
    destruct (IHa sa) as [x [Hx Sx]]; [intros; apply V, in_or_app; auto|exact Ea|].
    destruct (IHb sb) as [y [Hy Sy]]; [intros; apply V, in_or_app; auto|exact Eb|].
    rewrite Hx, Hy. cbn [bind]. apply (shaped_op _ "*" sa sb env a b); try assumption; try reflexivity.
    + intros u v r E K Nu Nv. destruct u, v; try (exact (op_sym "*" _ _ _ E K Nu Nv)); exfalso;
        try (eapply Nu; reflexivity); try (eapply Nv; reflexivity).
      destruct K as [[t K]|[t K]]; discriminate.
    + intros u v r E K L. destruct u, v; try (exact (op_num "*" _ _ _ E K L)); cbn in E; inversion E; subst; eauto.
      * destruct K as [[t K]|[t K]]; discriminate.
      * destruct L as [[t L]|[t L]]; discriminate.
    + intros; apply sv_mul_val; assumption.
  - apply shape2_inv in H. destruct H as (sa & sb & Ea & Eb & Na & Nb & ->).
    destruct (IHa sa) as [x [Hx Sx]]; [intros; apply V, in_or_app; auto|exact Ea|].
    destruct (IHb sb) as [y [Hy Sy]]; [intros; apply V, in_or_app; auto|exact Eb|].
    rewrite Hx, Hy. cbn [bind]. apply (shaped_op _ o sa sb env a b); try assumption; try reflexivity.
    + apply op_sym.
    + apply op_num.
    + intros; apply sv_op_val; assumption.
  - destruct (shape_of a) as [sa|] eqn:Ea; [|discriminate]. inversion H; subst.
    destruct (IHa sa V eq_refl) as [x [Hx Sx]]. rewrite Hx. cbn [bind].
    destruct sa; destruct Sx as [Sx Vx].
    + destruct Sx as [s [-> ->]]. cbn. rewrite (V s); [|left; reflexivity].
      eexists; split; [reflexivity|]. split; [eauto|reflexivity].
    + specialize (Vx ltac:(discriminate)). destruct (sv_fun_val f x env _ Vx) as [v [E Q]].
      exists v. split; [exact E|]. split; [|intros _; exact Q].
      destruct Sx as [[z ->]|[q ->]]; cbn in E; inversion E; eauto.
    + specialize (Vx ltac:(discriminate)). destruct (sv_fun_val f x env _ Vx) as [v [E Q]].
      exists v. split; [exact E|]. split; [|intros _; exact Q].
      destruct Sx as [t ->]; cbn in E; inversion E; eauto.
Qed.


Lemma loaded_val : forall d k env e, names_are_symbols parse d -> parameters d ->
  (forall s, In s (variables e) -> parse s = Some (SSym s)) -> shape_of e <> None ->
  (forall x, body parse num_op WStr e = Ok (WSym x) -> parse (show x) = Some x) ->
  exists u, loaded_attribute parse show num_op d k e = Ok u /\
            val env u = meant op fn (argument_values d env) e.
Proof.
  intros d k env e N P V S show_parse. destruct (shape_of e) as [sh|] eqn:Es; [clear S|congruence].
  destruct (shaped_body (argument_values d env) e sh V Es) as [v [B [K W]]].
  unfold loaded_attribute, stored_attribute. rewrite B. cbn [bind].
  destruct (checkval parse d k (init_value show v)) as [[u f]|er] eqn:E; cbn [bind fst].
  - exists u. split; [reflexivity|]. destruct (checkval_spec _ _ _ _ _ N P E) as (x & D & -> & _).
    rewrite val_xreplace by exact P. destruct sh.
    + destruct K as [s [-> ->]]. cbn in D. rewrite (V s) in D by (left; reflexivity). inversion D; subst. reflexivity.
    + specialize (W ltac:(discriminate)). destruct K as [[z ->]|[q ->]]; cbn in D, W; inversion D; subst; unfold sval in W; cbn in *; congruence.
    + specialize (W ltac:(discriminate)). destruct K as [t ->]. cbn in D. rewrite (show_parse t B) in D. inversion D; subst.
      unfold sval in W; cbn in W. congruence.
  - exfalso. destruct sh.
    + destruct K as [s [-> ->]]. cbn in E. destruct (dget string_dec s d); [discriminate|].
      rewrite (V s) in E by (left; reflexivity). discriminate.
    + destruct K as [[z ->]|[q ->]]; discriminate.
    + destruct K as [t ->]. cbn in E. destruct (dget string_dec (show t) d); [discriminate|]. rewrite (show_parse t B) in E. discriminate.
Qed.
End P.
End S.

(** ** literal_eval *)
Section PyvInd.
Variable Q : pyv -> Prop.
Hypothesis Hl : forall l, (forall x, In x l -> Q x) -> Q (PList l).
Hypothesis Ht : forall l, (forall x, In x l -> Q x) -> Q (PTuple l).
Hypothesis Ha : forall l, (forall x, In x l -> Q x) -> Q (PArray l).
Hypothesis Hd : forall l, (forall x y, In (x, y) l -> Q x /\ Q y) -> Q (PDict l).
Hypothesis H0 : forall v, match v with PList _ | PTuple _ | PArray _ | PDict _ => True | _ => Q v end.
Fixpoint pyv_deep (v : pyv) : Q v.
Proof.
  destruct v as [|b|z|q|n| |s|l|l|l|l|s]; try exact (H0 _ : Q _).
  - exact (H0 PNone).
  - exact (H0 (PBool b)).
  - exact (H0 (PInt z)).
  - exact (H0 (PFloat q)).
  - exact (H0 (PInf n)).
  - exact (H0 PNan).
  - exact (H0 (PStr s)).
  - apply Hl. induction l as [|a l IH]; [intros x []|]. pose proof (pyv_deep a) as Pa. intros x [E|I]; [rewrite <- E; exact Pa|apply IH; exact I].
  - apply Ht. induction l as [|a l IH]; [intros x []|]. pose proof (pyv_deep a) as Pa. intros x [E|I]; [rewrite <- E; exact Pa|apply IH; exact I].
  - apply Hd. induction l as [|[a b] l IH]; [intros x y []|]. pose proof (pyv_deep a) as Pa. pose proof (pyv_deep b) as Pb. intros x y [E|I]; [inversion E; subst; auto|apply IH; exact I].
  - apply Ha. induction l as [|a l IH]; [intros x []|]. pose proof (pyv_deep a) as Pa. intros x [E|I]; [rewrite <- E; exact Pa|apply IH; exact I].
  - exact (H0 (PDate s)).
Defined.
End PyvInd.

Definition read_list :=
  fix go (l : list ast) : res (list pyv) :=
    match l with [] => Ok [] | x :: r => do y <- literal_eval x; do ys <- go r; Ok (y :: ys) end.
Definition read_pairs :=
  fix go (l : list (ast * ast)) : res (list (pyv * pyv)) :=
    match l with
    | [] => Ok []
    | (k, v) :: r => do x <- literal_eval k; do y <- literal_eval v; do ys <- go r; Ok ((x, y) :: ys)
    end.

Definition reads (v : pyv) : Prop :=
  (literal v /\ literal_eval (written v) = Ok v) \/ (~ literal v /\ literal_eval (written v) = Err ValueError).

Lemma read_list_spec : forall l, (forall x, In x l -> reads x) ->
  ((forall x, In x l -> literal x) /\ read_list (map written l) = Ok l) \/
  (~ (forall x, In x l -> literal x) /\ read_list (map written l) = Err ValueError).
Proof.
  induction l as [|a l IH]; intro H; [left; split; [intros x []|reflexivity]|].
  cbn [map read_list]. fold read_list.
  destruct (H a (or_introl eq_refl)) as [[La Ea]|[La Ea]]; rewrite Ea; cbn [bind].
  - destruct IH as [[L E]|[L E]]; [intros; apply H; right; assumption| |]; rewrite E; cbn [bind].
    + left. split; [|reflexivity]. intros x [<-|I]; auto.
    + right. split; [|reflexivity]. intro A. apply L. intros; apply A; right; assumption.
  - right. split; [|reflexivity]. intro A. apply La, A. left; reflexivity.
Qed.
Lemma read_pairs_spec : forall l, (forall x y, In (x, y) l -> reads x /\ reads y) ->
  ((forall x y, In (x, y) l -> literal x /\ literal y) /\ read_pairs (map (fun p => (written (fst p), written (snd p))) l) = Ok l) \/
  (~ (forall x y, In (x, y) l -> literal x /\ literal y) /\ read_pairs (map (fun p => (written (fst p), written (snd p))) l) = Err ValueError).
Proof.
  induction l as [|[a b] l IH]; intro H; [left; split; [intros x y []|reflexivity]|].
  cbn [map read_pairs fst snd]. fold read_pairs.
  destruct (H a b (or_introl eq_refl)) as [[[La Ea]|[La Ea]] Rb]; rewrite Ea; cbn [bind].
  - destruct Rb as [[Lb Eb]|[Lb Eb]]; rewrite Eb; cbn [bind].
    + destruct IH as [[L E]|[L E]]; [intros; apply H; right; assumption| |]; rewrite E; cbn [bind].
      * left. split; [|reflexivity]. intros x y [I|I]; [inversion I; subst; auto|auto].
      * right. split; [|reflexivity]. intro A. apply L. intros; apply A; right; assumption.
    + right. split; [|reflexivity]. intro A. apply Lb, (A a b). left; reflexivity.
  - right. split; [|reflexivity]. intro A. apply La, (A a b). left; reflexivity.
Qed.

Lemma reads_all : forall v, reads v.
Proof.
  apply pyv_deep.
  - intros l H. unfold reads. change (literal_eval (written (PList l))) with (do r <- read_list (map written l); Ok (PList r)).
    destruct (read_list_spec l H) as [[L E]|[L E]]; rewrite E; cbn [bind].
    + left. split; [constructor; exact L|reflexivity].
    + right. split; [inversion 1; auto|reflexivity].
  - intros l H. unfold reads. change (literal_eval (written (PTuple l))) with (do r <- read_list (map written l); Ok (PTuple r)).
    destruct (read_list_spec l H) as [[L E]|[L E]]; rewrite E; cbn [bind].
    + left. split; [constructor; exact L|reflexivity].
    + right. split; [inversion 1; auto|reflexivity].
  - intros l _. right. split; [inversion 1|reflexivity].
  - intros l H. unfold reads.
    change (literal_eval (written (PDict l))) with (do r <- read_pairs (map (fun p => (written (fst p), written (snd p))) l); Ok (PDict r)).
    destruct (read_pairs_spec l H) as [[L E]|[L E]]; rewrite E; cbn [bind].
    + left. split; [constructor; exact L|reflexivity].
    + right. split; [inversion 1; auto|reflexivity].
  - intros [|b|z|q|n| |s|l|l|l|l|s]; auto; unfold reads; try (left; split; [constructor|reflexivity]).
    + left. split; [constructor|]. cbn. destruct (Z.ltb z 0); cbn; [rewrite Z.opp_involutive|]; reflexivity.
    + left. split; [constructor|]. cbn. destruct q as [n d]. cbn [Qnum]. destruct (Z.ltb n 0); cbn; [|reflexivity].
      unfold Qopp. cbn. rewrite Z.opp_involutive. reflexivity.
    + right. split; [inversion 1|]. destruct n; reflexivity.
    + right. split; [inversion 1|]. reflexivity.
    + right. split; [inversion 1|]. reflexivity.
Qed.

Lemma prefix_app_self : forall s r, prefix s (s ++ r)%string = true.
Proof. induction s as [|c s IH]; intro r; [destruct r; reflexivity|]. cbn [prefix append]. destruct (Ascii.ascii_dec c c); [apply IH|congruence]. Qed.
Lemma combination_lincomb : forall n, combination n -> lincomb n = true.
Proof. intros n [r [-> | ->]]; unfold lincomb; rewrite prefix_app_self; [reflexivity|apply orb_true_r]. Qed.
