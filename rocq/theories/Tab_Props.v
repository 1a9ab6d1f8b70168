(** C161: tables of metrics *)
From Coq Require Import Arith Bool Ascii String List Lia.
From Verif Require Import Base Base_Proofs Str_Model Str_Proofs Tab_Model Tab_Spec.
Import ListNotations.
Local Open Scope string_scope.
Local Open Scope list_scope.

Section Ind.
Variable P : mval -> Prop.
Hypothesis PF : forall t, P (MFloat t).
Hypothesis PI : forall t, P (MInt t).
Hypothesis PO : P MOther.
Hypothesis PD : forall d, (forall k v, In (k, v) d -> P v) -> P (MDict d).
Fixpoint mval_ind2 (v : mval) : P v :=
  match v with
  | MFloat t => PF t
  | MInt t => PI t
  | MOther => PO
  | MDict d => PD d ((fix go (d : list (string * mval)) : forall k v, In (k, v) d -> P v :=
      match d with
      | [] => fun k v (H : In (k, v) []) => match H with end
      | (k0, v0) :: r => fun k v (H : In (k, v) ((k0, v0) :: r)) => match H with
                         | or_introl E => match E in _ = q return P (snd q) with eq_refl => mval_ind2 v0 end
                         | or_intror H' => go r k v H' end
      end) d)
  end.
End Ind.

Lemma text_app a b : text (a ++ b) = (text a ++ text b)%string.
Proof.
  unfold text. induction a as [|x a IH]; [reflexivity|].
  assert (C : forall y l, String.concat "" (y :: l) = (y ++ String.concat "" l)%string) by (intros y [|z l]; cbn; [now rewrite sapp_nil_r|reflexivity]).
  cbn [app map]. rewrite !C, IH. now rewrite !sapp_assoc.
Qed.
Lemma text_cons x a : text (x :: a) = (x ++ nl ++ text a)%string.
Proof. change (x :: a) with ([x] ++ a). rewrite text_app. cbn. now rewrite sapp_assoc. Qed.

Lemma entries_eq depth d : (forall k v, In (k, v) d -> forall key, entry depth key v = if Nat.leb (depth + height v) 6 then Ok (text (map line (listing1 depth key v))) else Err ValueError) ->
  entries depth d = if Nat.leb (depth + heights d) 6 || match d with [] => true | _ => false end then Ok (text (map line (listing depth d))) else Err ValueError.
Proof.
  induction d as [|[k v] d IH]; intros H; [cbn; now rewrite orb_true_r|]. cbn [entries fst snd]. rewrite (H k v (or_introl eq_refl)), IH by (intros k' v' I; apply (H k' v'); now right). clear IH.
  rewrite orb_false_r. cbn [heights fold_right snd]. fold (heights d). destruct (Nat.leb_spec (depth + height v) 6) as [L|L]; cbn [bind].
  - destruct d as [|p d].
    + rewrite orb_true_r. cbn [bind]. cbn [heights fold_right]. replace (Nat.leb (depth + Nat.max (height v) 0) 6) with true by (symmetry; apply Nat.leb_le; lia).
      cbn. now rewrite !app_nil_r, sapp_nil_r.
    + rewrite orb_false_r. destruct (Nat.leb_spec (depth + heights (p :: d)) 6) as [M|M]; cbn [bind].
      * replace (Nat.leb (depth + Nat.max (height v) (heights (p :: d))) 6) with true by (symmetry; apply Nat.leb_le; lia).
        f_equal. change (listing depth ((k, v) :: p :: d)) with (listing1 depth k v ++ listing depth (p :: d)). now rewrite map_app, text_app.
      * replace (Nat.leb (depth + Nat.max (height v) (heights (p :: d))) 6) with false by (symmetry; apply Nat.leb_gt; lia). reflexivity.
  - replace (Nat.leb (depth + Nat.max (height v) (heights d)) 6) with false by (symmetry; apply Nat.leb_gt; lia). reflexivity.
Qed.
Lemma height_dict d : height (MDict d) = match d with [] => 0 | _ => S (heights d) end.
Proof.
  cbn [height]. induction d as [|[k v] d IH]; [reflexivity|]. cbn [fold_right snd heights]. rewrite IH. destruct d as [|p d]; [cbn; now rewrite Nat.max_0_r|]. fold (heights (p :: d)). lia.
Qed.
Lemma entry_eq v : forall depth key, entry depth key v = if Nat.leb (depth + height v) 6 then Ok (text (map line (listing1 depth key v))) else Err ValueError.
Proof.
  induction v as [t|t| |d IH] using mval_ind2; intros depth key.
  - cbn [entry height listing1 map]. rewrite Nat.add_0_r. destruct (Nat.ltb_spec 13 (2 * depth)), (Nat.leb_spec depth 6); try lia; [reflexivity|]. cbn [text map line]. cbn [String.concat]. f_equal. cbn. now rewrite !sapp_assoc.
  - cbn [entry height listing1 map]. rewrite Nat.add_0_r. destruct (Nat.ltb_spec 13 (2 * depth)), (Nat.leb_spec depth 6); try lia; [reflexivity|]. cbn [text map line]. cbn [String.concat]. f_equal. cbn. now rewrite !sapp_assoc.
  - cbn [entry height listing1 map]. rewrite Nat.add_0_r. destruct (Nat.ltb_spec 13 (2 * depth)), (Nat.leb_spec depth 6); try lia; reflexivity.
  - cbn [entry]. match goal with |- context [bind (?F d)] => assert (EE : forall d, F d = entries (S depth) d) by (clear; induction d as [|kv d IHd]; [reflexivity|]; cbn [entries]; rewrite <- IHd; reflexivity); rewrite EE; clear EE end.
    rewrite (entries_eq (S depth) d) by (intros k v I; now apply (IH k v)). rewrite height_dict.
    destruct (Nat.ltb_spec 13 (2 * depth)) as [L|L].
    + destruct (Nat.leb_spec (depth + match d with [] => 0 | _ :: _ => S (heights d) end) 6); [lia|reflexivity].
    + assert (E : Nat.leb (S depth + heights d) 6 || match d with [] => true | _ => false end = Nat.leb (depth + match d with [] => 0 | _ :: _ => S (heights d) end) 6).
      { destruct d as [|p d]; [rewrite orb_true_r; symmetry; apply Nat.leb_le; lia|]. rewrite orb_false_r. f_equal. lia. }
      rewrite E. clear E. destruct (Nat.leb _ 6); [|reflexivity]. cbn [bind]. f_equal. cbn [listing1 map]. rewrite text_cons. cbn [line]. unfold listing. now rewrite !sapp_assoc.
Qed.

(** The printed table has the header and then, for every number and every sub-dict, one line, in the order of the dict with every
    sub-dict below its name; dicts that are nested too deep (more than 6 levels) are a ValueError. *)
Theorem C161_table : forall d, table d = if Nat.leb (heights d) 6 then Ok (text (header ++ map line (listing 0 d))) else Err ValueError.
Proof.
  intros d. unfold table. rewrite (entries_eq 0 d) by (intros k v _ key; apply entry_eq). cbn [Nat.add].
  replace (Nat.leb (heights d) 6 || match d with [] => true | _ => false end) with (Nat.leb (heights d) 6) by (destruct d; [reflexivity|now rewrite orb_false_r]).
  destruct (Nat.leb (heights d) 6); [|reflexivity]. cbn [bind]. rewrite text_app. reflexivity.
Qed.
Print Assumptions C161_table.
Definition eg : list (string * mval) := [("pearson", MFloat "0.5"); ("linregress", MDict [("slope", MFloat "1.0"); ("extra", MDict [("n", MInt "3")])]); ("none", MOther)].
Example C161_example : exists s, table eg = Ok s /\ listing 0 eg = [(0, "pearson", Number "0.5"); (0, "linregress", Heading); (1, "slope", Number "1.0"); (1, "extra", Heading); (2, "n", Number "3")] /\
  split_char "010"%char s = ["----------- METRICS -----------"; "     METRIC   |     VALUE     |"; " pearson      | 0.5           |"; " linregress   |               |";
                        " --slope      | 1.0           |"; " --extra      |               |"; " ----n        | 3             |"; ""].
Proof. eexists. split; [reflexivity|]. split; reflexivity. Qed.

(** ** columns *)
Lemma times_length n s : String.length (times n s) = n * String.length s.
Proof. induction n; [reflexivity|]. cbn [times]. rewrite slength_app, IHn. lia. Qed.
Lemma ljust_length n s : String.length (ljust n s) = Nat.max n (String.length s).
Proof. unfold ljust. rewrite slength_app, times_length. cbn. lia. Qed.
Lemma get_app_r a b n : String.get (String.length a + n) (a ++ b) = String.get n b.
Proof. induction a as [|c a IH]; [reflexivity|exact IH]. Qed.
Lemma get_app_l a b n : n < String.length a -> String.get n (a ++ b) = String.get n a.
Proof. revert n. induction a as [|c a IH]; intros [|n] H; cbn in *; try lia; [reflexivity|]. apply IH. lia. Qed.
Lemma get_no_bar s n : no_bar s -> String.get n s <> Some "|"%char.
Proof. revert n. induction s as [|c s IH]; intros [|n] H; cbn in *; try discriminate; [|now apply IH]. destruct H. congruence. Qed.

(** A line has its bars in the columns of the header exactly if key and number are not too long. *)
Theorem C161_aligned : forall depth key c, depth <= 6 -> no_bar key -> (aligned (line (depth, key, c)) <-> fits (depth, key, c)).
Proof.
  intros depth key c D NB. unfold aligned, fits, line.
  assert (A : forall r, (" " ++ times depth "--" ++ r)%string = ((" " ++ times depth "--") ++ r)%string) by (intros r; now rewrite sapp_assoc).
  assert (L : String.length (" " ++ times depth "--") = 1 + 2 * depth) by (rewrite slength_app, times_length; cbn; lia).
  rewrite A. set (p := (" " ++ times depth "--")%string) in *. clearbody p. clear A.
  assert (B : forall w, String.length key <= 13 - 2 * depth -> String.get 14 (p ++ ljust (13 - 2 * depth) key ++ "|" ++ w) = Some "|"%char).
  { intros w H. replace 14 with (String.length p + (String.length (ljust (13 - 2 * depth) key) + 0)) by (rewrite ljust_length; lia). rewrite !get_app_r. reflexivity. }
  destruct c as [t|].
  - change "| " with ("|" ++ " ")%string. rewrite !sapp_assoc. split.
    + intros (S1 & _ & _). rewrite !slength_app, !ljust_length in S1. cbn [String.length] in S1. lia.
    + intros [K T]. split; [rewrite !slength_app, !ljust_length; cbn [String.length]; lia|]. split.
      * now apply B.
      * replace 30 with (String.length p + (String.length (ljust (13 - 2 * depth) key) + (1 + (1 + (String.length (ljust 14 t) + 0))))) by (rewrite !ljust_length; lia).
        rewrite !get_app_r. cbn [append Nat.add String.get]. rewrite get_app_r. reflexivity.
  - split.
    + intros (S1 & G & _). split; [|exact I]. destruct (le_gt_dec (String.length key) (13 - 2 * depth)) as [H|H]; [exact H|]. exfalso.
      replace 14 with (String.length p + (13 - 2 * depth)) in G by lia. rewrite get_app_r in G. unfold ljust at 1 in G. rewrite !sapp_assoc in G. unfold ljust in G. rewrite sapp_assoc in G.
      rewrite get_app_l in G by lia. now apply get_no_bar in G.
    + intros [K _]. split; [rewrite !slength_app, !ljust_length, slength_app, ljust_length; cbn [String.length]; lia|]. split.
      * unfold ljust at 1. rewrite !sapp_assoc. now apply B.
      * assert (X : String.length (ljust (29 - 2 * depth) (ljust (13 - 2 * depth) key ++ "|")) = 29 - 2 * depth) by (rewrite ljust_length, slength_app, ljust_length; cbn [String.length]; lia).
        replace 30 with (String.length p + (String.length (ljust (29 - 2 * depth) (ljust (13 - 2 * depth) key ++ "|")) + 0)) by (rewrite X; lia). rewrite !get_app_r. reflexivity.
Qed.
Print Assumptions C161_aligned.
Example C161_example_aligned : (forall l, In l header -> l = "----------- METRICS -----------" \/ aligned l) /\ Forall fits (listing 0 eg) /\ no_bar "linregress".
Proof.
  split; [|split].
  - intros l [<-|[<-|[]]]; [now left|right; repeat split].
  - unfold eg, listing. cbn. repeat constructor; cbn; lia.
  - cbn. repeat split; discriminate.
Qed.

(** The name "intercept_stderr", which scipy puts into every linear regression, is too long. *)
Theorem C161_intercept_refuted : forall t, ~ aligned (line (1, "intercept_stderr", Number t)).
Proof. intros t H. apply C161_aligned in H; [|lia|cbn; repeat split; discriminate]. destruct H as [H _]. cbn in H. lia. Qed.
Print Assumptions C161_intercept_refuted.

(** ** the table beside a scatterplot *)
Lemma dset_in_keys {V} k (v : V) x y : In k (keys x) -> dset string_dec k v (x ++ y) = dset string_dec k v x ++ y.
Proof.
  induction x as [|[q w] x IH]; intros H; [destruct H|]. cbn. destruct (string_dec k q) as [->|N]; [reflexivity|]. cbn. f_equal. apply IH. destruct H as [H|H]; [cbn in H; congruence|exact H].
Qed.
Lemma dupdate_app {V} (x a b : dict string V) : dupdate string_dec x (a ++ b) = dupdate string_dec (dupdate string_dec x a) b.
Proof. unfold dupdate. apply fold_left_app. Qed.
Lemma dset_comm {V} (k k' : string) (v v' : V) d : k <> k' -> In k (keys d) -> dset string_dec k v (dset string_dec k' v' d) = dset string_dec k' v' (dset string_dec k v d).
Proof.
  intros N. induction d as [|[q w] d IH]; intros H; [destruct H|]. cbn. destruct (string_dec k' q) as [->|N1]; destruct (string_dec k q) as [->|N2]; cbn.
  - congruence.
  - destruct (string_dec k q); [congruence|]. destruct (string_dec q q); [reflexivity|congruence].
  - destruct (string_dec q q); [|congruence]. destruct (string_dec k' q); [congruence|reflexivity].
  - destruct (string_dec k q); [congruence|]. destruct (string_dec k' q); [congruence|]. f_equal. apply IH. destruct H as [H|H]; [cbn in H; congruence|exact H].
Qed.
Lemma dset_twice {V} (k : string) (v v' : V) d : dset string_dec k v (dset string_dec k v' d) = dset string_dec k v d.
Proof. induction d as [|[q w] d IH]; cbn; [destruct (string_dec k k); congruence|]. destruct (string_dec k q) as [->|N]; cbn; [destruct (string_dec q q); congruence|]. destruct (string_dec k q); [congruence|]. now rewrite IH. Qed.
Lemma dupdate_dset {V} (k : string) (v : V) b : NoDup (keys b) -> forall x, dupdate string_dec x (dset string_dec k v b) = dset string_dec k v (dupdate string_dec x b).
Proof.
  induction b as [|[q w] b IH]; intros ND x; [reflexivity|]. cbn in ND. apply NoDup_cons_iff in ND. destruct ND as [N ND]. cbn [dset]. destruct (string_dec k q) as [->|NE].
  - unfold dupdate. cbn [fold_left fst snd]. fold (dupdate string_dec (dset string_dec q v x) b) (dupdate string_dec (dset string_dec q w x) b).
    assert (G : forall b x, ~ In q (keys b) -> dset string_dec q v (dupdate string_dec (dset string_dec q w x) b) = dupdate string_dec (dset string_dec q v x) b).
    { clear. induction b as [|[p u] b IH]; intros x H; [apply dset_twice|]. cbn in H. unfold dupdate. cbn [fold_left fst snd].
      fold (dupdate string_dec (dset string_dec p u (dset string_dec q w x)) b) (dupdate string_dec (dset string_dec p u (dset string_dec q v x)) b).
      assert (E : forall a c (y : dict string V), dset string_dec q a (dupdate string_dec (dset string_dec p u (dset string_dec q c y)) b) = dupdate string_dec (dset string_dec p u (dset string_dec q a y)) b).
      { intros a c y. assert (G2 : forall b (y : dict string V), ~ In q (keys b) -> In q (keys y) -> dset string_dec q a (dupdate string_dec y b) = dupdate string_dec (dset string_dec q a y) b).
        { clear. induction b as [|[r s] b IH]; intros y H I; [reflexivity|]. cbn in H. unfold dupdate. cbn [fold_left fst snd]. fold (dupdate string_dec (dset string_dec r s y) b) (dupdate string_dec (dset string_dec r s (dset string_dec q a y)) b).
          rewrite IH; [|tauto|apply in_keys_dset; tauto]. now rewrite dset_comm by (auto; intros ->; tauto). }
        rewrite G2; [|tauto|apply in_keys_dset; right; apply in_keys_dset; now left]. f_equal. rewrite dset_comm by (try (intros ->; tauto); apply in_keys_dset; now left). now rewrite dset_twice. }
      apply E. }
    symmetry. now apply G.
  - unfold dupdate. cbn [fold_left fst snd]. apply (IH ND).
Qed.
Lemma dupdate_nodup {V} (b : dict string V) x : NoDup (keys x) -> NoDup (keys (dupdate string_dec x b)).
Proof. revert x. induction b as [|[q w] b IH]; intros x H; [exact H|]. unfold dupdate. cbn [fold_left]. apply IH. now apply NoDup_keys_dset. Qed.
(** a dict of the items of a dict of items *)
Lemma dupdate_dict {V} (b : list (string * V)) : forall x, dupdate string_dec x (dupdate string_dec [] b) = dupdate string_dec x b.
Proof.
  induction b as [|[k v] b IH] using rev_ind; intros x; [reflexivity|]. rewrite (dupdate_app [] b), (dupdate_app x b).
  change (dupdate string_dec (dupdate string_dec [] b) [(k, v)]) with (dset string_dec k v (dupdate string_dec [] b)).
  rewrite dupdate_dset by (apply dupdate_nodup; constructor). rewrite IH. reflexivity.
Qed.
Lemma flat_items_eq v : no_int v -> forall depth key x, dupdate string_dec x (flat_items depth key v) = dupdate string_dec x (map flat_row (listing1 depth key v)).
Proof.
  induction v as [t|t| |d IH] using mval_ind2; intros NI depth key x; try reflexivity; [destruct NI|].
  cbn [flat_items listing1 map flat_row]. match goal with |- dupdate _ _ (?a :: ?b) = dupdate _ _ (?c :: ?e) => change (dupdate string_dec x ([a] ++ b) = dupdate string_dec x ([c] ++ e)) end.
  rewrite !dupdate_app. set (y := dupdate string_dec x [_]). clearbody y. clear x. rewrite dupdate_dict.
  revert y. induction d as [|[k v] d IHd]; intros y; [reflexivity|]. cbn [flat_map fst snd]. destruct NI as [NI1 NI2]. cbn [snd] in NI1. rewrite map_app, !dupdate_app.
  rewrite (IH k v (or_introl eq_refl) NI1). apply IHd; [|exact NI2]. intros k' v' I. apply (IH k' v'). now right.
Qed.
Lemma keys_dupdate_id {V} (e : dict string V) : dupdate string_dec [] e = e <-> NoDup (keys e).
Proof.
  split; [intros <-; apply dupdate_nodup; constructor|]. intros ND.
  assert (G : forall e (x : dict string V), NoDup (keys (x ++ e)) -> dupdate string_dec x e = x ++ e).
  { clear. induction e as [|[k v] e IH]; intros x H; [now rewrite app_nil_r|]. unfold dupdate. cbn [fold_left fst snd]. fold (dupdate string_dec (dset string_dec k v x) e).
    assert (N : ~ In k (keys x)). { unfold keys in *. rewrite map_app in H. cbn in H. apply NoDup_remove_2 in H. intros I. apply H, in_or_app. now left. }
    assert (E : dset string_dec k v x = x ++ [(k, v)]).
    { clear - N. induction x as [|[q w] x IH]; [reflexivity|]. cbn in *. destruct (string_dec k q) as [->|]; [tauto|]. f_equal. apply IH. tauto. }
    rewrite E, IH by (rewrite <- app_assoc; exact H). now rewrite <- app_assoc. }
  now apply (G e []).
Qed.

(** The flat table of a dict without integers: its rows are those of the listing with equal names merged; so every row is present
    exactly if the prefixed names are distinct. *)
Theorem C161_flatten : forall d, (forall k v, In (k, v) d -> no_int v) ->
  flatten 0 d = dupdate string_dec [] (map flat_row (listing 0 d)) /\
  (flatten 0 d = map flat_row (listing 0 d) <-> NoDup (map fst (map flat_row (listing 0 d)))).
Proof.
  intros d NI. assert (E : flatten 0 d = dupdate string_dec [] (map flat_row (listing 0 d))).
  { unfold flatten, listing. generalize (@nil (string * string)) as x. induction d as [|[k v] d IH]; intros x; [reflexivity|]. cbn [flat_map fst snd]. rewrite map_app, !dupdate_app.
    rewrite (flat_items_eq v) by (apply (NI k v); now left). apply IH. intros k' v' I. apply (NI k' v'). now right. }
  split; [exact E|]. rewrite E. apply keys_dupdate_id.
Qed.
Print Assumptions C161_flatten.

(** For the registered metrics with a successful linear regression the table beside a scatterplot has all rows. *)
Theorem C161_scatter : forall value l, NoDup (map fst l) -> In "intercept" (map fst l) -> In "slope" (map fst l) -> In "stderr" (map fst l) ->
  scatter_rows value (Some l) = Ok (map flat_row (listing 0 (allmetrics value (Some l)))).
Proof.
  intros value l ND I1 I2 I3. unfold scatter_rows.
  assert (M : forall k, In k (map fst l) -> dmem string_dec k l = true). { intros k I. apply (dget_in_keys string_dec) in I. unfold dmem. destruct (dget string_dec k l); congruence. }
  cbn [forallb]. rewrite !M by assumption. cbn [andb]. f_equal. apply C161_flatten.
  - intros k v I. unfold allmetrics in I. apply in_map_iff in I. destruct I as (f & E & I). injection E as <- <-. destruct (String.eqb f "linregress"); [|exact Logic.I].
    cbn. clear. induction l as [|p l IH]; [exact Logic.I|]. split; [exact Logic.I|exact IH].
  - unfold allmetrics, registry, listing. cbn [map flat_map fst snd app String.eqb Ascii.eqb Bool.eqb listing1].
    assert (X : map fst (map flat_row (flat_map (fun kv => listing1 1 (fst kv) (snd kv)) (map (fun kv => (fst kv, MFloat (snd kv))) l))) = map (fun k : string => String "-" (String " " k)) (map fst l)).
    { clear. induction l as [|[k v] l IH]; [reflexivity|]. cbn in *. now rewrite IH. }
    rewrite !app_nil_r || idtac. cbn [map flat_row app]. rewrite !map_app, X. cbn [map flat_row fst times append].
    assert (NX : NoDup (map (fun k : string => String "-" (String " " k)) (map fst l))).
    { clear - ND. induction (map fst l) as [|k r IH]; [constructor|]. apply NoDup_cons_iff in ND. destruct ND as [N ND]. cbn [map]. constructor; [|now apply IH].
      intros I. apply in_map_iff in I. destruct I as (q & E & I). apply N. now injection E as <-. }
    assert (NI : forall s, ~ In (String " " s) (map (fun k : string => String "-" (String " " k)) (map fst l))). { intros s I. apply in_map_iff in I. destruct I as (q & E & _). discriminate. }
    set (u := map (fun k : string => String "-" (String " " k)) (map fst l)) in *. clearbody u. clear - NX NI.
    assert (P : NoDup (u ++ [" pearson"; " spearman"; " linregress"; " rmsd"; " ub_rmsd"; " bias"; " mae"; " mape"; " std_ratio"])).
    { assert (G : forall r, NoDup r -> (forall s, In s r -> exists t, s = String " " t) -> NoDup (u ++ r)).
      { clear - NX NI. intros r NR H. induction u as [|a u IH]; [exact NR|]. apply NoDup_cons_iff in NX. destruct NX as [N NX]. cbn. constructor.
        - intros I. apply in_app_or in I. destruct I as [I|I]; [tauto|]. destruct (H a I) as [t ->]. apply (NI t). now left.
        - apply IH; [exact NX|]. intros s I. apply (NI s). now right. }
      apply G; [repeat constructor; cbn; intuition discriminate|]. intros s I. cbn in I. intuition; subst; eexists; reflexivity. }
    revert P. apply Permutation.Permutation_NoDup. clear.
    change (Permutation.Permutation (u ++ ([" pearson"; " spearman"; " linregress"] ++ [" rmsd"; " ub_rmsd"; " bias"; " mae"; " mape"; " std_ratio"])) ([" pearson"; " spearman"; " linregress"] ++ (u ++ [" rmsd"; " ub_rmsd"; " bias"; " mae"; " mape"; " std_ratio"]))).
    apply Permutation.Permutation_app_swap_app.
Qed.
Print Assumptions C161_scatter.
Example C161_example_scatter : exists d, scatter_rows (fun _ => "0.1") (Some [("slope", "1.0"); ("intercept", "0.0"); ("stderr", "0.2")]) = Ok d /\ List.length d = 12 /\ In ("- slope", "1.0") d.
Proof. eexists. split; [reflexivity|]. split; [reflexivity|]. cbn. tauto. Qed.

(** In general rows with equal names are lost, integers are left out, and without a regression (constant d1) there is no plot at
    all. *)
Theorem C161_lost_refuted :
  (exists d, (forall k v, In (k, v) d -> no_int v) /\ NoDup (map fst d) /\ List.length (listing 0 d) = 4 /\ List.length (flatten 0 d) = 3) /\
  (exists d, listing 0 d = [(0, "n", Number "3")] /\ flatten 0 d = []) /\
  (forall value, scatter_rows value None = Err TypeError).
Proof.
  split; [|split; [|reflexivity]].
  - exists [("a", MDict [("x", MFloat "1")]); ("b", MDict [("x", MFloat "2")])]. repeat split; try reflexivity.
    + intros k v [H|[H|[]]]; injection H as <- <-; cbn; tauto.
    + repeat constructor; cbn; intuition discriminate.
  - exists [("n", MInt "3")]. split; reflexivity.
Qed.
Print Assumptions C161_lost_refuted.
