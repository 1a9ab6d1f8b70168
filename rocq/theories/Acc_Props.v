(** C176: the accessor of a MultiFits object works on all configurations. *)
From Coq Require Import Bool Arith String List Lia.
From Verif Require Import Base Base_Proofs Acc_Model Acc_Spec.
Import ListNotations.
Local Open Scope list_scope.

(** the state of one container: names and attributes agree, and each fit carries the name under which it is stored *)
Definition good (names : nat -> string) (m : multi) : Prop :=
  (forall n, In n (m_names m) <-> In n (keys (m_fit m))) /\ NoDup (keys (m_fit m)) /\ (forall n o, In (n, o) (m_fit m) -> names o = n).

Lemma in_dset_inv n (o : nat) k v d : In (n, o) (dset string_dec k v d) -> (n = k /\ o = v) \/ In (n, o) d.
Proof.
  induction d as [|[k' v'] d IH]; cbn.
  - intros [H|[]]. injection H as <- <-. auto.
  - destruct (string_dec k k') as [<-|N]; cbn; intros [H|H]; auto.
    + injection H as <- <-. auto.
    + destruct (IH H); auto.
Qed.
Lemma add_good f names m n o : (forall x, names x = f x \/ True) -> n = f o -> good names m -> (forall k x, In (k, x) (m_fit m) -> k = f x) ->
  good (fst (add names m n o)) (snd (add names m n o)) /\ (forall k x, In (k, x) (m_fit (snd (add names m n o))) -> k = f x)
  /\ (forall k, dget string_dec k (m_fit (snd (add names m n o))) = if string_dec n k then Some o else dget string_dec k (m_fit m)).
Proof.
  intros _ E (A & B & C) D. unfold add. cbn [fst snd m_names m_fit]. unfold good. cbn [m_names m_fit]. split; [split; [|split]|split].
  - intros k. rewrite in_app_iff, in_keys_dset, A. cbn. intuition (subst; auto).
  - apply NoDup_keys_dset, B.
  - intros k x I. destruct (Nat.eqb_spec x o) as [->|N].
    + apply in_dset_inv in I. destruct I as [[-> _]|I]; [reflexivity|]. rewrite E. symmetry. apply D, I.
    + apply in_dset_inv in I. destruct I as [[_ ->]|I]; [congruence|]. apply C, I.
  - intros k x I. apply in_dset_inv in I. destruct I as [[-> ->]|I]; [exact E|apply D, I].
  - intros k. destruct (string_dec n k) as [<-|N]; [apply dget_dset_same|apply dget_dset_other; congruence].
Qed.
(** adding does not spoil other containers *)
Lemma add_other f names m m' n o : n = f o -> good names m' -> (forall k x, In (k, x) (m_fit m') -> k = f x) -> good (fst (add names m n o)) m'.
Proof.
  intros E (A & B & C) D. split; [exact A|split; [exact B|]]. intros k x I. unfold add. cbn [fst].
  destruct (Nat.eqb_spec x o) as [->|N]; [rewrite E; symmetry; apply D, I|apply C, I].
Qed.
Definition loading (names : nat -> string) (l : list (string * nat)) : (nat -> string) * multi :=
  fold_left (fun nm kv => add (fst nm) (snd nm) (fst kv) (snd kv)) l (names, mkmulti [] []).
Lemma loading_snoc names l n o : loading names (l ++ [(n, o)]) = add (fst (loading names l)) (snd (loading names l)) n o.
Proof. unfold loading. rewrite fold_left_app. reflexivity. Qed.
Lemma load_good f names l : (forall n o, In (n, o) l -> n = f o) ->
  good (fst (loading names l)) (snd (loading names l)) /\ (forall k x, In (k, x) (m_fit (snd (loading names l))) -> k = f x)
  /\ (forall k, dget string_dec k (m_fit (snd (loading names l))) = last_of k (rev l))
  /\ (forall m', good names m' -> (forall k x, In (k, x) (m_fit m') -> k = f x) -> good (fst (loading names l)) m').
Proof.
  induction l as [|[n o] l IH] using rev_ind; intros H.
  - split; [|split; [|split]]; cbn; try contradiction; auto. split; [cbn; tauto|split; [constructor|cbn; contradiction]].
  - rewrite loading_snoc. destruct IH as (A & B & C & D). { intros k x I. apply H. rewrite in_app_iff. auto. }
    assert (E : n = f o). { apply H. rewrite in_app_iff. cbn. auto. }
    destruct (add_good f (fst (loading names l)) (snd (loading names l)) n o) as (A' & B' & C'); auto.
    split; [exact A'|split; [exact B'|split]].
    + intros k. rewrite C', C, rev_app_distr. reflexivity.
    + intros m' G G2. apply (add_other f); auto.
Qed.
Lemma run_snoc ops x : run (ops ++ [x]) = step (run ops) x.
Proof. unfold run. rewrite fold_left_app. reflexivity. Qed.
Lemma run_good f ops : (forall n o, In (n, o) (additions ops) -> n = f o) ->
  forall c m, dget Nat.eq_dec c (s_multi (run ops)) = Some m ->
  good (s_name (run ops)) m /\ (forall k x, In (k, x) (m_fit m) -> k = f x) /\ (forall n, dget string_dec n (m_fit m) = latest c n (rev ops)).
Proof.
  induction ops as [|x ops IH] using rev_ind; intros H c m G; [discriminate|]. rewrite run_snoc in *. rewrite rev_app_distr. cbn [rev app].
  assert (H' : forall n o, In (n, o) (additions ops) -> n = f o). { intros n o I. apply H. unfold additions. rewrite flat_map_app, in_app_iff. auto. }
  specialize (IH H'). set (s := run ops) in *. destruct x as [c'|c' l|c' n o]; cbn [step latest] in *.
  - cbn [s_multi s_name] in *. destruct (Nat.eqb_spec c' c) as [->|N].
    + rewrite dget_dset_same in G. injection G as <-. split; [|split]; cbn; try contradiction; auto. split; [cbn; tauto|split; [constructor|cbn; contradiction]].
    + rewrite dget_dset_other in G by congruence. apply IH, G.
  - assert (L : forall n o, In (n, o) l -> n = f o). { intros n o I. apply H. unfold additions. rewrite flat_map_app, in_app_iff. cbn. rewrite app_nil_r. auto. }
    fold (loading (s_name s) l) in *. destruct (load_good f (s_name s) l L) as (A & B & C & D). destruct (loading (s_name s) l) as [names m0]. cbn [fst snd] in *.
    cbn [s_multi s_name] in *. destruct (Nat.eqb_spec c' c) as [->|N].
    + rewrite dget_dset_same in G. injection G as <-. auto.
    + rewrite dget_dset_other in G by congruence. destruct (IH c m G) as (P & Q & R). auto.
  - assert (E : n = f o). { apply H. unfold additions. rewrite flat_map_app, in_app_iff. cbn. auto. }
    destruct (dget Nat.eq_dec c' (s_multi s)) as [m0|] eqn:M.
    + destruct (IH c' m0 M) as (P & Q & R). destruct (add_good f (s_name s) m0 n o) as (A & B & C); auto.
      pose proof (add_other f (s_name s) m0 m n o E) as O. destruct (add (s_name s) m0 n o) as [names m1]. cbn [fst snd] in *. cbn [s_multi s_name] in *.
      destruct (Nat.eqb_spec c' c) as [->|N].
      * rewrite dget_dset_same in G. injection G as <-. split; [exact A|split; [exact B|]]. intros k. rewrite C, R. reflexivity.
      * rewrite dget_dset_other in G by congruence. destruct (IH c m G) as (P' & Q' & R'). auto.
    + destruct (Nat.eqb_spec c' c) as [->|N]; [congruence|]. apply IH, G.
Qed.

(** [config_fits] of a good container is its dict of attributes *)
Lemma config_fits_good s m : good (s_name s) m -> forall n, dget string_dec n (config_fits s m) = dget string_dec n (m_fit m).
Proof.
  intros (A & B & C) n. unfold config_fits, fits_of.
  assert (G : forall l d, (forall k, In k l -> In k (keys (m_fit m))) ->
    dget string_dec n (fold_left (fun d o => dset string_dec (s_name s o) o d) (flat_map (fun n => match dget string_dec n (m_fit m) with Some o => [o] | None => [] end) l) d)
    = if inb string_dec n l then dget string_dec n (m_fit m) else dget string_dec n d).
  { induction l as [|k l IH]; intros d I; [reflexivity|]. cbn [flat_map]. rewrite fold_left_app, IH by (intros; apply I; cbn; auto).
    destruct (dget string_dec k (m_fit m)) as [o|] eqn:K.
    2: { apply dget_none in K. exfalso. apply K, I. cbn. auto. }
    cbn [fold_left]. rewrite (C k o) by (apply (dget_some_in string_dec), K).
    destruct (inb string_dec n l) eqn:N.
    - assert (N' : inb string_dec n (k :: l) = true) by (apply inb_iff; apply inb_iff in N; cbn; auto). rewrite N'. reflexivity.
    - destruct (string_dec k n) as [->|Ne].
      + assert (N' : inb string_dec n (n :: l) = true) by (apply inb_iff; cbn; auto). rewrite N', K. apply dget_dset_same.
      + assert (N' : inb string_dec n (k :: l) = false). { apply inb_false. apply inb_false in N. cbn. intuition. }
        rewrite N'. apply dget_dset_other. congruence. }
  rewrite G by (intros k; apply A). destruct (inb string_dec n (m_names m)) eqn:I; [reflexivity|]. apply inb_false in I. rewrite A in I.
  symmetry. cbn. apply dget_none. exact I.
Qed.

(** config_fits has each configuration, with the fit that was given this name last, if no fit is given two names. *)
Theorem C176_configs : forall f ops c m n, (forall k o, In (k, o) (additions ops) -> k = f o) -> dget Nat.eq_dec c (s_multi (run ops)) = Some m ->
  dget string_dec n (config_fits (run ops) m) = latest c n (rev ops).
Proof. intros f ops c m n H G. destruct (run_good f ops H c m G) as (A & B & C). rewrite config_fits_good by exact A. apply C. Qed.
Print Assumptions C176_configs.

(** A fit with two names is only found under the one given last: the other configuration is skipped by the accessor. *)
Theorem C176_twice_refuted : forall c o a b, a <> b -> exists m, dget Nat.eq_dec c (s_multi (run [Create c; Add c a o; Add c b o])) = Some m
  /\ latest c a (rev [Create c; Add c a o; Add c b o]) = Some o /\ config_fits (run [Create c; Add c a o; Add c b o]) m = [(b, o)].
Proof.
  intros c o a b N. exists (mkmulti [a; b] [(a, o); (b, o)]). unfold run. cbn.
  destruct (Nat.eq_dec c c); [|congruence]. cbn. destruct (Nat.eq_dec c c); [|congruence]. cbn. destruct (Nat.eq_dec c c); [|congruence]. cbn.
  destruct (string_dec b a); [congruence|]. cbn. destruct (Nat.eq_dec c c); [|congruence]. rewrite Nat.eqb_refl. destruct (string_dec a a); [|congruence].
  split; [reflexivity|]. split; [reflexivity|].
  unfold config_fits, fits_of. cbn. destruct (string_dec a a); [|congruence]. destruct (string_dec b a); [congruence|]. destruct (string_dec b b); [|congruence].
  cbn. rewrite Nat.eqb_refl. destruct (string_dec b b); [|congruence]. reflexivity.
Qed.
Print Assumptions C176_twice_refuted.

Lemma s_set_run ops : s_set (run ops) = created ops.
Proof.
  induction ops as [|x ops IH] using rev_ind; [reflexivity|]. rewrite run_snoc. unfold created. rewrite existsb_app. fold (created ops). rewrite <- IH.
  destruct x as [c|c l|c n o]; cbn [step existsb].
  - cbn. rewrite orb_true_r. reflexivity.
  - fold (loading (s_name (run ops)) l). destruct (loading (s_name (run ops)) l). cbn. rewrite orb_false_r. reflexivity.
  - destruct (dget Nat.eq_dec c (s_multi (run ops))) as [m|]; [destruct (add (s_name (run ops)) m n o)|]; cbn; rewrite orb_false_r; reflexivity.
Qed.
Lemma dget_map {V W} (g : V -> W) k (d : dict string V) : dget string_dec k (map (fun kv => (fst kv, g (snd kv))) d) = option_map g (dget string_dec k d).
Proof. induction d as [|[k' v] d IH]; [reflexivity|]. cbn. destruct (string_dec k k'); [reflexivity|exact IH]. Qed.

(** If a MultiFits object was created in this session, properties of the accessor have the value of each configuration. *)
Theorem C176_property : forall A props (attr : nat -> string -> A) f ops c m p, (forall k o, In (k, o) (additions ops) -> k = f o) ->
  created ops = true -> dget Nat.eq_dec c (s_multi (run ops)) = Some m -> In p props ->
  exists d, get A props attr (run ops) m p = Ok d /\ forall n, dget string_dec n d = option_map (fun o => attr o p) (latest c n (rev ops)).
Proof.
  intros A props attr f ops c m p H K G I. unfold get. apply (inb_iff string_dec) in I. rewrite I, s_set_run, K. eexists. split; [reflexivity|].
  intros n. rewrite (dget_map (fun o => attr o p)), (C176_configs f ops c m n H G). reflexivity.
Qed.
Print Assumptions C176_property.

(** In a session that only loads objects (a new interpreter, a worker process), each of these properties raises. *)
Theorem C176_loaded_refuted : forall A props (attr : nat -> string -> A) ops m p, created ops = false -> get A props attr (run ops) m p = Err AttributeError.
Proof. intros A props attr ops m p K. unfold get. rewrite s_set_run, K. destruct (inb string_dec p props); reflexivity. Qed.
Print Assumptions C176_loaded_refuted.

Section Calls.
Context {A : Type}.
Variable params : list string.
Lemma calls_nth (l : list (string * (list A * dict string A))) : forall d j n pos kw cb, nth_error l j = Some (n, (pos, kw)) -> dget string_dec n d = Some cb ->
  nth_error (snd (calls A params d l)) j =
    Some (snd (call A params (mkcb (c_fit A cb) (c_args A cb) (dupdate string_dec (c_kwargs A cb) (keywords n (firstn j l)))) pos kw)).
Proof.
  induction l as [|[n' [pos' kw']] l IH]; intros d j n pos kw cb E D; [destruct j; discriminate|]. destruct j as [|j].
  - cbn in E. injection E as -> -> ->. cbn [calls firstn]. rewrite D. unfold keywords. cbn [flat_map]. unfold dupdate. cbn [fold_left]. destruct cb as [o a k]. cbn [c_fit c_args c_kwargs].
    destruct (call A params (mkcb o a k) pos kw) as [cb' x]. destruct (calls A params (dset string_dec n cb' d) l). reflexivity.
  - cbn [nth_error] in E. cbn [calls firstn]. unfold keywords. cbn [flat_map fst snd]. fold (keywords n (firstn j l)).
    destruct (dget string_dec n' d) as [cb'|] eqn:D'.
    + destruct (call A params cb' pos' kw') as [cb2 x] eqn:CC. destruct (string_dec n' n) as [->|N].
      * rewrite D in D'. injection D' as <-. specialize (IH (dset string_dec n cb2 d) j n pos kw cb2 E (dget_dset_same string_dec n cb2 d)).
        destruct (calls A params (dset string_dec n cb2 d) l) as [d2 o]. cbn [snd nth_error] in *. rewrite IH. f_equal. f_equal. f_equal.
        unfold call in CC. destruct pos' as [|a pos']; injection CC as <- _; cbn [c_fit c_args c_kwargs]; [unfold dupdate; rewrite fold_left_app|]; reflexivity.
      * specialize (IH (dset string_dec n' cb2 d) j n pos kw cb E). rewrite dget_dset_other in IH by congruence. specialize (IH D).
        destruct (calls A params (dset string_dec n' cb2 d) l) as [d2 o]. cbn [snd nth_error] in *. rewrite IH. reflexivity.
    + assert (N : n' <> n) by congruence. destruct (string_dec n' n); [congruence|]. specialize (IH d j n pos kw cb E D).
      destruct (calls A params d l) as [d2 o]. cbn [snd nth_error] in *. exact IH.
Qed.
End Calls.

(** In any sequence of calls of the callbacks, each call without positional arguments runs the method on its own fit, with
    the arguments given to the accessor, overridden by the keywords of all calls of this callback so far and of this call;
    calls of the other callbacks do not matter. *)
Theorem C176_calls : forall A (params : list string) s m pos kw (l : list (string * (list A * dict string A))) j n kw' o,
  dget string_dec n (config_fits s m) = Some o -> nth_error l j = Some (n, ([], kw')) ->
  nth_error (snd (calls A params (apply A s m pos kw) l)) j =
    Some (do b <- bindargs A params pos (dupdate string_dec (dupdate string_dec kw (keywords n (firstn j l))) kw'); Ok (o, b)).
Proof.
  intros A params s m pos kw l j n kw' o D E.
  rewrite (calls_nth params l (apply A s m pos kw) j n [] kw' (mkcb o pos kw) E); [reflexivity|].
  unfold apply. rewrite (dget_map (fun o => mkcb o pos kw)), D. reflexivity.
Qed.
Print Assumptions C176_calls.

(** So a keyword that is passed in a call stays in effect for later calls of the same callback. *)
Theorem C176_kept_refuted : forall A (params : list string) s m k (v w : A) n o, In k params ->
  dget string_dec n (config_fits s m) = Some o -> v <> w ->
  nth_error (snd (calls A params (apply A s m [] [(k, v)]) [(n, ([], [(k, w)])); (n, ([], []))])) 1 = Some (Ok (o, [(k, w)])).
Proof.
  intros A params s m k v w n o I D N. rewrite (C176_calls A params s m [] [(k, v)] [(n, ([], [(k, w)])); (n, ([], []))] 1 n [] o D eq_refl).
  cbn [firstn]. unfold keywords. cbn [flat_map fst snd]. destruct (string_dec n n); [|congruence]. cbn [app]. unfold dupdate. cbn [fold_left fst snd dset].
  destruct (string_dec k k); [|congruence]. unfold bindargs. cbn [length keys map fst firstn]. cbn [Nat.ltb Nat.leb existsb inb]. cbn [forallb].
  apply (inb_iff string_dec) in I. rewrite I. cbn [andb negb orb]. cbn [Nat.leb bind]. destruct params; reflexivity.
Qed.
Print Assumptions C176_kept_refuted.

(** Positional arguments can not be passed to a callback at all: the call raises and the method is not run. *)
Theorem C176_positional_refuted : forall A (params : list string) s m pos kw (l : list (string * (list A * dict string A))) j n a r kw' o,
  dget string_dec n (config_fits s m) = Some o -> nth_error l j = Some (n, (a :: r, kw')) ->
  nth_error (snd (calls A params (apply A s m pos kw) l)) j = Some (Err (match pos with [] => AttributeError | _ => TypeError end)).
Proof.
  intros A params s m pos kw l j n a r kw' o D E.
  rewrite (calls_nth params l (apply A s m pos kw) j n (a :: r) kw' (mkcb o pos kw) E); [reflexivity|].
  unfold apply. rewrite (dget_map (fun o => mkcb o pos kw)), D. reflexivity.
Qed.
Print Assumptions C176_positional_refuted.

(** An argument given to the accessor by position can not be overridden by a keyword either. *)
Theorem C176_override_refuted : forall A (params : list string) s m k (v w : A) ps n o, dget string_dec n (config_fits s m) = Some o ->
  nth_error (snd (calls A (k :: params) (apply A s m (v :: ps) []) [(n, ([], [(k, w)]))])) 0 = Some (Err TypeError).
Proof.
  intros A params s m k v w ps n o D. rewrite (C176_calls A (k :: params) s m (v :: ps) [] [(n, ([], [(k, w)]))] 0 n [(k, w)] o D eq_refl).
  cbn [firstn keywords flat_map]. unfold dupdate. cbn [fold_left fst snd dset]. unfold bindargs. cbn [length].
  destruct (Nat.ltb (S (length params)) (S (length ps))); [reflexivity|]. cbn [keys map fst firstn existsb].
  rewrite (proj2 (inb_iff string_dec k (k :: firstn (length ps) params))) by (cbn; auto). reflexivity.
Qed.
Print Assumptions C176_override_refuted.

(** two configurations; a session with a loaded object *)
Example C176_example : let ops := [Create 0; Add 0 "a" 5; Add 0 "b" 6; Add 0 "a" 7; Load 1 [("x", 8)]]%string in
  let m := mkmulti ["a"; "b"; "a"]%string [("a", 7); ("b", 6)]%string in
  dget Nat.eq_dec 0 (s_multi (run ops)) = Some m /\ config_fits (run ops) m = [("a", 7); ("b", 6)]%string
  /\ get nat ["sig0"]%string (fun o _ => o * 10) (run ops) m "sig0" = Ok [("a", 70); ("b", 60)]%string
  /\ snd (calls nat ["p"; "q"]%string (apply nat (run ops) m [1] [("q", 2)]%string) [("a", ([], [("q", 3)])); ("b", ([], [])); ("a", ([], [])); ("b", ([4], []))]%string)
     = [Ok (7, [("p", 1); ("q", 3)]); Ok (6, [("p", 1); ("q", 2)]); Ok (7, [("p", 1); ("q", 3)]); Err TypeError]%string
  /\ get nat ["sig0"]%string (fun o _ => o) (run [Load 1 [("x", 8)]]%string) (mkmulti ["x"] [("x", 8)])%string "sig0" = Err AttributeError.
Proof. repeat split. Qed.
