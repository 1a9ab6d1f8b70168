(** Exact outcomes of C62 and C186. *)
From Coq Require Import String List Arith Bool Lia.
From Verif Require Import Base Log_Model Rmd_Model Rmd_Spec Rmd_Props Mf_Model Mf_Spec Base_Proofs.
Import ListNotations.
Local Open Scope list_scope.

Lemma apart_cons f h r : apart f r -> (forall k r', r = k :: r' -> ~ (writes_there f h /\ writes_there f k)) -> apart f (h :: r).
Proof.
  intros A B l a b q E. destruct l as [|x l]; cbn in E; injection E as -> E.
  - apply (B b q E).
  - apply (A l a b q E).
Qed.
Lemma clean_apart f : forall hs s, (forall h, In h (leaves f hs s) -> ~ writes_there f h) -> apart f hs /\ (s = true -> forall k r, hs = k :: r -> ~ writes_there f k).
Proof.
  induction hs as [|h r IH]; intros s H.
  - split; [|discriminate]. intros l a b q E. destruct l; discriminate.
  - cbn [leaves] in H. destruct s.
    + destruct (IH false) as [A _]; [intros k I; apply H; now right|]. assert (N : ~ writes_there f h) by (apply H; now left).
      split; [apply apart_cons; tauto|]. intros _ k q E. injection E as <- _. exact N.
    + split; [|discriminate]. destruct (doomed f h) eqn:D.
      * destruct (IH true H) as [A B]. apply apart_cons; [exact A|]. intros k q E [_ W]. exact (B eq_refl k q E W).
      * destruct (IH false) as [A _]; [intros k I; apply H; now right|]. apply apart_cons; [exact A|]. intros k q E [W _].
        apply doomed_iff in W. congruence.
Qed.
(** all log-files of the folder are stopped if and only if no two of them are neighbours *)
Theorem C186_exactly : forall f st, different (handlers st) ->
  (forall h, In h (handlers (remove_dumpfolder f st)) -> ~ writes_there f h) <-> apart f (handlers st).
Proof.
  intros f st N. split; [|intros A; now apply C186_stopped]. rewrite remove_leaves by exact N. intros H. now apply (clean_apart f _ false).
Qed.
Print Assumptions C186_exactly.
Example C186_exactly_example : let f := fun p => String.eqb p "run/cfg/a.log" in
  let a := mkh 1 "a" 20 (File "run/cfg/a.log") in let k := mkh 0 console_name 21 Console in different [k; a] /\ apart f [k; a].
Proof.
  cbv zeta. split; [unfold different; cbn; repeat constructor; cbn; intuition discriminate|]. intros l x y r E [(p & P & _) _].
  destruct l as [|z [|w l]]; cbn in E; injection E; intros; subst; cbn in P; try discriminate. destruct l; discriminate.
Qed.

(** C62: after any calls config_names are the accepted names in the order of the calls; each is there once if and only if no name was accepted twice *)
Theorem C62_exactly : forall (l acc : list (string * nat)),
  (* [acc]: the accepted calls, in their order *)
  (exists keep, acc = filter keep l /\ forall x, In x l -> (keep x = true <-> valid_name (fst x))) ->
  m_names (add_configs new_multi l) = map fst acc /\ (NoDup (m_names (add_configs new_multi l)) <-> NoDup (map fst acc)).
Proof.
  intros l acc (keep & -> & K).
  assert (E : m_names (add_configs new_multi l) = map fst (filter keep l)); [|rewrite E; split; [reflexivity|tauto]].
  change (map fst (filter keep l)) with (m_names new_multi ++ map fst (filter keep l)). generalize new_multi. revert K. induction l as [|x l IH]; intros K m.
  - cbn. now rewrite app_nil_r.
  - unfold add_configs in *. cbn [fold_left filter]. rewrite (IH (fun y I => K y (or_intror I))). clear IH.
    specialize (K x (or_introl eq_refl)). unfold valid_name in K. unfold add_config.
    destruct (str_isidentifier (fst x)) eqn:V; cbn [negb].
    + destruct (inb string_dec (fst x) mf_dict) eqn:I.
      * destruct (keep x); [|reflexivity]. destruct K as [K _]. destruct (K eq_refl) as [_ N]. exfalso. apply N. now apply inb_iff in I.
      * destruct (keep x).
        -- cbn [m_names map]. rewrite <- app_assoc. reflexivity.
        -- exfalso. destruct K as [_ K]. discriminate K. split; [reflexivity|]. intros J. apply (inb_iff string_dec) in J. congruence.
    + destruct (keep x); [|reflexivity]. destruct K as [K _]. destruct (K eq_refl). discriminate.
Qed.
Print Assumptions C62_exactly.
Example C62_exactly_example : m_names (add_configs new_multi [("a", 1); ("configs", 5); ("b", 2); ("a", 3)]%string) = ["a"; "b"; "a"]%string /\
  valid_name "a" /\ ~ valid_name "configs".
Proof. split; [reflexivity|]. split; [split; [reflexivity|cbn; intuition discriminate]|]. intros [_ H]. apply H. cbn. tauto. Qed.
