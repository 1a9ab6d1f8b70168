(** Edge cases of earlier properties, continued (C53, C72, C96, C153, C160) *)
From Coq Require Import String Ascii List ZArith Reals Bool Lia Lra.
From Verif Require Import Base Base_Proofs Str_Model Str_Proofs Ids_Model Sca_Model Jac_Model Jac_Spec Imp_Model Mfs_Model.
Import ListNotations.
Local Open Scope string_scope.

(** the characters of names *)
Definition letters : string := "ABCDEFGHIJKLMNOPQRSTUVWXYZabcdefghijklmnopqrstuvwxyz_".
Definition digits : string := "0123456789".
Lemma letter_iff c : is_letter c = true <-> In c (list_ascii_of_string letters).
Proof.
  transitivity (existsb (Ascii.eqb c) (list_ascii_of_string letters) = true).
  - destruct c as [[] [] [] [] [] [] [] []]; vm_compute; split; trivial.
  - rewrite existsb_exists. split; [intros (x & I & E); apply Ascii.eqb_eq in E; subst; exact I|intros I; exists c; split; [exact I|apply Ascii.eqb_refl]].
Qed.
Lemma digit_iff c : is_digit c = true <-> In c (list_ascii_of_string digits).
Proof.
  transitivity (existsb (Ascii.eqb c) (list_ascii_of_string digits) = true).
  - destruct c as [[] [] [] [] [] [] [] []]; vm_compute; split; trivial.
  - rewrite existsb_exists. split; [intros (x & I & E); apply Ascii.eqb_eq in E; subst; exact I|intros I; exists c; split; [exact I|apply Ascii.eqb_refl]].
Qed.
(** an ID is left alone exactly if it is a letter (or underscore) followed by letters and digits and no keyword; otherwise it is prefixed *)
Theorem C53_names : forall s,
  (get_ID s = s <-> exists c r, s = String c r /\ In c (list_ascii_of_string letters) /\
     (forall d, In d (list_ascii_of_string r) -> In d (list_ascii_of_string (letters ++ digits))) /\ ~ In s kwlist) /\
  (get_ID s <> s -> get_ID s = "RT1_" ++ s).
Proof.
  intros s. assert (P : "RT1_" ++ s <> s) by (intros E; apply (f_equal String.length) in E; cbn in E; lia). unfold get_ID. destruct (isidentifier s) eqn:I; (split; [|try tauto]).
  - split; [intros _|reflexivity]. destruct s as [|c r]; [discriminate|]. unfold isidentifier in I. cbn [list_ascii_of_string] in I. rewrite !andb_true_iff, negb_true_iff in I.
    destruct I as [[A B] K]. exists c, r. split; [reflexivity|]. split; [apply letter_iff; exact A|]. split.
    + intros d Hd. rewrite forallb_forall in B. specialize (B d Hd). apply orb_true_iff in B. change (In d (list_ascii_of_string letters ++ list_ascii_of_string digits)%list).
      apply in_or_app. destruct B as [B|B]; [left; apply letter_iff|right; apply digit_iff]; exact B.
    + intros Hk. assert (X : existsb (String.eqb (String c r)) kwlist = true) by (apply existsb_exists; exists (String c r); split; [exact Hk|apply String.eqb_refl]). congruence.
  - split; [intros E; elim (P E)|]. intros (c & r & -> & A & B & K). exfalso. revert I. apply Bool.not_false_iff_true. unfold isidentifier. cbn [list_ascii_of_string].
    rewrite !andb_true_iff, negb_true_iff. split; [split; [apply letter_iff; exact A|]|].
    + apply forallb_forall. intros d Hd. specialize (B d Hd). change (In d (list_ascii_of_string letters ++ list_ascii_of_string digits)%list) in B. apply in_app_or in B.
      apply orb_true_iff. destruct B as [B|B]; [left; apply letter_iff|right; apply digit_iff]; exact B.
    + apply Bool.not_true_iff_false. intros X. apply existsb_exists in X. destruct X as (k & Ik & E). apply String.eqb_eq in E. subst k. exact (K Ik).
Qed.
Print Assumptions C53_names.
Example C53_names_example : get_ID "A9_z" = "A9_z" /\ get_ID "9A" = "RT1_9A" /\ get_ID "class" = "RT1_class" /\ get_ID "a b" = "RT1_a b" /\ get_ID "" = "RT1_".
Proof. repeat split. Qed.

(** a linear combination of no scattering functions is rejected *)
Theorem C72_no_functions : lincombSRF_init [] = Err ValueError /\ (exists o, lincombV_init [] = Ok o /\ set_legexpansion o = Err ValueError).
Proof. split; [reflexivity|]. eexists. split; reflexivity. Qed.
Print Assumptions C72_no_functions.
Example C72_no_functions_example : exists o, lincombSRF_init [Choice 1 default_a_S 1 iso_coefs (fun _ _ _ _ => 1%R)] = Ok o.
Proof. eexists. reflexivity. Qed.

Local Open Scope R_scope.
(** a product with a sum of two fitted symbols (tau = w (x y + y^2 / 2) by y): the two lists are put one after the other instead of being added *)
Theorem C96_sum_refuted : forall ufunc w11 w12 x y o1 o2,
  let fitted := [("x", [x]); ("y", [y])]%string in let aux := [("w", [[w11; w12]])]%string in
  let d := MUL (VAR "w") (ADD (VAR "x") (VAR "y")) in
  times_inner ufunc fitted aux d [o1; o2] = Ok [o1 * (w11 * x); o2 * (w12 * y)] /\
  map (fun c => nth c [o1; o2] 0 * value ufunc (at_obs fitted aux (fun _ _ => 0%nat) c) d) (seq 0 2) = [o1 * (w11 * (x + y)); o2 * (w12 * (x + y))].
Proof. intros. split; reflexivity. Qed.
Print Assumptions C96_sum_refuted.
(** a power of a fitted symbol is an error *)
Theorem C96_power_refuted : forall ufunc w x n outer, times_inner ufunc [("x", x)]%string [("w", w)]%string (MUL (VAR "w") (POW (VAR "x") n)) outer = Err TypeError.
Proof. reflexivity. Qed.
Print Assumptions C96_power_refuted.
Example C96_sum_example : times_inner (fun _ r => r) [("x", [1]); ("y", [2])]%string [("w", [[1; 1]])]%string (MUL (VAR "w") (ADD (VAR "x") (VAR "y"))) [1; 1] = Ok [1 * (1 * 1); 1 * (1 * 2)].
Proof. reflexivity. Qed.
Local Close Scope R_scope.

(** a configured module that is not a python source is an error and no module is registered; a python source is loaded under its stem *)
Theorem C153_not_python : forall Source exec (d : disc Source) f n sys,
  ((forall a, n <> a ++ ".py") \/ n = ".py" -> import_file Source exec d (f, n) sys = (sys, Err AttributeError)) /\
  (forall a s, n = a ++ ".py" -> a <> "" -> dget path_dec (f, n) d = Some s -> exec s = None ->
     snd (import_file Source exec d (f, n) sys) = Ok (Loaded (f, n) s) /\ dget string_dec a (fst (import_file Source exec d (f, n) sys)) = Some (Loaded (f, n) s)).
Proof.
  intros Source exec d f n sys. unfold import_file. cbn [snd]. unfold is_py. split.
  - intros [H|E]; [|subst n; reflexivity]. destruct (endswith ".py" n) eqn:E; [|reflexivity]. apply endswith_iff in E. destruct E as (a & ->). elim (H a). reflexivity.
  - intros a s En Ha D X. rewrite D, X. assert (P : endswith ".py" n = true) by (apply endswith_iff; exists a; exact En). rewrite P.
    assert (L : Nat.ltb 3 (String.length n) = true) by (apply Nat.ltb_lt; rewrite En, slength_app; destruct a; [congruence|cbn; lia]). rewrite L. cbn [andb negb fst snd]. split; [reflexivity|].
    assert (St : stem n = a).
    { unfold stem. rewrite En, slength_app. cbn [String.length]. replace (String.length a + 3 - 3) with (String.length a) by lia. clear. induction a as [|c a IH]; [reflexivity|]. cbn. rewrite IH. reflexivity. }
    rewrite St. apply dget_dset_same.
Qed.
Print Assumptions C153_not_python.
Example C153_not_python_example : import_file nat (fun _ => None) [(("/a", "m.txt"), 1); (("/a", "m.py"), 2)] ("/a", "m.txt") [] = ([], Err AttributeError) /\
  import_file nat (fun _ => None) [(("/a", "m.txt"), 1); (("/a", "m.py"), 2)] ("/a", "m.py") [] = ([("m", Loaded ("/a", "m.py") 2)], Ok (Loaded ("/a", "m.py") 2)).
Proof. split; reflexivity. Qed.

(** MultiFits: a configuration that was not added, an attribute that no one has set *)
Theorem C160_missing : forall A (s : state A) c name k o,
  (~ In name (m_names (s_multi s c)) -> config_attr s c name k = Err AssertionError) /\
  (In name (m_names (s_multi s c)) -> dget string_dec name (m_fit (s_multi s c)) = Some o -> ~ In k (keys (s_fit s o)) -> config_attr s c name k = Err AttributeError).
Proof.
  intros A s c name k o. unfold config_attr. split.
  - intros H. rewrite (proj2 (inb_false string_dec name _) H). reflexivity.
  - intros H D K. rewrite (proj2 (inb_iff string_dec name _) H), D. rewrite (proj1 (dget_none string_dec k _) K). reflexivity.
Qed.
Print Assumptions C160_missing.
Example C160_missing_example : let s := run (fun v : nat => v) (fun v => v) (fun _ => (0, 0, 0)) (fun _ => []) [Add 0 "a" 1] in
  config_attr s 0 "b" "dataset" = Err AssertionError /\ config_attr s 0 "a" "nosuch" = Err AttributeError /\ config_attr s 0 "a" "dataset" = Ok 0.
Proof. repeat split. Qed.
