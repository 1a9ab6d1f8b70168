(** C153, C154: the modules of a run *)
From Coq Require Import String Ascii Arith Bool Lia List.
From Verif Require Import Base Base_Proofs Str_Model Imp_Model Imp_Spec Imp_Proofs.
Import ListNotations.
Local Open Scope string_scope.
Local Open Scope list_scope.

(** ** C153: the code of the modules *)
(** copy=True and a new folder: every module is the code of its file, provided that the files have different names *)
Theorem C153_copies_partial : forall Source exec cfgdir sec ms (d : disc Source) sys,
  lists sec ms -> NoDup (keys sec) -> distinct_files ms ->
  (forall m p, In (m, p) ms -> importable exec d p /\ dget path_dec (cfgdir, snd p) d = None) ->
  exists d' sys' r, setup_modules Source exec cfgdir true sec d sys = (d', sys', Ok r) /\
    forall m p, In (m, p) ms -> exists s, dget path_dec p d = Some s /\ dget string_dec m r = Some (Loaded (cfgdir, snd p) s).
Proof.
  intros Source exec cfgdir sec ms d sys L N D I. unfold setup_modules.
  destruct (copy_all Source exec cfgdir sec ms L d D) as (d' & E & _ & C & _).
  { intros m p H. destruct (I m p H) as [(_ & s & Es & _) Nn]. split; [congruence|]. split; [|exact Nn]. intros E. destruct p as [f n]. cbn [fst snd] in *. subst f. congruence. }
  rewrite E. unfold get_all_modules.
  destruct (get_all_ok Source exec cfgdir sec d' true sec ms L (fun m p h => lists_get sec ms m p L N h) (lists_keys sec ms L N)) with (acc := @nil (string * modul Source)) (sys := sys) as (sys' & r & E1 & E2 & _).
  { intros m p H. destruct (I m p H) as [(P & s & Es & X) _]. unfold origin. split; [exact P|]. exists s. split; [rewrite (C m p H); exact Es|exact X]. }
  { intros m _ []. }
  rewrite E1. exists d', sys', r. split; [reflexivity|]. intros m p H. destruct (E2 m p H) as (s & Es & Er). exists s.
  unfold origin in *. rewrite (C m p H) in Es. auto.
Qed.
Print Assumptions C153_copies_partial.

(** copy=False: the modules are those of the config-file, the disc is not changed *)
Theorem C153_originals : forall Source exec cfgdir sec ms (d : disc Source) sys,
  lists sec ms -> NoDup (keys sec) -> (forall m p, In (m, p) ms -> importable exec d p) ->
  exists sys' r, setup_modules Source exec cfgdir false sec d sys = (d, sys', Ok r) /\
    forall m p, In (m, p) ms -> exists s, dget path_dec p d = Some s /\ dget string_dec m r = Some (Loaded p s).
Proof.
  intros Source exec cfgdir sec ms d sys L N I. unfold setup_modules, get_all_modules.
  destruct (get_all_ok Source exec cfgdir sec d false sec ms L (fun m p h => lists_get sec ms m p L N h) (lists_keys sec ms L N) I) with (acc := @nil (string * modul Source)) (sys := sys) as (sys' & r & E1 & E2 & _).
  { intros m _ []. }
  rewrite E1. exists sys', r. split; [reflexivity|]. exact E2.
Qed.
Print Assumptions C153_originals.

(** once a module is in the folder of the run, it stays the same, whatever runs are set up and whatever is edited elsewhere *)
Theorem C153_frozen : forall Source exec cfgdir (d : disc Source) events n s, Forall (outside cfgdir) events ->
  dget path_dec (cfgdir, n) d = Some s -> dget path_dec (cfgdir, n) (fold_left (happens Source exec cfgdir) events d) = Some s.
Proof.
  intros Source exec cfgdir d events n s F. revert d. induction F as [|e es O F IH]; intros d H; [exact H|]. cbn [fold_left]. apply IH.
  apply happens_keep; [exact O|reflexivity|exact H].
Qed.
Print Assumptions C153_frozen.

(** two modules in different folders with the same file name: with copy=True the second one is the code of the first *)
Theorem C153_same_name_refuted : forall Source exec cfgdir (f g n : string) (a b : Source),
  f <> g -> f <> cfgdir -> g <> cfgdir -> is_py n = true -> exec a = None ->
  let d := [((f, n), a); ((g, n), b)] in
  exists d' sys' r, setup_modules Source exec cfgdir true [("module__x", (f, n)); ("module__y", (g, n))] d [] = (d', sys', Ok r) /\
    dget string_dec "y" r = Some (Loaded (cfgdir, n) a) /\ dget path_dec (g, n) d' = Some b.
Proof.
  intros Source exec cfgdir f g n a b H1 H2 H3 P X. unfold setup_modules. cbn [copy_modules]. change (startswith "module__" "module__x") with true. change (startswith "module__" "module__y") with true. cbn [negb fst snd].
  assert (N1 : dget path_dec (cfgdir, n) [((f, n), a); ((g, n), b)] = None).
  { cbn [dget]. destruct (path_dec (cfgdir, n) (f, n)); [congruence|]. destruct (path_dec (cfgdir, n) (g, n)); [congruence|reflexivity]. }
  assert (N2 : dget path_dec (f, n) [((f, n), a); ((g, n), b)] = Some a).
  { cbn [dget]. destruct (path_dec (f, n) (f, n)); [reflexivity|congruence]. }
  assert (N3 : dget path_dec (g, n) [((f, n), a); ((g, n), b)] = Some b).
  { cbn [dget]. destruct (path_dec (g, n) (f, n)); [congruence|]. destruct (path_dec (g, n) (g, n)); [reflexivity|congruence]. }
  rewrite N1, N2. rewrite dget_dset_same. set (d' := dset path_dec (cfgdir, n) a _).
  assert (C : dget path_dec (cfgdir, n) d' = Some a) by apply dget_dset_same.
  unfold get_all_modules. cbn [get_all]. change (startswith "module__" "module__x") with true. change (startswith "module__" "module__y") with true. cbn [negb].
  unfold get_module. change (drop 8 "module__x") with "x". change (drop 8 "module__y") with "y". change ("module__" ++ "x")%string with "module__x". change ("module__" ++ "y")%string with "module__y".
  cbn [dget]. destruct (string_dec "module__x" "module__x"); [|congruence]. destruct (string_dec "module__y" "module__x"); [discriminate|]. destruct (string_dec "module__y" "module__y"); [|congruence].
  cbn [snd]. rewrite C. unfold import_file. cbn [snd]. rewrite P, C, X. cbn [negb]. eexists d', _, _. split; [reflexivity|]. split; [reflexivity|].
  unfold d'. rewrite dget_dset_other; [exact N3|congruence].
Qed.
Print Assumptions C153_same_name_refuted.

(** the documented entry "copy" of the section has no effect *)
Theorem C153_copy_entry_refuted : forall Source exec cfgdir sec (d : disc Source) sys p c,
  setup_modules Source exec cfgdir c (("copy", p) :: sec) d sys = setup_modules Source exec cfgdir c sec d sys.
Proof.
  intros Source exec cfgdir sec d sys p c. unfold setup_modules, get_all_modules. cbn [copy_modules get_all]. change (startswith "module__" "copy") with false. cbn [negb].
  assert (G : forall d load m sys, get_module Source exec cfgdir (("copy", p) :: sec) d load m sys = get_module Source exec cfgdir sec d load m sys).
  { intros. unfold get_module. cbn [dget]. destruct (string_dec ("module__" ++ m) "copy"); [discriminate|reflexivity]. }
  assert (A : forall items d load acc sys, get_all Source exec cfgdir (("copy", p) :: sec) items d load acc sys = get_all Source exec cfgdir sec items d load acc sys).
  { induction items as [|[k q] r IH]; intros; cbn [get_all]; [reflexivity|]. destruct (negb (startswith "module__" k)); [apply IH|]. rewrite G.
    destruct (get_module _ _ _ _ _ _ _ _) as [s [m|e]]; [apply IH|reflexivity]. }
  destruct c; [destruct (copy_modules Source cfgdir sec d) as [d' [[]|e]]; [|reflexivity]|]; rewrite A; reflexivity.
Qed.
Print Assumptions C153_copy_entry_refuted.

(** ** C154: sys.modules *)
(** after the import, the name of each file refers to its module and all other names are unchanged, provided that
    the names of the files (without .py) are different *)
Theorem C154_names_partial : forall Source exec cfgdir sec ms (d : disc Source) sys,
  lists sec ms -> NoDup (keys sec) -> (forall m p, In (m, p) ms -> importable exec d p) ->
  exists sys' r, get_all_modules Source exec cfgdir sec d false sys = (sys', Ok r) /\
    (forall n, ~ In n (map (fun x => stem (snd (snd x))) ms) -> dget string_dec n sys' = dget string_dec n sys) /\
    (NoDup (map (fun x => stem (snd (snd x))) ms) -> forall m p, In (m, p) ms ->
       exists s, dget path_dec p d = Some s /\ dget string_dec (stem (snd p)) sys' = Some (Loaded p s)).
Proof.
  intros Source exec cfgdir sec ms d sys L N I. unfold get_all_modules.
  destruct (get_all_ok Source exec cfgdir sec d false sec ms L (fun m p h => lists_get sec ms m p L N h) (lists_keys sec ms L N) I) with (acc := @nil (string * modul Source)) (sys := sys) as (sys' & r & E1 & E2 & _ & E4 & E5).
  { intros m _ []. }
  exists sys', r. split; [exact E1|]. split; [exact E4|]. intros Ns m p H. destruct (E2 m p H) as (s & Es & Er). exists s. split; [exact Es|]. rewrite (E5 Ns m p H). exact Er.
Qed.
Print Assumptions C154_names_partial.

(** a module whose file has the name of a module that is already imported replaces it for everybody *)
Theorem C154_replaced_refuted : forall Source exec cfgdir sec m p (d : disc Source) sys n,
  dget string_dec ("module__" ++ m)%string sec = Some p -> importable exec d p -> dget string_dec (stem (snd p)) sys = Some (Foreign n) ->
  exists s, dget string_dec (stem (snd p)) (fst (get_module Source exec cfgdir sec d false m sys)) = Some (Loaded p s).
Proof.
  intros Source exec cfgdir sec m p d sys n H I F. unfold get_module. rewrite H. destruct (import_ok Source exec d p sys I) as (s & _ & E). rewrite E. exists s. apply dget_dset_same.
Qed.
Print Assumptions C154_replaced_refuted.

(** a module whose import fails stays in sys.modules *)
Theorem C154_broken_refuted : forall Source exec cfgdir (sec : configfiles) m (p : path) (d : disc Source) sys s e,
  dget string_dec ("module__" ++ m)%string sec = Some p -> is_py (snd p) = true -> dget path_dec p d = Some s -> exec s = Some e ->
  get_module Source exec cfgdir sec d false m sys = (dset string_dec (stem (snd p)) (Broken p) sys, Err e).
Proof. intros Source exec cfgdir sec m p d sys s e H1 H2 H3 H4. unfold get_module. rewrite H1. unfold import_file. rewrite H2, H3, H4. reflexivity. Qed.
Print Assumptions C154_broken_refuted.

Definition eg_exec (s : nat) : option pyerr := if Nat.eqb s 0 then Some ValueError else None.
Definition eg_sec : configfiles := [("module__processing_cfg", ("/home", "cfg.py")); ("comment", ("", "x")); ("module__b", ("/lib", "random.py"))].
Definition eg_disc : disc nat := [(("/home", "cfg.py"), 7); (("/lib", "random.py"), 8); (("/home", "bad.py"), 0)].
Example C153_example :
  lists eg_sec [("processing_cfg", ("/home", "cfg.py")); ("b", ("/lib", "random.py"))] /\ NoDup (keys eg_sec) /\
  distinct_files [("processing_cfg", ("/home", "cfg.py")); ("b", ("/lib", "random.py"))] /\
  importable eg_exec eg_disc ("/home", "cfg.py") /\ importable eg_exec eg_disc ("/lib", "random.py") /\
  dget path_dec ("/run/cfg", "cfg.py") eg_disc = None /\ outside "/run/cfg" (Edit ("/home", "cfg.py") 9) /\ is_py "cfg.py" = true /\ eg_exec 7 = None.
Proof.
  split; [apply (lists_module "processing_cfg"), lists_other, (lists_module "b"), lists_nil; reflexivity|].
  split; [repeat constructor; simpl; intuition discriminate|]. split; [unfold distinct_files; simpl; repeat constructor; simpl; intuition discriminate|].
  split; [split; [reflexivity|exists 7; split; reflexivity]|]. split; [split; [reflexivity|exists 8; split; reflexivity]|]. repeat split. simpl. discriminate.
Qed.
Example C154_example : stem "random.py" = "random" /\
  dget string_dec "random" (fst (get_all_modules nat eg_exec "/run/cfg" eg_sec eg_disc false [("random", Foreign 1); ("copy", Foreign 2)])) = Some (Loaded ("/lib", "random.py") 8) /\
  dget string_dec "copy" (fst (get_all_modules nat eg_exec "/run/cfg" eg_sec eg_disc false [("random", Foreign 1); ("copy", Foreign 2)])) = Some (Foreign 2) /\
  eg_exec 0 = Some ValueError.
Proof. repeat split; reflexivity. Qed.
