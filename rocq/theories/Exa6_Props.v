(** C91: how often an ID is stored. *)
From Coq Require Import String List ZArith Arith Bool Lia Permutation.
From Verif Require Import Base Ids_Model Ids_Spec Ids_Props.
Import ListNotations.
Local Open Scope list_scope.
Local Open Scope string_scope.

Lemma todo_filter {Arg} (raw_id : Arg -> string) f args todo : check_IDs (default_feature raw_id) f args = Ok todo ->
  map fst todo = filter (fun a => negb (inb string_dec (get_ID (raw_id a)) (map get_ID (stored_ids f)))) args.
Proof.
  intros C. destruct f as [| |rows]; cbn in C; inversion C; subst; clear C; rewrite number_fst.
  - induction args as [|a r E]; [reflexivity|]. cbn. rewrite E at 1. reflexivity.
  - unfold stored_ids. cbn [rows_of]. rewrite map_map. reflexivity.
Qed.
Lemma count_filter_le {A} (g : A -> string) p s l : count_occ string_dec (map g (filter p l)) s <= count_occ string_dec (map g l) s.
Proof.
  induction l as [|a r IH]; [apply Nat.le_refl|]. cbn [filter]. destruct (p a); cbn [map count_occ]; destruct (string_dec (g a) s); lia.
Qed.
(** with the default [get_names_ids] an ID is stored at most as often as it
    occurs in one list of arguments: several runs never add to each other *)
Theorem C91_times (Arg : Type) (raw_id : Arg -> string) (f : file) (s : string) (k : nat) :
  history raw_id (default_feature raw_id) (fun args => count_occ string_dec (map (fun a => get_ID (raw_id a)) args) s <= k) f ->
  count_occ string_dec (map get_ID (stored_ids f)) s <= k.
Proof.
  intros H. induction H as [|f args todo done lost H IH O C P|]; try apply Nat.le_0_l.
  pose proof (todo_filter raw_id f args todo C) as T.
  unfold stored_ids in *. rewrite append_rows_rows, !map_app, count_occ_app.
  assert (D : count_occ string_dec (map get_ID (map fst (map (stored_row raw_id) done))) s <= count_occ string_dec (map (fun a => get_ID (raw_id a)) (map fst todo)) s).
  { rewrite !map_map. cbn [stored_row fst].
    assert (Q : Permutation (map (fun d => get_ID (raw_id (fst d))) (done ++ lost)) (map (fun d => get_ID (raw_id (fst d))) todo)) by now apply Permutation_map.
    rewrite <- (proj1 (Permutation_count_occ string_dec _ _) Q s). rewrite map_app, count_occ_app. lia. }
  destruct (in_dec string_dec s (map get_ID (map fst (rows_of f)))) as [I|I].
  - assert (Z0 : count_occ string_dec (map (fun a => get_ID (raw_id a)) (map fst todo)) s = 0).
    { apply count_occ_not_In. intros X. apply in_map_iff in X. destruct X as (a & E & X). rewrite T in X. apply filter_In in X. destruct X as [_ X].
      unfold inb in X. rewrite E in X. destruct (in_dec string_dec s _); [discriminate|contradiction]. }
    lia.
  - apply (count_occ_not_In string_dec) in I. rewrite I. rewrite T in D. pose proof (count_filter_le (fun a => get_ID (raw_id a)) (fun a => negb (inb string_dec (get_ID (raw_id a)) (map get_ID (map fst (rows_of f))))) s args). cbn beta in *. lia.
Qed.
Print Assumptions C91_times.
Example C91_times_example : history (fun s : string => s) (default_feature (fun s => s)) (fun args => count_occ string_dec (map get_ID args) (get_ID "a") <= 2) (Table [("a", 0%Z); ("a", 1%Z)]) /\
  count_occ string_dec (map get_ID (stored_ids (Table [("a", 0%Z); ("a", 1%Z)]))) (get_ID "a") = 2.
Proof.
  split; [|reflexivity].
  apply (hrun _ _ _ (Table [("a", 0%Z); ("a", 1%Z)]) ["a"] [] [] [] _); [reflexivity| |cbv; lia|reflexivity|reflexivity].
  apply (hrun _ _ _ NoFile ["a"; "a"] [("a", 0%Z); ("a", 1%Z)] [("a", 0%Z); ("a", 1%Z)] [] _); [reflexivity|apply h_new|cbv; lia|reflexivity|reflexivity].
Qed.
