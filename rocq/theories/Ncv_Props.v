(** C227: the overview of the NetCDF-files. *)
From Coq Require Import Arith Bool String Ascii List.
From Verif Require Import Base Str_Model Rdr_Model Ldr_Model Ldr_Spec Ldr_Props Ncv_Model Ncv_Spec.
Import ListNotations.
Local Open Scope string_scope.
Local Open Scope list_scope.

Lemma nc_ending : proper_ending ".nc".
Proof. exists "nc". repeat split; discriminate. Qed.
Lemma show_overview {D} (open : string -> res D) l : listing ".nc" l -> forall names, (forall r, In r names -> file_in l (r ++ ".nc")%string) ->
  overview open (map (fun r => r ++ ".nc")%string names) (fst (show open (Some l) names)) (snd (show open (Some l) names)).
Proof.
  intros L names. induction names as [|r rest IH]; intros H; [constructor|]. cbn [show map]. unfold load_nc.
  rewrite (proj2 (C157_by_name ".nc" l r (r ++ ".nc")%string nc_ending L)) by (split; [apply H; now left|reflexivity]). cbn [bind].
  destruct (open (r ++ ".nc")%string) as [d|e] eqn:E; [|now apply ov_unreadable].
  specialize (IH (fun x I => H x (or_intror I))). destruct (show open (Some l) rest) as [out e]. cbn [fst snd] in *. now constructor.
Qed.
(** All NetCDF-files of the folder are shown, each once and with its own contents, up to the first one that can not be
    read; without such files it is an AssertionError. *)
Theorem C227_overview : forall (D : Type) (open : string -> res D) l, listing ".nc" l ->
  exists files, nc_files l files /\
    (files = [] -> netcdf_variables open (Some l) = ([], Some AssertionError)) /\
    (files <> [] -> overview open files (fst (netcdf_variables open (Some l))) (snd (netcdf_variables open (Some l)))).
Proof.
  intros D open l L. unfold netcdf_variables. rewrite (get_results_eq ".nc" l nc_ending L).
  pose proof (in_results ".nc" l) as I. specialize (fun k f => I k f nc_ending L). pose proof (results_nodup ".nc" l nc_ending L) as N. set (r := map _ _) in *. clearbody r.
  exists (map (fun k => k ++ ".nc")%string (keys r)). split; [split|split].
  - clear I. induction (keys r) as [|k ks IH]; [constructor|]. apply NoDup_cons_iff in N. destruct N as [A N]. cbn [map]. constructor; [|now apply IH].
    intros X. apply in_map_iff in X. destruct X as (q & E & X). apply sapp_inj_r in E. congruence.
  - intros f. split.
    + intros X. apply in_map_iff in X. destruct X as (k & <- & X). apply in_map_iff in X. destruct X as ([k' g] & <- & X). apply I in X. destruct X as [X ->]. split; [exact X|]. now exists k'.
    + intros [X [a ->]]. apply (in_map (fun k => k ++ ".nc")%string). apply (in_map fst r (a, (a ++ ".nc")%string)). now apply I.
  - intros E. destruct r; [reflexivity|discriminate].
  - intros E. destruct (Nat.eqb_spec (List.length r) 0) as [Z|Z]; [destruct r; [now elim E|discriminate]|].
    apply show_overview; [exact L|]. intros k X. apply in_map_iff in X. destruct X as ([k' g] & <- & X). apply I in X. now destruct X as [X ->].
Qed.
Print Assumptions C227_overview.
(** Nothing is printed if there is no results-folder: an AssertionError. *)
Theorem C227_no_folder : forall (D : Type) (open : string -> res D), netcdf_variables open None = ([], Some AssertionError).
Proof. reflexivity. Qed.
Print Assumptions C227_no_folder.
Example C227_example : listing ".nc" eg_l /\
  netcdf_variables (fun f => if String.eqb f "c.v2.nc" then Err ValueError else Ok (String.length f)) (Some eg_l)
    = ([Title "a.nc"; Shown 4; Title "b.nc"; Shown 4; Title "c.v2.nc"], Some ValueError).
Proof. split; [apply C157_example|reflexivity]. Qed.
