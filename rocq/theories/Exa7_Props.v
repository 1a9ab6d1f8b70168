(** C158: the version of fit_db.h5 that [load_fit] uses. *)
From Coq Require Import Arith Bool String List.
From Verif Require Import Base Ldr_Model Ldr_Spec Ldr_Props.
Import ListNotations.
Local Open Scope string_scope.
Local Open Scope list_scope.

Section Version.
Context {C F : Type}.
Variable fit_of : C -> string -> res F.
Variables (r : nat) (Q : C -> Prop).

Lemma fit_db_version (s : db C) q : (forall x o, d_handler s r = Some (x, o) -> Q x) -> (forall c, d_file s r = Some c -> Q c) ->
  (forall x o, d_handler (snd (fit_db s q)) r = Some (x, o) -> Q x) /\ (forall x o, q = r -> fst (fit_db s q) = Ok (x, o) -> Q x).
Proof.
  intros H D. split.
  - intros x o. unfold fit_db. destruct (d_handler s q) as [h|]; [apply H|]. destruct (negb (d_scan s q)); [apply H|]. destruct (d_file s q) as [y|] eqn:E; [|apply H].
    cbn. unfold upd. destruct (Nat.eqb_spec r q) as [->|N]; [|apply H]. intros [= <- <-]. now apply D.
  - intros x o ->. unfold fit_db. destruct (d_handler s r) as [[h o']|] eqn:E; [intros [= <- <-]; now apply (H _ o')|].
    destruct (negb (d_scan s r)); [discriminate|]. destruct (d_file s r) as [y|] eqn:G; [|discriminate]. intros [= <- <-]. now apply D.
Qed.
Lemma load_version (s : db C) q ID : (forall x o, d_handler s r = Some (x, o) -> Q x) -> (forall c, d_file s r = Some c -> Q c) ->
  forall x o, d_handler (snd (load_from_hdf fit_of s q ID)) r = Some (x, o) -> Q x.
Proof.
  intros H D. unfold load_from_hdf. pose proof (fit_db_version s q H D) as [F1 _]. pose proof (fit_db_file s q) as [G1 G2].
  destruct (fit_db s q) as [[[y o]|e] s1]; [|exact F1]. cbn [snd] in *.
  set (s2 := if o then s1 else reset_cache s1).
  assert (K : (forall x o, d_handler s2 r = Some (x, o) -> Q x) /\ (forall c, d_file s2 r = Some c -> Q c)).
  { subst s2. destruct o; cbn; rewrite G1; split; auto. discriminate. }
  clearbody s2. destruct K as [K1 K2]. pose proof (fit_db_version s2 q K1 K2) as [F2 _]. destruct (fit_db s2 q) as [[[y' [|]]|e] s3]; exact F2.
Qed.
Lemma load_result (s : db C) ID : (forall x o, d_handler s r = Some (x, o) -> Q x) -> (forall c, d_file s r = Some c -> Q c) ->
  (exists c, Q c /\ fst (load_from_hdf fit_of s r ID) = fit_of c ID) \/
  (fst (load_from_hdf fit_of s r ID) = Err AssertionError /\ (d_file s r = None \/ d_scan s r = false)).
Proof.
  intros H D. unfold load_from_hdf, fit_db. destruct (d_handler s r) as [[x [|]]|] eqn:E.
  - rewrite E. left. exists x. split; [now apply (H x true)|reflexivity].
  - cbn. destruct (d_scan s r) eqn:S; cbn; [|right; auto]. destruct (d_file s r) as [c|] eqn:G; [|right; auto]. left. exists c. split; [now apply D|reflexivity].
  - destruct (d_scan s r) eqn:S; cbn; [|right; auto]. destruct (d_file s r) as [c|] eqn:G; [|right; auto]. cbn. unfold upd. rewrite Nat.eqb_refl. left. exists c. split; [now apply D|reflexivity].
Qed.
End Version.

(** After any history, [load_fit] uses a version of the file of this very result that was there since the last re-scan, or
    fails with an AssertionError; the latter only if the file is not there, or was not there when its folder was scanned. *)
Theorem C158_version : forall (C F : Type) (fit_of : C -> string -> res F) file ops r ID,
  (exists before after c, ops = before ++ after /\ now file before r = Some c /\ (forall q, ~ In (DRescan q) after) /\
     fst (load_from_hdf fit_of (drun fit_of file ops) r ID) = fit_of c ID) \/
  (fst (load_from_hdf fit_of (drun fit_of file ops) r ID) = Err AssertionError /\
     (now file ops r = None \/
      exists before after, ops = before ++ after /\ now file before r = None /\ ~ In (DRescan r) after /\
        (before = [] \/ exists l, before = l ++ [DRescan r]))).
Proof.
  intros C F fit_of file ops r ID.
  set (ver := fun l (c : C) => exists before after, l = before ++ after /\ now file before r = Some c /\ forall q, ~ In (DRescan q) after).
  set (gone := fun l => exists before after, l = before ++ after /\ now file before r = None /\ ~ In (DRescan r) after /\
        (before = [] \/ exists l, before = l ++ [DRescan r])).
  assert (V0 : forall l c, now file l r = Some c -> ver l c).
  { intros l c E. exists l, []. rewrite app_nil_r. split; [reflexivity|]. split; [exact E|]. intros q []. }
  assert (VS : forall l c a, ver l c -> (forall q, a <> DRescan q) -> ver (l ++ [a]) c).
  { intros l c a (b & f & -> & N & X) A. exists b, (f ++ [a]). split; [now rewrite app_assoc|]. split; [exact N|].
    intros q I. apply in_app_or in I. destruct I as [I|[I|[]]]; [now apply (X q)|now apply (A q)]. }
  assert (GS : forall l a, gone l -> a <> DRescan r -> gone (l ++ [a])).
  { intros l a (b & f & -> & N & X & Y) A. exists b, (f ++ [a]). split; [now rewrite app_assoc|]. split; [exact N|]. split; [|exact Y].
    intros I. apply in_app_or in I. destruct I as [I|[I|[]]]; [now apply X|now apply A]. }
  assert (INV : (forall x o, d_handler (drun fit_of file ops) r = Some (x, o) -> ver ops x) /\ (d_scan (drun fit_of file ops) r = false -> gone ops)).
  { induction ops as [|a l [IH1 IH2]] using rev_ind.
    - split; [discriminate|]. cbn. destruct (file r) eqn:E; [discriminate|]. intros _. exists [], []. repeat split; auto.
    - rewrite drun_app. pose proof (run_file fit_of file l r) as E. set (s := drun fit_of file l) in *.
      assert (D : forall c, d_file s r = Some c -> ver l c) by (intros c X; apply V0; congruence).
      destruct a as [q id|q|q|q x]; cbn [dstep].
      + destruct (load_file fit_of s q id) as [_ G]. split; [|rewrite G; intros X; apply GS; [auto|discriminate]].
        intros x o X. apply VS; [|discriminate]. exact (load_version fit_of r (ver l) s q id IH1 D x o X).
      + pose proof (fit_db_version r (ver l) s q IH1 D) as [F1 F2]. pose proof (fit_db_file s q) as [_ G].
        destruct (fit_db s q) as [[[y o]|e] s1]; cbn [snd fst] in *.
        * cbn. rewrite G. split; [|intros X; apply GS; [auto|discriminate]]. intros z o'. unfold upd. destruct (Nat.eqb_spec r q) as [->|N].
          -- intros [= <- <-]. apply VS; [|discriminate]. now apply (F2 y o).
          -- intros X. apply VS; [|discriminate]. now apply (F1 z o').
        * rewrite G. split; [|intros X; apply GS; [auto|discriminate]]. intros z o' X. apply VS; [|discriminate]. now apply (F1 z o').
      + cbn. split; [discriminate|]. unfold upd. destruct (Nat.eqb_spec r q) as [<-|N].
        * destruct (d_file s r) eqn:G; [discriminate|]. intros _. exists (l ++ [DRescan r]), []. rewrite app_nil_r. split; [reflexivity|].
          split; [rewrite now_app; congruence|]. split; [intros []|]. right. now exists l.
        * intros X. apply GS; [auto|]. congruence.
      + cbn. split; [intros z o X; apply VS; [now apply (IH1 z o)|discriminate]|]. intros X. apply GS; [auto|discriminate]. }
  destruct INV as [I1 I2]. pose proof (run_file fit_of file ops r) as E.
  destruct (load_result fit_of r (ver ops) (drun fit_of file ops) ID I1) as [(c & (b & f & B & N & X) & R)|[R G]].
  - intros c D. apply V0. congruence.
  - left. exists b, f, c. auto.
  - right. split; [exact R|]. destruct G as [G|G]; [left; congruence|right; exact (I2 G)].
Qed.
Print Assumptions C158_version.
Example C158_version_example :
  let ops := [DLoad 0 "a"; DWrite 0 (Some 5); DWrite 1 None; DClose 0] in
  fst (load_from_hdf eg_of (drun eg_of (fun r => Some r) ops) 0 "a") = Ok 5 /\
  fst (load_from_hdf eg_of (drun eg_of (fun r => Some r) ops) 1 "a") = Err AssertionError /\
  now (fun r => Some r) ops 1 = None /\ now (fun r => Some r) [DLoad 0 "a"; DWrite 0 (Some 5)] 0 = Some 5.
Proof. repeat split; reflexivity. Qed.
