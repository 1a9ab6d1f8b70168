(** C222: assigning what defines a fit empties the caches of all fits; warnings are logged once until then. *)
From Coq Require Import List Arith Bool String Lia.
From Verif Require Import Base Base_Proofs Clr_Model Clr_Spec Clr_Proofs.
Import ListNotations.
Local Open Scope list_scope.

(** after an operation that empties: no entry of any decorated function, whatever happened before *)
Theorem C222_cleared n ops x : 1 <= n -> empties x -> all_empty (run n (ops ++ [x]) start).
Proof.
  intros Hn E line name I. unfold run. rewrite fold_left_app. cbn [fold_left]. fold (run n ops start).
  pose proof (run_good n Hn ops start start_good) as G.
  assert (J : In name cached_props).
  { assert (X : forallb (fun p => inb string_dec (snd p) cached_props) decorated = true) by reflexivity.
    rewrite forallb_forall in X. apply X, inb_iff in I. exact I. }
  destruct x as [a o|o m|o l|o a|o]; try contradiction; cbn [step].
  - rewrite setattr_eq. unfold empties, defines in E. apply inb_iff with (eqd := string_dec) in E. rewrite E.
    now apply clear_empty.
  - now apply clear_empty.
Qed.

(** every other assignment leaves all caches and the log alone *)
Theorem C222_kept n o a s : ~ defines a -> step n s (OSetattr o a) = s.
Proof.
  intros N. cbn [step]. rewrite setattr_eq. destruct (inb string_dec a _) eqn:E; [|reflexivity].
  apply inb_iff in E. contradiction.
Qed.

(** until then every warning there is a reason for is logged exactly once *)
Theorem C222_once n ops : 1 <= n -> List.Forall (fun x => ~ empties x) ops -> List.length (nodup key_dec (due ops)) <= n ->
  NoDup (logged (run n ops start)) /\ (forall k, In k (logged (run n ops start)) <-> In k (due ops)).
Proof.
  intros Hn F B. pose proof (view_run n ops F start) as V.
  destruct (fold_same n (due ops) (view start)) as [(S1 & _) S2].
  - repeat split; try constructor; cbn; tauto.
  - exact B.
  - unfold view at 1 in V. assert (L : logged (run n ops start) = snd (fold_left (lstep n) (due ops) (view start))) by now rewrite <- V.
    rewrite L. split; [exact S1|]. intros k. rewrite S2. cbn. tauto.
Qed.

(** afterwards the log continues as in a new session *)
Theorem C222_again n ops x ops' : 1 <= n -> empties x ->
  logged (run n (ops ++ x :: ops') start) = logged (run n ops start) ++ logged (run n ops' start).
Proof.
  intros Hn E. unfold run at 1. rewrite fold_left_app. cbn [fold_left].
  fold (run n ops start). fold (run n ops' (step n (run n ops start) x)).
  pose proof (run_good n Hn ops start start_good) as G.
  pose proof (view_empties n (run n ops start) x G E) as V. unfold view in V. injection V as V1 V2.
  apply run_frame; [exact Hn|now apply step_good|apply start_good|exact V1|]. now rewrite V2, app_nil_r.
Qed.

(** with more different warnings than the cache has places, the first one is logged again *)
Theorem C222_many n ops k l : 1 <= n -> List.Forall (fun x => ~ empties x) ops ->
  due ops = k :: l ++ [k] -> NoDup (k :: l) -> List.length l = n -> logged (run n ops start) = due ops.
Proof.
  intros Hn F D N L. pose proof (view_run n ops F start) as V. rewrite D in V.
  change (k :: l ++ [k]) with ((k :: l) ++ [k]) in V. rewrite fold_left_app in V.
  unfold view at 2 in V. cbn [caches logged start] in V.
  rewrite (fold_fresh n Hn (k :: l) [] []) in V; [|exact N|intros; tauto|cbn; lia].
  cbn [fold_left] in V. unfold lstep, view in V. cbn [fst snd] in V. apply (f_equal snd) in V. cbn [snd] in V. rewrite V, D. clear V.
  assert (X : inb key_dec k (firstn n (rev (k :: l) ++ [])) = false).
  { cbn [rev]. rewrite app_nil_r, firstn_app, rev_length, L, Nat.sub_diag. cbn [firstn]. rewrite app_nil_r.
    rewrite firstn_all2 by (rewrite rev_length; lia).
    destruct (inb key_dec k (rev l)) eqn:E; [|reflexivity]. apply inb_iff, in_rev in E. inversion N; contradiction. }
  rewrite X. reflexivity.
Qed.
Print Assumptions C222_cleared.
Print Assumptions C222_kept.
Print Assumptions C222_once.
Print Assumptions C222_again.
Print Assumptions C222_many.

(** two fits; the first one has a parameter with non-monotonic groups and one with a single value *)
Example C222_example :
  let a := mkitem "omega" false true true in
  let b := mkitem "tau" true true false in
  let ops := [OSetModel 0 11; OProp "inc" 0; OAssign 0 [a; b]; OAssign 0 [a; b]; OAssign 1 [a]] in
  let s := run 128 ops start in
  caches s "set_model" <> [] /\ caches s "_meandt_interp_assigns" = [(1, ["omega"]); (0, ["omega"])]%string /\
  logged s = [(0, ["interp_non_mono"; "omega"]); (0, ["interp_1_val"; "tau"]); (1, ["interp_non_mono"; "omega"])]%string /\
  all_empty (run 128 (ops ++ [OSetattr 1 "sig0"%string]) start) /\
  logged (run 128 (ops ++ OSetattr 1 "sig0"%string :: [OAssign 0 [b]]) start) = logged s ++ [(0, ["interp_1_val"; "tau"])]%string /\
  run 128 (ops ++ [OSetattr 1 "lsq_kwargs"%string]) start = s /\
  (* one place only: the two warnings push each other out *)
  logged (run 1 [OAssign 0 [a; b]; OAssign 0 [a]] start) =
    [(0, ["interp_non_mono"; "omega"]); (0, ["interp_1_val"; "tau"]); (0, ["interp_non_mono"; "omega"])]%string.
Proof.
  cbv zeta. split; [vm_compute; discriminate|]. split; [vm_compute; reflexivity|]. split; [vm_compute; reflexivity|].
  split; [apply C222_cleared; [lia|cbn; tauto]|]. split; [vm_compute; reflexivity|]. split; [|vm_compute; reflexivity].
  unfold run at 1. rewrite fold_left_app. cbn [fold_left]. apply C222_kept.
  intros I. cbn in I. intuition discriminate.
Qed.
