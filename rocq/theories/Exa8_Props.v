(** C214: when the volume contribution has an element for each angle. *)
From Coq Require Import Reals List Bool Arith String Lia Lra.
From Verif Require Import Base RT_Model Int_Model Arr_Model Arr_Spec Arr_Proofs Arr_Props.
Import ListNotations.
Local Open Scope R_scope.

(** Total and surface contribution always have an element for each incidence angle; the volume contribution has exactly if
    tau is an array or positive, or there is only one angle. *)
Theorem C214_exactly : forall py o t s v, acalc py o = Ok (t, s, v) ->
  let for_all_angles (x : arr R) := (List.length (shape (a_t0 o)) <= List.length (shape x))%nat /\
     forall i, nth i (shape (a_t0 o)) 1%nat = 1%nat \/ nth i (shape (a_t0 o)) 1%nat = nth i (shape x) 1%nat in
  for_all_angles t /\ for_all_angles s /\
  (for_all_angles v <-> py = false \/ 0 < data (a_tau o) [] \/ shape (a_t0 o) = [] \/ shape (a_t0 o) = [1%nat]).
Proof.
  intros py o t s v E. cbv zeta.
  assert (G : (py = false \/ 0 < data (a_tau o) []) \/ (py = true /\ ~ 0 < data (a_tau o) [])).
  { destruct py; [|auto]. destruct (Rlt_dec 0 (data (a_tau o) [])); auto. }
  destruct G as [G|[-> G]].
  - pose proof (C214_shape py o t s v E G) as H. split; [apply H; cbn; auto|]. split; [apply H; cbn; auto|]. split; [tauto|]. intros _. apply H. cbn. auto.
  - unfold acalc in E. destruct (asurface o) as [s'|] eqn:Es; [|discriminate]. cbn [bind] in E. destruct (Rlt_dec 0 (data (a_tau o) [])); [contradiction|]. cbn [bind] in E.
    destruct (op2 Rplus s' _) as [t'|] eqn:Et; [|discriminate]. cbn [bind] in E. inversion E; subst; clear E.
    destruct (proj1 (C212_shape o s) Es) as (A1 & _ & A3). assert (IS : In (shape (a_t0 o)) (surface_shapes o)) by (unfold surface_shapes; cbn; tauto).
    specialize (A1 _ IS). pose proof (fun i => proj1 (A3 i) _ IS) as HS.
    pose proof (op2_shape _ _ _ _ _ _ _ Et) as St. split; [|split; [split; [exact A1|exact HS]|]].
    + split; [rewrite (bshape_len _ _ _ St); lia|]. intros i. pose proof (bshape_nth _ _ _ St i) as D. apply dim_some in D. specialize (HS i). lia.
    + cbn [shape]. split.
      * intros [L H]. right; right. specialize (H 0%nat). destruct (shape (a_t0 o)) as [|k [|m l]]; [now left| |cbn in L; lia]. cbn in H. right. f_equal. lia.
      * intros [X|[X|[X|X]]]; [discriminate|contradiction| |]; rewrite X; cbn; (split; [lia|]); intros [|[|i]]; left; reflexivity.
Qed.
Print Assumptions C214_exactly.
Example C214_exactly_example : let o := mka (ex_num 1) "mono" (mkarr [2%nat] (fun ix => INR (nth 0 ix 0%nat) / 10)) (mkarr [1%nat] (fun _ => 0)) (ex_num 0) (ex_num 0)
    (ex_num 0) (ex_num (1/2)) (ex_num (1/5)) (ex_num 0) [] ex_f ex_f in
  (exists r, acalc true o = Ok r) /\ ~ 0 < data (a_tau o) [] /\ shape (a_t0 o) = [2%nat].
Proof.
  cbv zeta. destruct C214_example as (t & s & v & H & _). split; [eexists; exact H|]. cbn. split; [lra|reflexivity].
Qed.
