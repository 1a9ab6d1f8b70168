(** Edge cases of earlier properties, continued (C38, C46, C84, C107, C151) *)
From Coq Require Import Reals String Ascii List ZArith Bool Lia Lra.
From Verif Require Import Base Base_Proofs Str_Model.
From Verif Require Con_Model Met_Model Exp_Model Log_Model Log_Spec Log_Props.
Import ListNotations.

(** bounds that cannot be unpacked (numbers, truth values, None) are rejected with a TypeError, whatever else is given *)
Theorem C38_bounds_rejected : forall a b c m i x, (m = Con_Model.VNone \/ (exists t, m = Con_Model.VBool t) \/ (exists q, m = Con_Model.VNum q)) ->
  Con_Model.from_list [a; b; c; m; i] x = Err TypeError /\ Con_Model.from_list [a; b; c; Con_Model.VList [m; m]; i] x = Err TypeError.
Proof. intros a b c m i x [->|[[t ->]|[q ->]]]; split; reflexivity. Qed.
Print Assumptions C38_bounds_rejected.
Example C38_bounds_example x : Con_Model.from_list [Con_Model.VBool true; Con_Model.VNone; Con_Model.VNone; Con_Model.VNone; Con_Model.VBool false] x = Err TypeError.
Proof. apply (C38_bounds_rejected _ _ _ Con_Model.VNone). auto. Qed.

(** the ratio of standard deviations with a constant second series: infinite and positive, or NaN if both are constant *)
Theorem C46_constant_series : forall a b u, Met_Model.std a = Some u -> Met_Model.std b = Some 0%R ->
  Met_Model.std_ratio a b = (if Req_EM_T u 0 then Met_Model.NaN else Met_Model.Inf true).
Proof.
  intros a b u Ea Eb. unfold Met_Model.std_ratio, Met_Model.fdiv. rewrite Ea, Eb. destruct (Req_EM_T 0 0) as [_|E]; [|congruence].
  assert (P : (0 <= u)%R). { unfold Met_Model.std in Ea. cbv zeta in Ea. destruct (Met_Model.cov _ _); [|discriminate]. cbn in Ea. inversion Ea. apply sqrt_pos. }
  destruct (Req_EM_T u 0) as [->|N]; [reflexivity|]. destruct (Rlt_dec 0 u) as [L|L]; [reflexivity|]. exfalso. lra.
Qed.
Print Assumptions C46_constant_series.
Example C46_constant_example : Met_Model.std [(1, Some 5%R); (2, Some 5%R)]%Z = Some 0%R.
Proof.
  unfold Met_Model.std, Met_Model.cov, Met_Model.dev, Met_Model.dot. cbn. f_equal.
  assert (A : Met_Model.avg [5; 5]%R = 5%R) by (unfold Met_Model.avg; cbn; lra). rewrite A.
  match goal with |- sqrt ?x = _ => replace x with 0%R by lra end. apply sqrt_0.
Qed.

(** entries of lists are stripped of exactly the ASCII characters that str.isspace accepts *)
Definition spaces : list nat := [9; 10; 11; 12; 13; 28; 29; 30; 31; 32].
Theorem C84_whitespace : forall c, is_space c = true <-> In (nat_of_ascii c) spaces.
Proof. intros [[] [] [] [] [] [] [] []]; vm_compute; split; intros H; try reflexivity; try discriminate; try tauto; repeat (destruct H as [H|H]; [discriminate|]); contradiction. Qed.
Print Assumptions C84_whitespace.
Theorem C84_stripped : forall s, (forall c, In c (list_ascii_of_string s) -> In (nat_of_ascii c) spaces) -> strip s = ""%string.
Proof.
  intros s H. assert (L : lstrip s = ""%string).
  { induction s as [|c r IH]; [reflexivity|]. 
    assert (E : is_space c = true) by (apply C84_whitespace, H; left; reflexivity).
    cbn. rewrite E. apply IH. intros d Hd. apply H. now right. }
  unfold strip. rewrite ?L. reflexivity.
Qed.
Print Assumptions C84_stripped.
Example C84_stripped_example : strip (String (ascii_of_nat 28) (String (ascii_of_nat 9) " ")) = ""%string.
Proof. reflexivity. Qed.

(** a fitted parameter that is not among the results ends the export with a KeyError *)
Theorem C107_not_in_results : forall Col Val to_dB to_degree (fit : Exp_Model.fitobj Col Val) sd ideg key l,
  dmem string_dec key (Exp_Model.f_defdict _ _ fit) = true -> key <> "sig"%string -> key <> "inc"%string ->
  In key (Exp_Model.fitted_dynamic (Exp_Model.defdict_parser (Exp_Model.f_defdict _ _ fit))) -> dget string_dec key (Exp_Model.f_res_df _ _ fit) = None ->
  Exp_Model.get_param_step Col Val to_dB to_degree fit sd ideg key l = Err KeyError.
Proof.
  intros Col Val to_dB to_degree fit sd ideg key [dyn stat] Hm H1 H2 Hi Hn. unfold Exp_Model.get_param_step.
  destruct (String.eqb_spec key "sig"); [contradiction|]. destruct (String.eqb_spec key "inc"); [contradiction|]. cbn [andb].
  rewrite Hm. rewrite (proj2 (inb_iff _ _ _) Hi). unfold Exp_Model.item. rewrite Hn. reflexivity.
Qed.
Print Assumptions C107_not_in_results.
Example C107_not_in_results_example :
  let fit := Exp_Model.mkfit nat nat [("tau", Exp_Model.mkdefn (Exp_Model.PBool true) (Exp_Model.PFloat (QArith_base.Qmake 1 1)) (Exp_Model.PStr "D"))]%string false [] [] [] [] (Ok []) (fun _ _ _ => Ok 0) in
  Exp_Model.get_param_step nat nat (fun c => c) (fun c => c) fit false false "tau" ([], []) = Err KeyError.
Proof. apply C107_not_in_results; try reflexivity; try discriminate. cbn. auto. Qed.

(** the console is known under the name rt1_consolehandler *)
Theorem C151_console_name : forall openable rl ops l, Forall Log_Spec.files_only ops ->
  snd (Log_Model.step openable (Log_Model.session openable rl [] ops) (Log_Model.SetLevel l "rt1_consolehandler"%string)) = Ok tt.
Proof. intros openable rl ops l F. rewrite Log_Props.C151_set_level by exact F. reflexivity. Qed.
Print Assumptions C151_console_name.
Example C151_console_name_example : Forall Log_Spec.files_only [Log_Model.Log 21 "x"%string].
Proof. repeat constructor. Qed.
