(** Edge cases of earlier properties, continued (C35, C75, C96, C132, C162, C165, C185) *)
From Coq Require Import Reals String Ascii List ZArith Bool Lia Lra.
From Verif Require Import Base Base_Proofs Str_Model.
From Verif Require Con_Model Con_Spec Con_Proofs Int_Model Jac_Model Run_Model Fit_Model Hds_Model Sld_Model Dlc_Model Dlc_Props.
Import ListNotations.

(** items() lists every definition, and defines the same variables again *)
Theorem C35_items : forall d, Con_Spec.reachable d ->
  exists items d', Con_Model.dd_items d = Ok items /\ Con_Model.from_dict items = Ok d' /\ keys items = Con_Model.dd_keys d /\ Con_Spec.same_definitions d' d.
Proof. intros d H. apply Con_Proofs.rebuild_list. apply Con_Proofs.reachable_wf. exact H. Qed.
Print Assumptions C35_items.
Example C35_items_example : Con_Model.dd_items (fst (Con_Model.run [Con_Model.Add "tau" [Con_Model.VBool true] []] Con_Model.new_defdict)) <> Ok [].
Proof. intros H. vm_compute in H. discriminate. Qed.

(** a factor times an infinite number: the sign counts, and 0 gives nan *)
Theorem C75_infinite : forall a : R,
  (0 < a -> Int_Model.nscale a Int_Model.PInf = Int_Model.PInf /\ Int_Model.nscale a Int_Model.NInf = Int_Model.NInf)%R /\
  (a < 0 -> Int_Model.nscale a Int_Model.PInf = Int_Model.NInf /\ Int_Model.nscale a Int_Model.NInf = Int_Model.PInf)%R /\
  (a = 0 -> Int_Model.nscale a Int_Model.PInf = Int_Model.NaN /\ Int_Model.nscale a Int_Model.NInf = Int_Model.NaN)%R.
Proof.
  intros a. cbn [Int_Model.nscale]. destruct (Rlt_dec 0 a), (Rlt_dec a 0); repeat split; intros; try reflexivity; exfalso; lra.
Qed.
Print Assumptions C75_infinite.
Example C75_infinite_example : Int_Model.nscale 0 Int_Model.NInf = Int_Model.NaN.
Proof. apply C75_infinite. reflexivity. Qed.

(** the derivative of a definition is used exactly if it is a number or has an entry for every observation in a table *)
Theorem C96_shapes : forall n v,
  match v with
  | Jac_Model.Int _ | Jac_Model.Flt _ => exists f, Jac_Model.flatten n v = Ok f
  | Jac_Model.Lst l | Jac_Model.Ar1 l =>
      (l = [] /\ n = 0 -> exists f, Jac_Model.flatten n v = Ok f) /\ (l = [] /\ n <> 0 -> Jac_Model.flatten n v = Err ValueError) /\
      (l <> [] -> Jac_Model.flatten n v = Err TypeError)
  | Jac_Model.Ar2 t => (n <= length (List.concat t) -> exists f, Jac_Model.flatten n v = Ok f /\ forall c, c < n -> nth_error (List.concat t) c = Some (f c)) /\
      (length (List.concat t) < n -> Jac_Model.flatten n v = Err ValueError)
  end.
Proof.
  intros n [z|r|l|l|t]; cbn [Jac_Model.flatten]; eauto.
  - destruct l; repeat split; intros; try (destruct H; subst; try discriminate); try congruence; cbn; eauto. destruct n; [contradiction|reflexivity].
  - destruct l; repeat split; intros; try (destruct H; subst; try discriminate); try congruence; cbn; eauto. destruct n; [contradiction|reflexivity].
  - split; intros H.
    + apply Nat.ltb_ge in H. rewrite H. apply Nat.ltb_ge in H. eexists. split; [reflexivity|]. intros c Hc. apply nth_error_nth'. lia.
    + apply Nat.ltb_lt in H. rewrite H. reflexivity.
Qed.
Print Assumptions C96_shapes.
Example C96_shapes_example : Jac_Model.flatten 2 (Jac_Model.Lst []) = Err ValueError /\ exists f, Jac_Model.flatten 0 (Jac_Model.Ar1 []) = Ok f.
Proof. split; [reflexivity|]. cbn. eauto. Qed.

(** while a run is processed, messages and warnings go to its queue, and nothing that was there before is lost *)
Theorem C132_during : forall q lv l, let l' := Run_Model.worker_configurer q lv l in
  Run_Model.l_capture l' = true /\ Run_Model.l_level l' = lv /\ In q (map snd (Run_Model.l_handlers l')) /\ In q (Run_Model.l_warn l') /\
  incl (Run_Model.l_handlers l) (Run_Model.l_handlers l') /\ incl (Run_Model.l_warn l) (Run_Model.l_warn l').
Proof.
  intros q lv l. cbn. repeat split.
  - rewrite map_app. apply in_or_app. right. now left.
  - apply in_or_app. right. now left.
  - intros x Hx. apply in_or_app. now left.
  - intros x Hx. apply in_or_app. now left.
Qed.
Print Assumptions C132_during.
Example C132_during_example : Run_Model.l_capture (Run_Model.worker_configurer 7 10 (Run_Model.mklog 30 [("x"%string, 3)] [] false)) = true.
Proof. reflexivity. Qed.

(** a variability given as number and as the string of this number means the same *)
Theorem C162_number : forall pint bins f name s z, pint (strip s) = Some z -> split_char "+"%char s = [s] ->
  s <> "manual"%string -> strip s <> "manual"%string -> s <> "index"%string ->
  Hds_Model.group pint bins f (name, (true, Hds_Model.VInt z)) = Hds_Model.group pint bins f (name, (true, Hds_Model.VStr s)).
Proof.
  intros pint bins f name s z Hp Hs H1 H2 H3. unfold Hds_Model.group. cbn [fst snd Hds_Model.meaning]. unfold Fit_Model.parse_freq.
  apply String.eqb_neq in H1, H2, H3. rewrite H1, H3, Hs. cbn [map]. rewrite H2, Hp. reflexivity.
Qed.
Print Assumptions C162_number.
Example C162_number_example : let pint s := if String.eqb s "12" then Some 12%Z else None in
  pint (strip " 12") = Some 12%Z /\ split_char "+"%char " 12" = [" 12"%string].
Proof. split; reflexivity. Qed.

(** a line that does not exist is an IndexError, and no other line is changed *)
Theorem C165_line : forall l i d y,
  (i < length l -> snd (Sld_Model.put_at i d y l) = None /\ length (fst (Sld_Model.put_at i d y l)) = length l /\
     (forall j, j <> i -> nth_error (fst (Sld_Model.put_at i d y l)) j = nth_error l j) /\
     exists y', nth_error (fst (Sld_Model.put_at i d y l)) i = Some (d, y') /\ (forall v, y = Some v -> y' = v) /\ (y = None -> option_map snd (nth_error l i) = Some y')) /\
  (length l <= i -> Sld_Model.put_at i d y l = (l, Some IndexError)).
Proof.
  induction l as [|a l IH]; intros i d y; cbn [length].
  - split; [lia|]. destruct i; reflexivity.
  - destruct i as [|i]; cbn [Sld_Model.put_at fst snd length].
    + split; [|lia]. intros _. repeat split.
      * intros [|j] Hj; [congruence|reflexivity].
      * destruct y as [v|]; eexists; (split; [reflexivity|]); split; intros; try discriminate; cbn; congruence.
    + destruct (IH i d y) as [A B]. split; intros H.
      * destruct A as (A1 & A2 & A3 & A4); [lia|]. repeat split; [exact A1|now rewrite A2| |exact A4].
        intros [|j] Hj; [reflexivity|]. cbn. apply A3. lia.
      * rewrite B by lia. reflexivity.
Qed.
Print Assumptions C165_line.
Example C165_line_example : Sld_Model.put_at 1 4 None [(0, Sld_Model.Frac Sld_Model.Surf 0)] = ([(0, Sld_Model.Frac Sld_Model.Surf 0)], Some IndexError).
Proof. reflexivity. Qed.

(** looking up one function keeps all others in the cache *)
Theorem C185_others : forall {F} (c : @Dlc_Model.dcache F) k x k', Dlc_Model.cfind c k = Some x ->
  Dlc_Model.cfind (Dlc_Model.chit c k x) k' = Dlc_Model.cfind c k'.
Proof.
  intros F c k x k' H. unfold Dlc_Model.chit. cbn [Dlc_Model.cfind]. destruct (Dlc_Model.keq k' k) eqn:E.
  - apply Dlc_Props.keq_iff in E. subst k'. symmetry. exact H.
  - clear H. induction c as [|[k1 x1] c IH]; [reflexivity|]. cbn [filter fst Dlc_Model.cfind].
    destruct (Dlc_Model.keq k k1) eqn:E1; cbn [negb].
    + apply Dlc_Props.keq_iff in E1. subst k1. rewrite E. exact IH.
    + cbn [Dlc_Model.cfind]. destruct (Dlc_Model.keq k' k1); [reflexivity|exact IH].
Qed.
Print Assumptions C185_others.
Example C185_others_example : Dlc_Model.cfind (Dlc_Model.chit [((0, "a"%string), (1, "a"%string, [])); ((0, "b"%string), (2, "b"%string, []))] (0, "b"%string) (2, "b"%string, [])) (0, "a"%string) = Some (1, "a"%string, []).
Proof. reflexivity. Qed.
