(** Property C96: the jacobian when tau, omega and NormBRDF are given as expressions. *)
From Coq Require Import ZArith Reals Lra Lia Bool Arith String List.
From Coquelicot Require Import Coquelicot.
From Verif Require Import Base Jac_Model Jac_Spec Jac_Proofs Jac2_Proofs.
Import ListNotations.
Local Open Scope string_scope.
Local Open Scope list_scope.
Local Open Scope R_scope.

(** Let tau, omega, NormBRDF be given by [defs] (definition and derivatives by its
    fitted symbols) and [F c] be the model at observation [c] as a function of tau,
    omega, NormBRDF and the other parameters, with the partial derivatives [jac].
    The data of each parameter are the derivatives of the model by this parameter if
    - no fitted symbol occurs in two definitions,
    - the symbols of a definition are not used anywhere else in the model, and
    - the derivatives of the definitions are [harmless]. *)
Theorem C96_chain_rule : forall ufunc fitted aux grp n m jac defs order F,
  rectangular n m aux -> (forall s l c, In (s, l) fitted -> (grp s c < List.length l)%nat) ->
  NoDup order -> NoDup (map fst defs) ->
  NoDup (flat_map (fun d : string * (expr * list (string * expr)) => map fst (snd (snd d))) defs) ->
  (forall slot def ds, In (slot, (def, ds)) defs ->
     (In slot order -> In slot (symbols def)) /\
     forall x, (In x (map fst ds) <-> In x order /\ In x (symbols def)) /\
       (In x (map fst ds) -> (In x (map fst defs) -> x = slot) /\ (x = slot \/ forall c e v, F c (upd e x v) = F c e))) ->
  let obs := at_obs fitted aux grp in
  let model_parameters := slots ufunc (map (fun d => (fst d, fst (snd d))) defs) in
  (forall slot def ds x d, In (slot, (def, ds)) defs -> In (x, d) ds -> harmless fitted aux d /\
     forall c, (c < n * m)%nat -> is_derive (fun v => value ufunc (upd (obs c) x v) def) (obs c x) (value ufunc (obs c) d)) ->
  (forall s, In s (map fst defs) \/ (In s order /\ forall slot def ds, In (slot, (def, ds)) defs -> ~ In s (map fst ds)) -> List.length (jac s) = (n * m)%nat /\
     forall c, (c < n * m)%nat ->
       is_derive (fun v => F c (upd (model_parameters (obs c)) s v)) (model_parameters (obs c) s) (nth c (jac s) 0)) ->
  exists J, calc_jac ufunc fitted aux jac (map (fun d => (fst d, snd (snd d))) defs) order = Ok J /\ map fst J = order /\
    forall k data c, In (k, data) J -> (c < n * m)%nat ->
      is_derive (fun v => F c (model_parameters (upd (obs c) k v))) (obs c k) (nth c data 0).
Proof.
  intros ufunc fitted aux grp n m jac defs order F H1 H2 H3 H4 H5 H6 obs mp H7 H8.
  apply (jacobian_derivative ufunc fitted aux grp n m H1 H2 jac defs order H3 H4 H5).
  - intros slot def ds x Hin. apply (proj2 (H6 _ _ _ Hin) x).
  - intros slot def ds x Hin Hx. apply (proj2 (H6 _ _ _ Hin) x), Hx.
  - intros slot def ds Hin. apply (H6 _ _ _ Hin).
  - intros slot def ds x d Hin Hx. apply (H7 _ _ _ _ _ Hin Hx).
  - intros s Hs. apply (H8 s Hs).
  - intros s c Hc Hs. apply (H8 s Hs), Hc.
  - intros slot def ds x d c Hin Hx. apply (H7 _ _ _ _ _ Hin Hx).
  - intros slot def ds x Hin Hx. apply (proj2 (H6 _ _ _ Hin) x), Hx.
Qed.
Print Assumptions C96_chain_rule.

(** the derivatives of definitions that are linear in the fitted symbols are harmless *)
Theorem C96_harmless : forall fitted aux d,
  (forall s, In s (symbols d) -> ~ In s (map fst fitted) /\ In s (map fst aux)) -> harmless fitted aux d.
Proof. exact data_harmless. Qed.
Print Assumptions C96_harmless.

(** two dates with two observations each; tau = x * w (w auxiliary), omega fitted directly;
    the model is tau^2 + 3 omega *)
Example C96_example :
  let fitted := [("x", [2; 3]); ("omega", [5])] in
  let aux := [("w", [[1; 2]; [3; 4]])] in
  let grp := fun s c => if String.eqb s "x" then (if Nat.ltb c 2 then 0 else 1)%nat else 0%nat in
  let defs := [("tau", (MUL (VAR "w") (VAR "x"), [("x", VAR "w")]))] in
  let jac := fun s => if String.eqb s "tau" then [4; 8; 18; 24] else [3; 3; 3; 3] in
  let F := fun (_ : nat) e => e "tau" * e "tau" + 3 * e "omega" in
  let mp := slots (fun _ r => r) (map (fun d => (fst d, fst (snd d))) defs) in
  exists J, calc_jac (fun _ r => r) fitted aux jac (map (fun d => (fst d, snd (snd d))) defs) ["x"; "omega"] = Ok J /\
    J = [("x", [4 * 1; 8 * 2; 18 * 3; 24 * 4]); ("omega", [3; 3; 3; 3])] /\
    forall k data c, In (k, data) J -> (c < 4)%nat ->
      is_derive (fun v => F c (mp (upd (at_obs fitted aux grp c) k v))) (at_obs fitted aux grp c k) (nth c data 0).
Proof.
  intros fitted aux grp defs jac F mp.
  destruct (C96_chain_rule (fun _ r => r) fitted aux grp 2 2 jac defs ["x"; "omega"] F) as (J & E & _ & H).
  - intros s a [A|[]]. injection A as <- <-. split; [reflexivity|]. intros row [<-|[<-|[]]]; reflexivity.
  - intros s l c [A|[A|[]]]; injection A as <- <-; cbn -[Nat.ltb]; [destruct (Nat.ltb c 2)|]; lia.
  - repeat constructor; cbn; intuition discriminate.
  - repeat constructor; cbn; intuition.
  - repeat constructor; cbn; intuition.
  - intros slot def ds [A|[]]. injection A as <- <- <-. split; [cbn; intuition discriminate|]. intros x. split.
    + cbn. split; [intros [<-|[]]; auto|]. intros [[<-|[<-|[]]] [B|[B|[]]]]; auto; discriminate B.
    + intros [<-|[]]. split; [intros [B|[]]; discriminate B|]. right. intros c e v. reflexivity.
  - intros slot def ds x d [A|[]] B. injection A as <- <- <-. destruct B as [B|[]]. injection B as <- <-.
    split; [right; reflexivity|]. intros c _. cbn [value]. unfold upd. cbn [String.eqb Ascii.eqb Bool.eqb].
    auto_derive; [exact I|ring].
  - intros s Hs. assert (S : s = "tau" \/ s = "omega").
    { destruct Hs as [[<-|[]]|[[<-|[<-|[]]] N]]; auto. exfalso. apply (N _ _ _ (or_introl eq_refl)). left; reflexivity. }
    split; [destruct S as [->| ->]; reflexivity|]. intros c Hc.
    destruct S as [->| ->]; unfold F.
    + apply (is_derive_ext (fun v => v * v + 3 * slots (fun _ r => r) (map (fun d => (fst d, fst (snd d))) defs) (at_obs fitted aux grp c) "omega")); [reflexivity|].
      auto_derive; [exact I|]. destruct c as [|[|[|[|c]]]]; cbn; lra || lia.
    + set (t := slots (fun _ r => r) (map (fun d => (fst d, fst (snd d))) defs) (at_obs fitted aux grp c) "tau").
      apply (is_derive_ext (fun v => t * t + 3 * v)); [reflexivity|].
      auto_derive; [exact I|]. destruct c as [|[|[|[|c]]]]; cbn; lra || lia.
  - exists J. split; [exact E|]. split; [|exact H].
    cbn in E. injection E as <-. reflexivity.
Qed.
(** Of auxiliary data and a single value: tau = w * x^2, derivative 2 w x as w * 2 * x; but 2 * x * w
    is not harmless (Python repeats the list of the single value) *)
Example C96_example_harmless :
  harmless [("x", [3])] [("w", [[1; 2]; [3; 4]])] (MUL (MUL (VAR "w") (INT 2)) (VAR "x")) /\
  ~ harmless [("x", [3])] [("w", [[1; 2]; [3; 4]])] (MUL (MUL (INT 2) (VAR "x")) (VAR "w")).
Proof. split; [right; reflexivity|intros [H|H]; discriminate H]. Qed.

(** ** Where the chain rule fails *)
(** a derivative made of fitted parameters only is an error, for every definition,
    e.g. tau = a * b with both fitted, or tau = exp(a) *)
Theorem C96_fitted_refuted : forall ufunc fitted aux d outer,
  outer <> [] -> symbols d <> [] -> (forall s, In s (symbols d) -> In s (map fst fitted)) ->
  exists e, times_inner ufunc fitted aux d outer = Err e.
Proof. exact fitted_fails. Qed.
Print Assumptions C96_fitted_refuted.

Example C96_fitted_example : times_inner (fun _ r => exp r) [("a", [1])] [] (FUN "exp" (VAR "a")) [7; 8] = Err TypeError.
Proof. reflexivity. Qed.

(** tau = w * x^2 / 2 with two values of x and two observations for each: the
    values of x are distributed along the wrong axis and the derivatives are wrong
    without any message *)
Theorem C96_axis_refuted : forall ufunc w11 w12 w21 w22 x1 x2 o1 o2 o3 o4,
  let fitted := [("x", [x1; x2])] in let aux := [("w", [[w11; w12]; [w21; w22]])] in
  let grp := fun (_ : string) c => Nat.div c 2 in
  let d := MUL (VAR "w") (VAR "x") in
  times_inner ufunc fitted aux d [o1; o2; o3; o4] = Ok [o1 * (w11 * x1); o2 * (w12 * x2); o3 * (w21 * x1); o4 * (w22 * x2)] /\
  map (fun c => nth c [o1; o2; o3; o4] 0 * value ufunc (at_obs fitted aux grp c) d) (seq 0 4) =
    [o1 * (w11 * x1); o2 * (w12 * x1); o3 * (w21 * x2); o4 * (w22 * x2)].
Proof. intros. split; reflexivity. Qed.
Print Assumptions C96_axis_refuted.

(** tau = w * a^2 with a single value of a: the derivative 2 * a * w is evaluated
    with a repeated list; with two observations per date the factor 2 is lost *)
Theorem C96_repeat_refuted : forall ufunc w11 w12 w21 w22 a o1 o2 o3 o4,
  let fitted := [("a", [a])] in let aux := [("w", [[w11; w12]; [w21; w22]])] in
  let d := MUL (MUL (INT 2) (VAR "a")) (VAR "w") in
  times_inner ufunc fitted aux d [o1; o2; o3; o4] = Ok [o1 * (a * w11); o2 * (a * w12); o3 * (a * w21); o4 * (a * w22)] /\
  map (fun c => nth c [o1; o2; o3; o4] 0 * value ufunc (at_obs fitted aux (fun _ _ => 0%nat) c) d) (seq 0 4) =
    [o1 * (2 * a * w11); o2 * (2 * a * w12); o3 * (2 * a * w21); o4 * (2 * a * w22)].
Proof. intros. split; reflexivity. Qed.
Print Assumptions C96_repeat_refuted.

(** a fitted symbol in the definitions of two of tau, omega and NormBRDF is always an error *)
Theorem C96_shared_refuted : forall ufunc fitted aux jac diffs order x,
  NoDup order -> ~ In x (map fst diffs) ->
  (2 <= count_occ string_dec (flat_map (fun d : string * list (string * expr) => map fst (snd d)) diffs) x)%nat ->
  exists e, calc_jac ufunc fitted aux jac diffs order = Err e.
Proof.
  intros ufunc fitted aux jac diffs order x ND Nx H2. unfold calc_jac.
  destruct (neworder (map (fun d => (fst d, map fst (snd d))) diffs) order) as [o|e] eqn:E; [|exists e; reflexivity].
  exfalso. apply (neworder_count x) in E; [|rewrite map_map; exact Nx].
  assert (F : flat_map snd (map (fun d : string * list (string * expr) => (fst d, map fst (snd d))) diffs) =
              flat_map (fun d => map fst (snd d)) diffs).
  { clear. induction diffs as [|d l IH]; [reflexivity|]. cbn [map flat_map fst snd]. f_equal. exact IH. }
  rewrite F in E. assert (C := proj1 (NoDup_count_occ string_dec order) ND x). lia.
Qed.
Print Assumptions C96_shared_refuted.

Example C96_shared_example :
  calc_jac (fun _ r => r) [("x", [1])] [] (fun _ => [1]) [("tau", [("x", INT 1)]); ("omega", [("x", INT 2)])] ["x"] = Err ValueError.
Proof. reflexivity. Qed.

(** a symbol of a definition that is also used elsewhere in the model (e.g. as the
    asymmetry parameter): the second contribution is missing *)
Theorem C96_elsewhere_refuted : exists ufunc fitted aux jac defs order F,
  let obs := at_obs fitted aux (fun _ _ => 0%nat) in
  let model_parameters := slots ufunc (map (fun d : string * (expr * list (string * expr)) => (fst d, fst (snd d))) defs) in
  (forall s, In s ["tau"; "x"] -> is_derive (fun v => F (upd (model_parameters (obs 0%nat)) s v)) (model_parameters (obs 0%nat) s) (nth 0 (jac s) 0)) /\
  exists data, calc_jac ufunc fitted aux jac (map (fun d => (fst d, snd (snd d))) defs) order = Ok [("x", data)] /\
    ~ is_derive (fun v => F (model_parameters (upd (obs 0%nat) "x" v))) (obs 0%nat "x") (nth 0 data 0).
Proof.
  exists (fun _ r => r), [("x", [3])], [], (fun s => [1]), [("tau", (VAR "x", [("x", INT 1)]))], ["x"], (fun e => e "tau" + e "x").
  cbn zeta. split.
  - intros s Hs. cbn [nth]. destruct Hs as [<-|[<-|[]]].
    + apply (is_derive_ext (fun v => v + 3)); [intros v; reflexivity|]. auto_derive; [exact I|ring].
    + apply (is_derive_ext (fun v => 3 + v)); [intros v; reflexivity|]. auto_derive; [exact I|ring].
  - exists [1 * 1]. split; [reflexivity|]. cbn [nth]. intros D.
    assert (D2 : is_derive (fun v : R => v + v) 3 2) by (auto_derive; [exact I|ring]).
    apply (is_derive_ext _ (fun v => v + v)) in D; [|intros v; reflexivity].
    apply is_derive_unique in D. apply is_derive_unique in D2. change (at_obs [("x", [3])] [] (fun _ _ => 0%nat) 0 "x") with 3 in D.
    assert (E : 1 * 1 = 2) by (rewrite <- D; exact D2). lra.
Qed.
Print Assumptions C96_elsewhere_refuted.
