(** Evaluations use the current definitions (C61, C97) *)
From Coq Require Import List Arith Bool String.
From Verif Require Import Base Ses_Model Ses_Spec Ses_Proofs.
Import ListNotations.

(** ** C61: the current definition and dataset are used *)
(** After any session that only assigns attributes and passes no parameters
    for constants, an evaluation without interaction term gives the result
    for the attributes assigned last, for every object. *)
Theorem C61_current_attributes : forall Mdl DDict Ds Dat Val Fn Out mk prep fnof rt
    (init : nat -> fit Mdl DDict Ds Fn) (ops : list (op Mdl DDict Ds Val Fn)) o ps,
  forallb plain ops = true -> respectful mk fnof init ops -> f_intQ (attrs fnof init ops o) = false ->
  fst (evaluate (Dat := Dat) (Out := Out) mk prep fnof rt (run mk prep fnof rt init ops) o ps) =
  expected mk prep rt (attrs fnof init ops o) None ps.
Proof.
  intros Mdl DDict Ds Dat Val Fn Out mk prep fnof rt init ops o ps Hp Hr Hi.
  destruct (run_valid mk prep fnof rt init ops Hp Hr o) as [E G]. rewrite <- E in G.
  destruct (evaluate_ok mk prep fnof rt _ o ps G) as (H & _). rewrite H, E, Hi. reflexivity.
Qed.
Print Assumptions C61_current_attributes.

(** A concrete world: definitions are numbers; the definition m has constant
    omega m, tau given by the parameter "t", NormBRDF constant 1; the result
    lists everything it was computed from. *)
Definition mk0 (m dd : nat) : pval nat * pval nat * pval nat :=
  (Num m, Sym ["t"%string] (fun l => hd 0 l + dd), Num 1).
Definition prep0 (d dd : nat) : nat := d.
Definition fnof0 (m dd : nat) : nat := 100 + m.
Definition rt0 (sig0 dB : bool) (d : nat) (def : nat * nat) (dd : nat) (t : pval nat * pval nat * pval nat)
  (ps : list (string * nat)) (fn : option nat) : list nat :=
  let num p := match p with Num v => v | Sym _ _ => 999 end in
  [d; fst def; num (fst (fst t)); num (snd (fst t)); num (snd t); match fn with Some g => g | None => 0 end].
Definition init0 (b : bool) : nat -> fit nat nat nat nat := fun _ => mkfit 5 0 7 true false b None.

Example C61_example :
  let ops := [Calc 0 [("t"%string, 3)]; SetModel 0 6; Calc 0 [("t"%string, 4)]; SetDataset 0 8] in
  forallb plain ops = true /\ respectful mk0 fnof0 (init0 false) ops /\
  fst (evaluate mk0 prep0 fnof0 rt0 (run mk0 prep0 fnof0 rt0 (init0 false) ops) 0 [("t"%string, 9)]) = Ok [8; 6; 6; 9; 1; 0].
Proof.
  split; [reflexivity|]. split; [apply resp_ok; repeat split; cbn; intros; try discriminate; reflexivity|]. reflexivity.
Qed.

(** From any state whatsoever (also after changes in place), an evaluation
    right after one of the attributes has been assigned, or after performfit
    has been started, uses the current attributes. *)
Theorem C61_after_assignment : forall Mdl DDict Ds Dat Val Fn Out mk prep fnof rt
    (s : state) (x : op Mdl DDict Ds Val Fn) o ps,
  match x with SetModel _ _ | SetDefdict _ _ | SetDataset _ _ | SetSig0 _ _ | SetdB _ _ | StartFit _ => True | _ => False end ->
  let s' := step (Dat := Dat) (Out := Out) mk prep fnof rt s x in f_intQ (s_fit s' o) = false ->
  fst (evaluate mk prep fnof rt s' o ps) = expected mk prep rt (s_fit s' o) None ps /\
  s_fit s' o = attr_step fnof (s_fit s) x o.
Proof.
  intros Mdl DDict Ds Dat Val Fn Out mk prep fnof rt s x o ps Hx s' Hi.
  assert (G : good mk prep (s_fit s' o) (s_cache s' o)).
  { subst s'. destruct x; try contradiction; apply good_empty. }
  split.
  - destruct (evaluate_ok mk prep fnof rt s' o ps G) as (H & _). rewrite H, Hi. reflexivity.
  - subst s'. destruct x; try contradiction; cbn; unfold put;
      match goal with |- context [Nat.eqb o ?q] => destruct (Nat.eqb_spec o q) as [->|]; reflexivity | _ => reflexivity end.
Qed.
Print Assumptions C61_after_assignment.

Example C61_example_after : let s' := step mk0 prep0 fnof0 rt0 (run mk0 prep0 fnof0 rt0 (init0 false) [Calc 0 [("t"%string, 3)]; EditDefdict 0 20]) (SetModel 0 6) in
  f_intQ (s_fit s' 0) = false /\ fst (evaluate mk0 prep0 fnof0 rt0 s' 0 [("t"%string, 9)]) = Ok [7; 6; 6; 29; 1; 0].
Proof. split; reflexivity. Qed.

(** With interaction term: everything is current except the functions of the
    interaction term, which are those of the first evaluation. *)
Theorem C61_interaction_first_definition : forall Mdl DDict Ds Dat Val Fn Out mk prep fnof rt
    (init : nat -> fit Mdl DDict Ds Fn) (ops : list (op Mdl DDict Ds Val Fn)) o ps,
  forallb plain ops = true -> respectful mk fnof init ops -> let f := attrs fnof init ops o in f_intQ f = true ->
  fst (evaluate (Dat := Dat) (Out := Out) mk prep fnof rt (run mk prep fnof rt init ops) o ps) =
  expected mk prep rt f (match f_fn f with Some g => Some g | None => Some (fnof (f_model f) (f_defdict f)) end) ps.
Proof.
  intros Mdl DDict Ds Dat Val Fn Out mk prep fnof rt init ops o ps Hp Hr f Hi.
  destruct (run_valid mk prep fnof rt init ops Hp Hr o) as [E G]. rewrite <- E in G.
  destruct (evaluate_ok mk prep fnof rt _ o ps G) as (H & _). rewrite H, E. fold f. unfold with_fn. rewrite Hi. reflexivity.
Qed.
Print Assumptions C61_interaction_first_definition.

Example C61_example_interaction : let ops := [Calc 0 [("t"%string, 3)]; SetDataset 0 8] in
  f_intQ (attrs fnof0 (init0 true) ops 0) = true /\ f_fn (attrs fnof0 (init0 true) ops 0) = Some (fnof0 5 0) /\
  fst (evaluate mk0 prep0 fnof0 rt0 (run mk0 prep0 fnof0 rt0 (init0 true) ops) 0 [("t"%string, 9)]) = Ok [8; 5; 5; 9; 1; 105].
Proof. repeat split; reflexivity. Qed.

(** hence the assignment of another set_V_SRF is not followed *)
Theorem C61_interaction_refuted : exists (ops : list (op nat nat nat nat nat)) ps,
  forallb plain ops = true /\ respectful mk0 fnof0 (init0 true) ops /\
  let f := attrs fnof0 (init0 true) ops 0 in f_model f = 6 /\
  fst (evaluate mk0 prep0 fnof0 rt0 (run mk0 prep0 fnof0 rt0 (init0 true) ops) 0 ps) <>
  expected mk0 prep0 rt0 f (current_fn fnof0 f) ps.
Proof.
  exists [Calc 0 [("t"%string, 3)]; SetModel 0 6], [("t"%string, 3)]. split; [reflexivity|]. split; [apply resp_ok; repeat split; cbn; intros; try discriminate; reflexivity|]. split; [reflexivity|discriminate].
Qed.
Print Assumptions C61_interaction_refuted.

(** MultiFits.set_dataset: the next evaluation uses the previous dataset *)
Theorem C61_multifits_dataset_refuted : exists (ops : list (op nat nat nat nat nat)) ps,
  respectful mk0 fnof0 (init0 false) ops /\
  let f := attrs fnof0 (init0 false) ops 0 in let s := run mk0 prep0 fnof0 rt0 (init0 false) ops in
  s_fit s 0 = f /\ f_dataset f = 8 /\
  fst (evaluate mk0 prep0 fnof0 rt0 s 0 ps) <> expected mk0 prep0 rt0 f None ps.
Proof.
  exists [Calc 0 [("t"%string, 3)]; MultiSetDataset [0; 1] 8], [("t"%string, 3)]. split; [apply resp_ok; repeat split; cbn; intros; try discriminate; reflexivity|]. split; [reflexivity|split; [reflexivity|discriminate]].
Qed.
Print Assumptions C61_multifits_dataset_refuted.

(** changes of the defdict in place (fit.defdict.tau.val = ...) are not noticed either *)
Theorem C61_edit_defdict_refuted : exists (ops : list (op nat nat nat nat nat)) ps,
  respectful mk0 fnof0 (init0 false) ops /\
  let f := attrs fnof0 (init0 false) ops 0 in let s := run mk0 prep0 fnof0 rt0 (init0 false) ops in
  s_fit s 0 = f /\ f_defdict f = 20 /\
  fst (evaluate mk0 prep0 fnof0 rt0 s 0 ps) <> expected mk0 prep0 rt0 f None ps.
Proof.
  exists [Calc 0 [("t"%string, 3)]; EditDefdict 0 20], [("t"%string, 3)]. split; [apply resp_ok; repeat split; cbn; intros; try discriminate; reflexivity|]. split; [reflexivity|split; [reflexivity|discriminate]].
Qed.
Print Assumptions C61_edit_defdict_refuted.

(** ** C97: evaluations do not influence each other *)
(** In a session without changes of attributes, evaluations that pass no
    parameters for constants give the same result in any order and number. *)
Theorem C97_evaluations_independent : forall Mdl DDict Ds Dat Val Fn Out mk prep fnof rt
    (init : nat -> fit Mdl DDict Ds Fn) (calls : list (nat * list (string * Val))) o ps,
  (forall q qs, In (q, qs) calls -> respects mk (init q) qs) ->
  let ops := map (fun c => Calc (fst c) (snd c)) calls in
  fst (evaluate (Dat := Dat) (Out := Out) mk prep fnof rt (run mk prep fnof rt init ops) o ps) =
  fst (evaluate mk prep fnof rt (run mk prep fnof rt init []) o ps).
Proof.
  intros Mdl DDict Ds Dat Val Fn Out mk prep fnof rt init calls o ps Hr ops.
  assert (A : forall l q, let f := attrs fnof init (map (fun c => Calc (fst c) (snd c)) l : list (op Mdl DDict Ds Val Fn)) q in
     f_model f = f_model (init q) /\ f_defdict f = f_defdict (init q) /\ f_dataset f = f_dataset (init q) /\
     f_sig0 f = f_sig0 (init q) /\ f_dB f = f_dB (init q) /\ f_intQ f = f_intQ (init q) /\
     with_fn fnof f = with_fn fnof (init q)).
  { clear. intros l q. unfold attrs. revert init. induction l as [|[q' qs] l IH]; intros init; [auto 10|].
    cbn [map fold_left fst snd]. specialize (IH (attr_step fnof init (Calc q' qs))). cbn zeta in IH |- *.
    destruct IH as (-> & -> & -> & -> & -> & -> & ->). cbn. destruct (Nat.eqb q q' && f_intQ (init q)) eqn:E; [|auto 10].
    apply andb_true_iff in E. destruct E as [_ E]. cbn. rewrite E. repeat split. unfold with_fn. cbn. rewrite E. destruct (f_fn (init q)); reflexivity. }
  assert (P : forallb plain ops = true) by (apply forallb_forall; intros x Hx; apply in_map_iff in Hx; destruct Hx as (c & <- & _); reflexivity).
  assert (R : respectful mk fnof init ops).
  { intros l q qs r E. subst ops. assert (Hm : exists l' r', calls = l' ++ (q, qs) :: r' /\ l = map (fun c => Calc (fst c) (snd c)) l').
    { clear - E. revert l E. induction calls as [|c calls IH]; intros l E; [destruct l; discriminate|]. destruct l as [|a l]; cbn in E.
      - injection E as E1 E2 E3. exists [], calls. split; [destruct c; cbn in *; congruence|reflexivity].
      - injection E as E1 E2. destruct (IH l E2) as (l' & r' & -> & ->). exists (c :: l'), r'. split; [reflexivity|subst a; reflexivity]. }
    destruct Hm as (l' & r' & Ec & ->). specialize (A l' q). cbn zeta in A. destruct A as (A1 & A2 & _).
    unfold respects in *. rewrite A1, A2. apply (Hr q qs). rewrite Ec. apply in_or_app. right. left. reflexivity. }
  destruct (run_valid mk prep fnof rt init ops P R o) as [E G]. rewrite <- E in G.
  destruct (evaluate_ok mk prep fnof rt _ o ps G) as (-> & _). rewrite E.
  assert (G0 : good mk prep (s_fit (run mk prep fnof rt init []) o) (s_cache (run mk prep fnof rt init []) o)) by apply good_empty.
  destruct (evaluate_ok mk prep fnof rt _ o ps G0) as (-> & _). cbn [run fold_left s_fit].
  specialize (A calls o). cbn zeta in A. fold ops in A. destruct A as (A1 & A2 & A3 & A4 & A5 & A6 & A7).
  unfold expected. rewrite A1, A2, A3, A4, A5, A6, A7. reflexivity.
Qed.
Print Assumptions C97_evaluations_independent.

Example C97_example : let calls := [(0, [("t"%string, 3)]); (1, [("x"%string, 3)]); (0, [("t"%string, 5); ("bsf"%string, 1)])] in
  (forall q qs, In (q, qs) calls -> respects mk0 (init0 true q) qs) /\
  fst (evaluate mk0 prep0 fnof0 rt0 (run mk0 prep0 fnof0 rt0 (init0 true) (map (fun c => Calc (fst c) (snd c)) calls)) 0 [("t"%string, 9)]) =
  Ok [7; 5; 5; 9; 1; 105].
Proof.
  split; [|reflexivity]. intros q qs [E|[E|[E|[]]]]; injection E as <- <-; repeat split; cbn; intros; try discriminate; reflexivity.
Qed.

(** A value passed once for a constant (here omega = 5) stays: the same call
    gives another result afterwards ... *)
Theorem C97_refuted : exists ps qs,
  fst (evaluate mk0 prep0 fnof0 rt0 (run mk0 prep0 fnof0 rt0 (init0 false) [Calc 0 qs]) 0 ps) <>
  fst (evaluate mk0 prep0 fnof0 rt0 (run mk0 prep0 fnof0 rt0 (init0 false) []) 0 ps).
Proof. exists [("t"%string, 3)], [("t"%string, 3); ("omega"%string, 77)]. cbn. discriminate. Qed.
Print Assumptions C97_refuted.

(** ... until an attribute of any other object is assigned, which changes the
    result of this object *)
Theorem C97_other_object_refuted : exists ps qs x,
  match x with SetSig0 1 _ => True | _ => False end /\
  fst (evaluate mk0 prep0 fnof0 rt0 (run mk0 prep0 fnof0 rt0 (init0 false) [Calc 0 qs; x]) 0 ps) <>
  fst (evaluate mk0 prep0 fnof0 rt0 (run mk0 prep0 fnof0 rt0 (init0 false) [Calc 0 qs]) 0 ps).
Proof. exists [("t"%string, 3)], [("t"%string, 3); ("omega"%string, 77)], (SetSig0 1 false). split; [exact I|]. cbn. discriminate. Qed.
Print Assumptions C97_other_object_refuted.
