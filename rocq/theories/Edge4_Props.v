(** Edge cases of earlier properties, continued (C14, C105, C193) *)
From Coq Require Import Reals String Ascii List ZArith QArith Bool Lia.
From Verif Require Import Base Base_Proofs Str_Model Con_Model Sca_Model Int_Model Cfg_Model Evp_Model.
Import ListNotations.

(** the geometry of an expansion is read from the left: the first character that is missing or is neither v nor f decides the error *)
Fixpoint first_problem (n : nat) (l : list gchar) : option pyerr :=
  match n, l with
  | O, _ => None
  | S _, [] => Some IndexError
  | S _, GOther :: _ => Some AssertionError
  | S n, _ :: l => first_problem n l
  end.
Theorem C193_errors : forall coefs ncoefs a l t_0 t_s p_0 p_s, (0 < ncoefs)%nat ->
  match first_problem 4 l with
  | Some e => eval_legpoly_S coefs ncoefs a (Some (Chars l)) t_0 t_s p_0 p_s = Err e /\ eval_legpoly_V coefs ncoefs a (Some (Chars l)) t_0 t_s p_0 p_s = Err e
  | None => exists r r', eval_legpoly_S coefs ncoefs a (Some (Chars l)) t_0 t_s p_0 p_s = Ok r /\ eval_legpoly_V coefs ncoefs a (Some (Chars l)) t_0 t_s p_0 p_s = Ok r'
  end.
Proof.
  intros coefs nc a l t_0 t_s p_0 p_s Hn. unfold eval_legpoly_S, eval_legpoly_V, angles_of, char_at. rewrite (proj2 (Nat.ltb_lt 0 nc) Hn).
  assert (G : forall x y : R, resolve GF [x] [y] = Ok (Some x)) by reflexivity. assert (V : forall x y : R, resolve GV [x] [y] = Ok None) by reflexivity. assert (O : forall x y : R, resolve GOther [x] [y] = Err AssertionError) by reflexivity.
  destruct l as [|[| |] l]; cbn [first_problem nth_error bind]; rewrite ?G, ?V, ?O; cbn [bind]; try (split; reflexivity).
  all: destruct l as [|[| |] l]; cbn [first_problem nth_error bind]; rewrite ?G, ?V, ?O; cbn [bind]; try (split; reflexivity).
  all: destruct l as [|[| |] l]; cbn [first_problem nth_error bind]; rewrite ?G, ?V, ?O; cbn [bind]; try (split; reflexivity).
  all: destruct l as [|[| |] l]; cbn [first_problem nth_error bind]; rewrite ?G, ?V, ?O; cbn [bind]; try (split; reflexivity).
  all: eexists _, _; split; reflexivity.
Qed.
Print Assumptions C193_errors.
Example C193_errors_example : first_problem 4 [GF; GV] = Some IndexError /\ first_problem 4 [GF; GOther] = Some AssertionError /\ first_problem 4 [GF; GV; GV; GF; GOther] = None.
Proof. repeat split. Qed.

(** the product of coefficients and factors: as many of both, or a single one of either *)
Theorem C14_lengths : forall fn multip,
  (forall k, (List.length fn = k \/ List.length fn = 1%nat) -> (List.length multip = k \/ List.length multip = 1%nat) ->
     exists l, bcast fn multip = Ok l /\ List.length l = (if Nat.eqb (List.length fn) 1 then List.length multip else List.length fn)) /\
  (List.length fn <> List.length multip -> List.length fn <> 1%nat -> List.length multip <> 1%nat -> bcast fn multip = Err ValueError).
Proof.
  intros fn multip. unfold bcast. destruct (Nat.eqb_spec (List.length fn) (List.length multip)) as [E|E]; split.
  - intros k _ _. eexists. split; [reflexivity|]. rewrite map_length, combine_length, <- E, Nat.min_id. destruct (Nat.eqb _ 1); reflexivity.
  - intros H. contradiction.
  - intros k H1 H2. destruct multip as [|m [|m' ms]], fn as [|f [|f' fs]]; cbn in *; try lia; eexists; (split; [reflexivity|]); cbn; rewrite ?map_length; reflexivity.
  - intros _ H1 H2. destruct multip as [|m [|m' ms]], fn as [|f [|f' fs]]; cbn in *; try lia; reflexivity.
Qed.
Print Assumptions C14_lengths.
Example C14_lengths_example : bcast [1; 2; 3]%R [Fin 1; Fin 2]%R = Err ValueError /\ exists l, bcast [1; 2; 3]%R [Fin 2]%R = Ok l /\ List.length l = 3%nat.
Proof. split; [reflexivity|]. eexists. split; reflexivity. Qed.

(** entries of a configuration file that cannot be converted *)
Theorem C105_unreadable : forall pfloat pint pp key,
  let conv := parse_value pfloat pint pp key in
  (In key (pp_float pp) -> conv None = Err TypeError /\ forall s, pfloat s = None -> conv (Some s) = Err ValueError) /\
  (In key (pp_int pp) -> ~ In key (pp_float pp) -> conv None = Err TypeError /\ forall s, pint s = None -> conv (Some s) = Err ValueError) /\
  (In key (pp_bool pp) -> ~ In key (pp_float pp) -> ~ In key (pp_int pp) -> conv None = Err AttributeError /\
     forall s, ~ In (lower s) ["1"; "yes"; "true"; "on"; "0"; "no"; "false"; "off"]%string -> conv (Some s) = Err ValueError) /\
  (In key (pp_list pp) -> ~ In key (pp_float pp) -> ~ In key (pp_int pp) -> ~ In key (pp_bool pp) -> conv None = Err AttributeError) /\
  (~ In key (pp_float pp) -> ~ In key (pp_int pp) -> ~ In key (pp_bool pp) -> ~ In key (pp_list pp) -> conv None = Ok VNone).
Proof.
  intros pfloat pint pp key. cbv zeta. unfold parse_value, getfloat, getint, to_boolean.
  assert (Y : forall l, In key l -> inb string_dec key l = true) by (intros l; apply inb_iff). assert (N : forall l, ~ In key l -> inb string_dec key l = false) by (intros l; apply inb_false).
  split; [|split; [|split; [|split]]].
  - intros H. rewrite (Y _ H). split; [reflexivity|]. intros s ->. reflexivity.
  - intros H H1. rewrite (N _ H1), (Y _ H). split; [reflexivity|]. intros s ->. reflexivity.
  - intros H H1 H2. rewrite (N _ H1), (N _ H2), (Y _ H). split; [reflexivity|]. intros s Hs.
    rewrite !(proj2 (inb_false string_dec (lower s) _)); [reflexivity| |]; intros I; apply Hs; cbn in *; tauto.
  - intros H H1 H2 H3. rewrite (N _ H1), (N _ H2), (N _ H3), (Y _ H). reflexivity.
  - intros H H1 H2 H3. rewrite (N _ H), (N _ H1), (N _ H2), (N _ H3). reflexivity.
Qed.
Print Assumptions C105_unreadable.
Example C105_unreadable_example : forall pfloat pint,
  parse_value pfloat pint lsq_parse_props "max_nfev" None = Err TypeError /\ parse_value pfloat pint fitargs_parse_props "dB" (Some "maybe"%string) = Err ValueError.
Proof. intros. split; reflexivity. Qed.
