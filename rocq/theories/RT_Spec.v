(** Independent vocabulary for the radiative-transfer properties. *)
From Coq Require Import Reals List String.
From Coquelicot Require Import Coquelicot.
From Verif Require Import Base RT_Model.
Local Open Scope R_scope.

(** A value [I] (intensity, linear) at incidence angle [t] in the requested units:
    sigma0 = 4 pi cos(t) I, dB = 10 log10. *)
Definition in_units (dB sig0 : bool) (t I : R) : R :=
  let x := if sig0 then 4 * PI * cos t * I else I in
  if dB then 10 * (ln x / ln 10) else x.

(** Value of contribution [f] of the RT1 object as a function of the incidence angle: assign the
    angle, then evaluate. *)
Definition along_t0 (f : RT -> R) (o : RT) : R -> R := fun t => f (set_t_0 o t).

(** BRDF / phase function in backscatter direction as function of the incidence angle *)
Definition back_brdf (o : RT) (t : R) : R := brdf (SRF o) (param_dict o) t t (p_0 o) (p_0 o + PI).
Definition back_p (o : RT) (t : R) : R := p (V o) (param_dict o) t t (p_0 o) (p_0 o + PI).

(** Twice differentiable at [t]. *)
Definition twice_diff (f : R -> R) (t : R) : Prop :=
  locally t (fun u => ex_derive f u) /\ ex_derive (Derive f) t.

Definition total (o : RT) : R := surface o + volume o.

(** The parameter called [key] of the RT1 object: current value, and assigning a value. *)
Definition key_value (o : RT) (key : string) : option R :=
  if String.eqb key "omega" then Some (omega (V o))
  else if String.eqb key "tau" then Some (tau (V o))
  else if String.eqb key "NormBRDF" then Some (NormBRDF (SRF o))
  else if String.eqb key "bsf" then Some (bsf o)
  else dget string_dec key (param_dict o).
Definition with_key (o : RT) (key : string) (v : R) : RT :=
  if String.eqb key "omega" then set_omega o v
  else if String.eqb key "tau" then set_tau o v
  else if String.eqb key "NormBRDF" then set_NormBRDF o v
  else if String.eqb key "bsf" then set_bsf o v
  else set_param o key v.

(** [key] is not one of the four built-in parameter names *)
Definition free_key (key : string) : Prop :=
  key <> "omega"%string /\ key <> "tau"%string /\ key <> "NormBRDF"%string /\ key <> "bsf"%string.

(** BRDF and phase function are differentiable in the free parameter [key] at the current point *)
Definition diff_in (o : RT) (key : string) : Prop :=
  forall v, dget string_dec key (param_dict o) = Some v ->
  ex_derive (fun x => brdf (SRF o) (dset string_dec key x (param_dict o)) (t_0 o) (t_ex o) (p_0 o) (p_ex o)) v
  /\ ex_derive (fun x => p (V o) (dset string_dec key x (param_dict o)) (t_0 o) (t_ex o) (p_0 o) (p_ex o)) v.

(** does an operation assign an angle that determines a cosine? *)
Definition assigns_theta (op : geo_op) : bool :=
  match op with OpT0 _ | OpTex _ => true | _ => false end.

(** last value assigned to the incident angle in a history (or the initial one) *)
Fixpoint last_t0 (init : R) (ops : list geo_op) : R :=
  match ops with
  | nil => init
  | OpT0 v :: r => last_t0 v r
  | _ :: r => last_t0 init r
  end.
Fixpoint last_p0 (init : R) (ops : list geo_op) : R :=
  match ops with
  | nil => init
  | OpP0 v :: r => last_p0 v r
  | _ :: r => last_p0 init r
  end.
Fixpoint last_tex (init : R) (ops : list geo_op) : R :=
  match ops with
  | nil => init
  | OpTex v :: r => last_tex v r
  | _ :: r => last_tex init r
  end.
Definition not_exit (op : geo_op) : bool :=
  match op with OpTex _ | OpPex _ => false | _ => true end.

(** A concrete monostatic object used in the examples: a Rayleigh-like phase function and a
    BRDF with one free parameter "x". *)
Definition ex_V : Vobj :=
  mkV (1/2) (3/10) (fun pd t0 tex p0 pex => 3 / (16 * PI) * (1 + (cos t0 * cos tex) ^ 2)).
Definition ex_S : SRFobj :=
  mkSRF (1/5) (fun pd t0 tex p0 pex =>
    match dget string_dec "x"%string pd with Some x => 1 + x * (cos t0 * cos tex) | None => 1 end).
Definition ex_o : RT :=
  init 1 0 0 0 0 ex_V ex_S "mono"%string (1/10) (("x"%string, 1/2) :: nil) 3.
(** the same with a bistatic geometry, exit angle pi/3 *)
Definition ex_b : RT :=
  init 1 0 (PI/3) 0 0 ex_V ex_S "vvvv"%string (1/10) (("x"%string, 1/2) :: nil) 3.
