(** Specification: where the value of a parameter belongs. *)
From Coq Require Import QArith Bool Arith String List.
From Verif Require Import Base Ini_Model Ini_Spec Par_Model.
Import ListNotations.
Local Open Scope string_scope.
Local Open Scope list_scope.

(** the value of a parameter: fixed values take precedence *)
Definition given {Val} (r fixed : list (string * Val)) (k : string) : option Val :=
  match dget string_dec k fixed with Some v => Some v | None => dget string_dec k r end.
(** angles and names with a fixed meaning *)
Definition angle (s : string) : Prop := s = "theta_0" \/ s = "theta_ex" \/ s = "phi_0" \/ s = "phi_ex".
Definition reserved_name (s : string) : Prop := s = "omega" \/ s = "tau" \/ s = "NormBRDF" \/ s = "bsf".

Section Model.
Context {Val : Type}.
(** the symbol is a parameter of V or SRF, as far as the fit object knows *)
Definition scattering (m : model Val) (s : string) : Prop := (In s (m_Vsymb m) \/ In s (m_Ssymb m)) /\ ~ angle s.
(** ... in fact *)
Definition used (m : model Val) (s : string) : Prop := (In s (m_Vfunc m) \/ In s (m_Sfunc m)) /\ ~ angle s.
(** the symbol occurs in the quantity *)
Definition occurs_in (q : quantity Val) (s : string) : Prop := match q with QNum => False | QExpr l _ => In s l end.
(** the symbol defines omega, tau or NormBRDF *)
Definition defining (m : model Val) (s : string) : Prop :=
  occurs_in (m_omega m) s \/ occurs_in (m_tau m) s \/ occurs_in (m_N m) s.

(** the new number for a quantity: that of its expression for the given values (of its symbols),
    or the given number, or the old one *)
Definition means (name : string) (q : quantity Val) (old : Val) (g : string -> option Val) (v : Val) : Prop :=
  match q with
  | QNum => v = match g name with Some x => x | None => old end
  | QExpr l f => exists env, v = f env /\ forall s, (In s l -> env s = g s) /\ (~ In s l -> env s = None)
  end.
(** the parameter is handed to the scattering functions *)
Definition routed (m : model Val) (k : string) : Prop :=
  ~ reserved_name k /\ (scattering m k \/ ~ defining m k).
(** the numbers a model evaluation has to work with *)
Definition right_values (m : model Val) (old : values Val) (g : string -> option Val) (v : values Val) : Prop :=
  means "omega" (m_omega m) (v_omega old) g (v_omega v) /\
  means "tau" (m_tau m) (v_tau old) g (v_tau v) /\
  means "NormBRDF" (m_N m) (v_N old) g (v_N v) /\
  v_bsf v = match g "bsf" with Some x => x | None => v_bsf old end /\
  (forall k, routed m k -> dget string_dec k (v_param v) = g k) /\
  (forall k, ~ routed m k -> dget string_dec k (v_param v) = None).

(** the fit object has values for the parameter in every evaluation of a fit: it is fitted, or
    auxiliary and the dataset a frame *)
Definition provided (frame : bool) (d : defdict) (s : string) : Prop :=
  In (s, Fitted) d \/ (frame = true /\ In (s, Auxiliary) d).
(** the columns of the auxiliary parameters are there *)
Definition columns_there (frame : bool) (cols : list string) (d : defdict) : Prop :=
  frame = true -> forall s, In (s, Auxiliary) d -> In s cols.
(** dicts with the names of the fitted values and of the auxiliary data *)
Definition fit_dicts (frame : bool) (d : defdict) (r fixed : list (string * Val)) : Prop :=
  NoDup (keys r) /\ NoDup (keys fixed) /\
  (forall s, In s (keys r) <-> In (s, Fitted) d) /\ (forall s, In s (keys fixed) <-> frame = true /\ In (s, Auxiliary) d).
End Model.

(** the names in the definition of a scattering function without components *)
Definition names_of (parse : string -> option sx) (kv : list (string * pval)) (P : string -> Prop) (s : string) : Prop :=
  exists k v e, In (k, v) kv /\ P k /\ denotes parse v = Some e /\ occurs s e.
(** entries of defdict that provide a value (a number, fitted or auxiliary) *)
Definition complete (frame : bool) (d : defdict) (s : string) : Prop :=
  (exists q, In (s, Number q) d) \/ provided frame d s.

(** a symbol of the scattering function: in an attribute, in a weight, or in a component *)
Inductive symbol_of : obj -> string -> Prop :=
| symbol_attr n attrs cs fs k e s : In (k, e) attrs -> ~ not_counted k -> occurs s e -> symbol_of (Obj n attrs cs fs) s
| symbol_weight n attrs cs fs w c s : In (w, c) cs -> occurs s w -> symbol_of (Obj n attrs cs fs) s
| symbol_component n attrs cs fs w c s : In (w, c) cs -> symbol_of c s -> symbol_of (Obj n attrs cs fs) s.
