(** Specification: what the definitions of a scattering function mean. *)
From Coq Require Import ZArith QArith Reals Qreals Bool Arith String List.
From Verif Require Import Base Ini_Model.
Import ListNotations.
Local Open Scope string_scope.
Local Open Scope list_scope.

(** the expression a property stands for *)
Definition denotes (parse : string -> option sx) (v : pval) : option sx :=
  match v with VStr s => parse s | VNum q => Some (SNum q) end.
(** the names in [setdict] are read as symbols *)
Definition names_are_symbols (parse : string -> option sx) (setdict : list (string * sx)) : Prop :=
  forall s v, In (s, v) setdict -> parse s = Some (SSym s).
(** [setdict] gives every parameter its value (fixed) or its own symbol (fitted, auxiliary) *)
Definition parameters (setdict : list (string * sx)) : Prop :=
  forall s v, In (s, v) setdict -> v = SSym s \/ exists q, v = SNum q.
(** the parameter is a fixed number *)
Definition fixed_number (setdict : list (string * sx)) (s : string) : Prop :=
  exists q, dget string_dec s setdict = Some (SNum q).

(** the symbol occurs in the expression *)
Inductive occurs (t : string) : sx -> Prop :=
| occ_sym : occurs t (SSym t)
| occ_l o a b : occurs t a -> occurs t (SOp o a b)
| occ_r o a b : occurs t b -> occurs t (SOp o a b)
| occ_fun f a : occurs t a -> occurs t (SFun f a).
(** the parts of a scattering object *)
Definition attributes (o : obj) := match o with Obj _ a _ _ => a end.
Definition components (o : obj) := match o with Obj _ _ c _ => c end.
Definition symbols (o : obj) := match o with Obj _ _ _ f => f end.
(** the names that are no parameters of the scattering function *)
Definition not_counted (k : string) : Prop := In k ["omega"; "tau"; "NormBRDF"; "bsf"].

(** value of an expression for given values of the symbols *)
Section Value.
Variable op : string -> R -> R -> R.
Variable fn : string -> R -> R.
Fixpoint val (env : string -> R) (e : sx) : R :=
  match e with
  | SNum q => Q2R q
  | SSym s => env s
  | SOp o a b => op o (val env a) (val env b)
  | SFun f a => fn f (val env a)
  end.
(** value of the body of set_V_SRF for given values of its arguments *)
Fixpoint meant (args : string -> R) (e : px) : R :=
  match e with
  | XVar s => args s
  | XInt z => IZR z
  | XFlt q => Q2R q
  | XAdd a b => op "+" (meant args a) (meant args b)
  | XMul a b => op "*" (meant args a) (meant args b)
  | XOp o a b => op o (meant args a) (meant args b)
  | XFun f a => fn f (meant args a)
  end.
End Value.
(** values of the arguments of set_V_SRF: fixed numbers, others by [env] *)
Definition argument_values (setdict : list (string * sx)) (env : string -> R) (s : string) : R :=
  match dget string_dec s setdict with Some (SNum q) => Q2R q | _ => env s end.

(** the arguments of set_V_SRF are used as they are or inside of a function: no
    operator is applied to a bare argument *)
Inductive shape := Bare | Numeral | Symbolic.
Definition shape2 (x y : option shape) : option shape :=
  match x, y with
  | Some Numeral, Some Numeral => Some Numeral
  | Some Numeral, Some Symbolic | Some Symbolic, Some Numeral | Some Symbolic, Some Symbolic => Some Symbolic
  | _, _ => None
  end.
Fixpoint shape_of (e : px) : option shape :=
  match e with
  | XVar _ => Some Bare
  | XInt _ | XFlt _ => Some Numeral
  | XAdd a b | XMul a b | XOp _ a b => shape2 (shape_of a) (shape_of b)
  | XFun _ a => match shape_of a with Some _ => Some Symbolic | None => None end
  end.
(** the variables of the body *)
Fixpoint variables (e : px) : list string :=
  match e with
  | XVar s => [s]
  | XInt _ | XFlt _ => []
  | XAdd a b | XMul a b | XOp _ a b => variables a ++ variables b
  | XFun _ a => variables a
  end.

(** made of None, booleans, finite numbers, strings, lists, tuples and dicts only *)
Inductive literal : pyv -> Prop :=
| lit_none : literal PNone
| lit_bool b : literal (PBool b)
| lit_int z : literal (PInt z)
| lit_float q : literal (PFloat q)
| lit_str s : literal (PStr s)
| lit_list l : (forall x, In x l -> literal x) -> literal (PList l)
| lit_tuple l : (forall x, In x l -> literal x) -> literal (PTuple l)
| lit_dict l : (forall x y, In (x, y) l -> literal x /\ literal y) -> literal (PDict l).
(** the name of a linear combination *)
Definition combination (name : string) : Prop :=
  exists rest, name = ("LinCombV" ++ rest)%string \/ name = ("LinCombSRF" ++ rest)%string.
