(** Specification of sessions: the current attributes and the value an
    evaluation should have, without caches (C61, C97) *)
From Coq Require Import List Arith Bool String.
From Verif Require Import Base Ses_Model.
Import ListNotations.

Section Spec.
Context {Mdl DDict Ds Dat Val Fn Out : Type}.
Variable mk : Mdl -> DDict -> pval Val * pval Val * pval Val.
Variable prep : Ds -> DDict -> Dat.
Variable fnof : Mdl -> DDict -> Fn.
Variable rt : bool -> bool -> Dat -> Mdl * DDict -> DDict -> pval Val * pval Val * pval Val -> list (string * Val) -> option Fn -> Out.
Notation fit := (fit Mdl DDict Ds Fn).
Notation op := (op Mdl DDict Ds Val Fn).

(** value of omega, tau or NormBRDF by definition [p] and parameters [ps]: a
    parameter of this name replaces a constant, expressions are evaluated *)
Definition value_of (name : string) (ps : list (string * Val)) (p : pval Val) : res (pval Val) :=
  match p with
  | Num v => Ok (Num match dget string_dec name ps with Some w => w | None => v end)
  | Sym ks f => do l <- mapM (fun k => match dget string_dec k ps with Some v => Ok v | None => Err KeyError end) ks; Ok (Num (f l))
  end.

(** the result for the given attributes and parameters *)
Definition expected (f : fit) (fn : option Fn) (ps : list (string * Val)) : res Out :=
  let '(om, ta, no) := mk (f_model f) (f_defdict f) in
  do a <- value_of "omega" ps om; do b <- value_of "tau" ps ta; do n <- value_of "NormBRDF" ps no;
  Ok (rt (f_sig0 f) (f_dB f) (prep (f_dataset f) (f_defdict f)) (f_model f, f_defdict f) (f_defdict f) (a, b, n) ps fn).

(** every attribute has the value assigned last *)
Definition attr_step (a : nat -> fit) (x : op) : nat -> fit := fun q =>
  let f := a q in
  match x with
  | Create o g => if Nat.eqb q o then g else f
  | SetModel o m => if Nat.eqb q o then mkfit m (f_defdict f) (f_dataset f) (f_sig0 f) (f_dB f) (f_intQ f) (f_fn f) else f
  | SetDefdict o dd | EditDefdict o dd => if Nat.eqb q o then mkfit (f_model f) dd (f_dataset f) (f_sig0 f) (f_dB f) (f_intQ f) (f_fn f) else f
  | SetDataset o d => if Nat.eqb q o then mkfit (f_model f) (f_defdict f) d (f_sig0 f) (f_dB f) (f_intQ f) (f_fn f) else f
  | SetSig0 o b => if Nat.eqb q o then mkfit (f_model f) (f_defdict f) (f_dataset f) b (f_dB f) (f_intQ f) (f_fn f) else f
  | SetdB o b => if Nat.eqb q o then mkfit (f_model f) (f_defdict f) (f_dataset f) (f_sig0 f) b (f_intQ f) (f_fn f) else f
  | SetIntQ o b => if Nat.eqb q o then mkfit (f_model f) (f_defdict f) (f_dataset f) (f_sig0 f) (f_dB f) b (f_fn f) else f
  | StartFit _ => f
  (* the functions of the interaction term: those of the first evaluation with int_Q *)
  | Calc o _ => if Nat.eqb q o && f_intQ f
                then mkfit (f_model f) (f_defdict f) (f_dataset f) (f_sig0 f) (f_dB f) (f_intQ f)
                       (match f_fn f with Some g => Some g | None => Some (fnof (f_model f) (f_defdict f)) end)
                else f
  | MultiSetDataset os d => if existsb (Nat.eqb q) os then mkfit (f_model f) (f_defdict f) d (f_sig0 f) (f_dB f) (f_intQ f) (f_fn f) else f
  end.
Definition attrs (init : nat -> fit) (ops : list op) : nat -> fit := fold_left attr_step ops init.

(** assignments only, no changes behind the back of the object *)
Definition plain (x : op) : bool :=
  match x with EditDefdict _ _ | MultiSetDataset _ _ => false | _ => true end.

(** no parameter is passed for one of omega, tau, NormBRDF that is a constant
    by definition [f] *)
Definition respects (f : fit) (ps : list (string * Val)) : Prop :=
  let '(om, ta, no) := mk (f_model f) (f_defdict f) in
  (forall v, om = Num v -> dget string_dec "omega"%string ps = None) /\
  (forall v, ta = Num v -> dget string_dec "tau"%string ps = None) /\
  (forall v, no = Num v -> dget string_dec "NormBRDF"%string ps = None).
(** all evaluations of the history do so *)
Definition respectful (init : nat -> fit) (ops : list op) : Prop :=
  forall l o ps r, ops = l ++ Calc o ps :: r -> respects (attrs init l o) ps.

(** the functions of the interaction term that should be used *)
Definition current_fn (f : fit) : option Fn := if f_intQ f then Some (fnof (f_model f) (f_defdict f)) else None.
End Spec.
