(** Model of the initialisation of the scattering functions from a dictionary:
    /repo/rt1/rtfits.py [Fits._init_V_SRF] (2140-2252), of its inverse
    [init_dict] (volume.py 43-71, surface.py 45-73) with
    [Fits._get_V_SRF_dict] (2771-2782), and of reading stored definitions with
    [literal_eval] (rtresults.py 628-665). *)
From Coq Require Import ZArith QArith Bool Arith String List.
From Verif Require Import Base.
Import ListNotations.
Local Open Scope string_scope.
Local Open Scope list_scope.

(** a sympy expression (no /repo code); [SOp]: a binary operation *)
Inductive sx : Type :=
| SNum (q : Q) | SSym (s : string) | SOp (op : string) (a b : sx) | SFun (f : string) (a : sx).

(** [expr.free_symbols] (no /repo code) *)
Fixpoint free_symbols (e : sx) : list string :=
  match e with
  | SNum _ => []
  | SSym s => [s]
  | SOp _ a b => free_symbols a ++ free_symbols b
  | SFun _ a => free_symbols a
  end.
(** rtfits.py 2202-2206: [xreplace] with the symbols whose names are in setdict *)
Fixpoint xreplace (setdict : list (string * sx)) (e : sx) : sx :=
  match e with
  | SNum q => SNum q
  | SSym s => match dget string_dec s setdict with Some v => v | None => SSym s end
  | SOp op a b => SOp op (xreplace setdict a) (xreplace setdict b)
  | SFun f a => SFun f (xreplace setdict a)
  end.

(** a value in the dictionary of properties (no /repo code): a string or a number *)
Inductive pval : Type := VStr (s : string) | VNum (q : Q).
(** the dictionary of properties: name of the class, values, components of a
    linear combination with their weights (no /repo code).  Simplified: the list
    [a] (2237-2240, used as it is) is left out *)
Inductive props : Type := Props (name : string) (kv : list (string * pval)) (choices : list (pval * props)).
(** the scattering object: name, attributes, components, [free_symbols].
    Simplified: the constructors of the classes (C16-C24) store their arguments *)
Inductive obj : Type := Obj (name : string) (attrs : list (string * sx)) (choices : list (sx * obj)) (free : list string).

(** rtfits.py 2170 *)
Definition ignore_keys : list string := ["omega"; "tau"; "NormBRDF"; "bsf"].
(** [key not in ignore_keys] *)
Definition counted (key : string) : bool := negb (existsb (String.eqb key) ignore_keys).

Section Ini.
(** [sp.sympify(val, _clash, evaluate=False)]; None: SympifyError *)
Variable parse : string -> option sx.

(** rtfits.py 2184-2211 [checkval]: the value that is used and the symbols that
    are added to [free_symbols] *)
Definition checkval (setdict : list (string * sx)) (key : string) (val : pval) : res (sx * list string) :=
  match val with
  | VStr s =>
      match dget string_dec s setdict with
      | Some e => Ok (e, match e with SSym t => if counted key then [t] else [] | _ => [] end)   (* 2188-2191 *)
      | None =>                                                                  (* 2199-2210 *)
          match parse s with
          | None => Err ValueError
          | Some e => let useval := xreplace setdict e in
                      Ok (useval, if counted key then free_symbols useval else [])
          end
      end
  | VNum q => Ok (SNum q, [])                                                    (* 2194-2195 *)
  end.

(** [name.startswith("LinCombV")] or "LinCombSRF" (2215-2217) *)
Definition lincomb (name : string) : bool := prefix "LinCombV" name || prefix "LinCombSRF" name.

(** rtfits.py 2140-2252 *)
Fixpoint init_V_SRF (setdict : list (string * sx)) (p : props) : res obj :=
  match p with
  | Props name kv choices =>
      do cs <- (if lincomb name
                then (fix go (l : list (pval * props)) : res (list (sx * obj) * list string) :=
                        match l with
                        | [] => Ok ([], [])
                        | (w, q) :: r =>
                            let key := match w with VStr s => s | VNum _ => "" end in
                            do u <- checkval setdict key w;                      (* 2220 *)
                            do o <- init_V_SRF [] q;                             (* 2225: no setdict *)
                            do rest <- go r;
                            Ok ((fst u, o) :: fst rest, snd u ++ snd rest)
                        end) choices
                else Ok ([], []));
      do vals <- mapM (fun x => do u <- checkval setdict (fst x) (snd x); Ok (fst x, u)) kv;   (* 2234-2242 *)
      Ok (Obj name (map (fun x => (fst x, fst (snd x))) vals) (fst cs)
              (snd cs ++ flat_map (fun x => snd (snd x)) vals))                  (* 2244-2252 *)
  end.

(** ** the inverse: a function set_V_SRF that is called with the names *)
(** a Python expression in the body of set_V_SRF (no /repo code); [XOp]: an
    operator other than + and *; [XFun]: a sympy function *)
Inductive px : Type :=
| XVar (s : string) | XInt (z : Z) | XFlt (q : Q)
| XAdd (a b : px) | XMul (a b : px) | XOp (op : string) (a b : px) | XFun (f : string) (a : px).

(** [str(expr)] *)
Variable show : sx -> string.
(** the value of an operator for numbers *)
Variable num_op : string -> Q -> Q -> Q.

(** a Python value: string, int, float, sympy expression (no /repo code) *)
Inductive sv : Type := WStr (s : string) | WInt (z : Z) | WFlt (q : Q) | WSym (e : sx).
(** a number as sympy expression *)
Definition to_sx (v : sv) : option sx :=
  match v with WInt z => Some (SNum (inject_Z z)) | WFlt q => Some (SNum q) | WSym e => Some e | WStr _ => None end.
(** n * s *)
Definition repeat_string (z : Z) (s : string) : string := String.concat "" (repeat s (Z.to_nat z)).
(** a binary operation of numbers or sympy expressions; strings raise a TypeError *)
Definition sv_op (op : string) (x y : sv) : res sv :=
  match x, y with
  | WInt a, WInt b => Ok (WFlt (num_op op (inject_Z a) (inject_Z b)))
  | WInt a, WFlt b => Ok (WFlt (num_op op (inject_Z a) b))
  | WFlt a, WInt b => Ok (WFlt (num_op op a (inject_Z b)))
  | WFlt a, WFlt b => Ok (WFlt (num_op op a b))
  | _, _ => match to_sx x, to_sx y with
            | Some a, Some b => Ok (WSym (SOp op a b))
            | _, _ => Err TypeError
            end
  end.
(** Python's [+] *)
Definition sv_add (x y : sv) : res sv :=
  match x, y with
  | WStr a, WStr b => Ok (WStr (a ++ b)%string)
  | WInt a, WInt b => Ok (WInt (a + b))
  | _, _ => sv_op "+" x y
  end.
(** Python's [*] *)
Definition sv_mul (x y : sv) : res sv :=
  match x, y with
  | WStr s, WInt z => Ok (WStr (repeat_string z s))
  | WInt z, WStr s => Ok (WStr (repeat_string z s))
  | WInt a, WInt b => Ok (WInt (a * b))
  | _, _ => sv_op "*" x y
  end.
(** a sympy function: strings are sympified *)
Definition sv_fun (f : string) (x : sv) : res sv :=
  match x with
  | WStr s => match parse s with Some e => Ok (WSym (SFun f e)) | None => Err ValueError end
  | _ => match to_sx x with Some e => Ok (WSym (SFun f e)) | None => Err TypeError end
  end.
(** evaluation of the body of set_V_SRF *)
Fixpoint body (env : string -> sv) (e : px) : res sv :=
  match e with
  | XVar s => Ok (env s)
  | XInt z => Ok (WInt z)
  | XFlt q => Ok (WFlt q)
  | XAdd a b => do x <- body env a; do y <- body env b; sv_add x y
  | XMul a b => do x <- body env a; do y <- body env b; sv_mul x y
  | XOp op a b => do x <- body env a; do y <- body env b; sv_op op x y
  | XFun f a => do x <- body env a; sv_fun f x
  end.

(** volume.py 63-70, surface.py 65-72 *)
Definition init_value (v : sv) : pval :=
  match v with
  | WStr s => VStr s
  | WInt z => VNum (inject_Z z)
  | WFlt q => VNum q
  | WSym e => VStr (show e)
  end.
(** rtfits.py 2771-2782 for one attribute of a function: set_V_SRF is called with
    the names of the variables as values; None: a TypeError is logged *)
Definition stored_attribute (e : px) : res (option pval) :=
  match body WStr e with
  | Ok v => Ok (Some (init_value v))
  | Err TypeError => Ok None
  | Err x => Err x
  end.
(** rtfits.py 1318-1324: the attribute of the object when the function is called with [setdict] *)
Definition direct_attribute (setdict : list (string * sx)) (e : px) : res sv :=
  body (fun s => match dget string_dec s setdict with
                 | Some (SNum q) => WFlt q
                 | Some v => WSym v
                 | None => WSym (SSym s) end) e.
(** rtresults.py 660-665, rtfits.py 1325-1328: the attribute of the loaded object;
    without a stored definition [set_V_SRF["V_props"]] is a TypeError *)
Definition loaded_attribute (setdict : list (string * sx)) (key : string) (e : px) : res sx :=
  do p <- stored_attribute e;
  match p with
  | None => Err TypeError
  | Some v => do u <- checkval setdict key v; Ok (fst u)
  end.
End Ini.

(** ** stored definitions: rtfits.py 2924-2940 [str], rtresults.py 631, 662 [literal_eval] *)
(** a value in the definition of a fit (no /repo code); [PInf neg]: np.inf, -np.inf;
    [PArray]: a numpy array; [PDate]: a datetime or Timestamp *)
Inductive pyv : Type :=
| PNone | PBool (b : bool) | PInt (z : Z) | PFloat (q : Q) | PInf (neg : bool) | PNan | PStr (s : string)
| PList (l : list pyv) | PTuple (l : list pyv) | PDict (l : list (pyv * pyv)) | PArray (l : list pyv) | PDate (s : string).
(** the syntax tree Python reads (no /repo code) *)
Inductive ast : Type :=
| ANone | ABool (b : bool) | AInt (z : Z) | AFloat (q : Q) | AStr (s : string)
| AList (l : list ast) | ATuple (l : list ast) | ADict (l : list (ast * ast))
| AName (s : string) | ANeg (a : ast) | ACall (f : string) (l : list ast).

(** the syntax tree of [str(v)] ([repr] inside of containers): numbers, strings,
    None, True, False and the containers are written as such, infinity as the name inf,
    not-a-number as nan, arrays and dates as calls (no /repo code) *)
Fixpoint written (v : pyv) : ast :=
  match v with
  | PNone => ANone | PBool b => ABool b
  | PInt z => if Z.ltb z 0 then ANeg (AInt (- z)) else AInt z
  | PFloat q => if Z.ltb (Qnum q) 0 then ANeg (AFloat (- q)) else AFloat q
  | PInf b => if b then ANeg (AName "inf") else AName "inf"
  | PNan => AName "nan"
  | PStr s => AStr s
  | PList l => AList (map written l)
  | PTuple l => ATuple (map written l)
  | PDict l => ADict (map (fun p => (written (fst p), written (snd p))) l)
  | PArray l => ACall "array" [AList (map written l)]
  | PDate s => ACall "Timestamp" [AStr s]
  end.
(** [ast.literal_eval]: constants, lists, tuples, dicts and signed numbers;
    everything else is a ValueError (no /repo code) *)
Fixpoint literal_eval (a : ast) : res pyv :=
  match a with
  | ANone => Ok PNone | ABool b => Ok (PBool b) | AInt z => Ok (PInt z) | AFloat q => Ok (PFloat q) | AStr s => Ok (PStr s)
  | AList l => do r <- (fix go (l : list ast) : res (list pyv) :=
                          match l with [] => Ok [] | x :: r => do y <- literal_eval x; do ys <- go r; Ok (y :: ys) end) l; Ok (PList r)
  | ATuple l => do r <- (fix go (l : list ast) : res (list pyv) :=
                          match l with [] => Ok [] | x :: r => do y <- literal_eval x; do ys <- go r; Ok (y :: ys) end) l; Ok (PTuple r)
  | ADict l => do r <- (fix go (l : list (ast * ast)) : res (list (pyv * pyv)) :=
                          match l with
                          | [] => Ok []
                          | (k, v) :: r => do x <- literal_eval k; do y <- literal_eval v; do ys <- go r; Ok ((x, y) :: ys)
                          end) l; Ok (PDict r)
  | ANeg b => do v <- literal_eval b;
              match v with PInt z => Ok (PInt (- z)) | PFloat q => Ok (PFloat (- q)) | _ => Err ValueError end
  | AName _ | ACall _ _ => Err ValueError
  end.
