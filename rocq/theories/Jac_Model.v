(** Model of the chain rule in /repo/rt1/rtfits.py [Fits._calc_jac] (1793-1970):
    tau, omega and NormBRDF given as expressions of fitted parameters and
    auxiliary data.  Python and numpy semantics of the lambdified derivative:
    scalars, lists (the values of a fitted parameter), arrays with one and two
    dimensions. *)
From Coq Require Import ZArith Reals Bool Arith String List.
From Verif Require Import Base.
Import ListNotations.
Local Open Scope list_scope.
Local Open Scope R_scope.

(** an expression as sympy prints it into the lambdified function (rtfits.py
    1398-1406, [modules=["numpy"]]); [FUN]: a numpy function.  Simplified: powers
    with natural exponents (others as [DIV] or [FUN]). *)
Inductive expr : Type :=
| INT (z : Z) | FLT (r : R) | VAR (s : string)
| ADD (a b : expr) | SUB (a b : expr) | MUL (a b : expr) | DIV (a b : expr)
| NEG (a : expr) | POW (a : expr) (n : nat) | FUN (f : string) (a : expr).

(** a Python value: int, float, list of floats, numpy array of one dimension,
    numpy array of two dimensions (rows) (no /repo code) *)
Inductive pv : Type :=
| Int (z : Z) | Flt (r : R) | Lst (l : list R) | Ar1 (l : list R) | Ar2 (l : list (list R)).

(** numpy broadcasting of one dimension: equal lengths or one of them 1 (no /repo code) *)
Definition bc {A} (op : A -> A -> res A) (x y : list A) : res (list A) :=
  match x, y with
  | [a], _ => mapM (fun b => op a b) y
  | _, [b] => mapM (fun a => op a b) x
  | _, _ => if Nat.eqb (List.length x) (List.length y) then mapM (fun p => op (fst p) (snd p)) (combine x y)
            else Err ValueError
  end.
(** an operation between two arrays of two dimensions (no /repo code) *)
Definition bc2 (op : R -> R -> R) (x y : list (list R)) : res (list (list R)) :=
  bc (bc (fun a b => Ok (op a b))) x y.
(** ... of one dimension *)
Definition bc1 (op : R -> R -> R) (x y : list R) : res (list R) := bc (fun a b => Ok (op a b)) x y.

(** an arithmetic operation in which at least one operand is an array; a list
    is turned into an array (no /repo code) *)
Definition arith (op : R -> R -> R) (x y : pv) : res pv :=
  match x, y with
  | Ar2 a, Ar2 b => do c <- bc2 op a b; Ok (Ar2 c)
  | Ar2 a, (Ar1 b | Lst b) => do c <- bc2 op a [b]; Ok (Ar2 c)
  | (Ar1 a | Lst a), Ar2 b => do c <- bc2 op [a] b; Ok (Ar2 c)
  | Ar2 a, Int z => Ok (Ar2 (map (map (fun u => op u (IZR z))) a))
  | Ar2 a, Flt r => Ok (Ar2 (map (map (fun u => op u r)) a))
  | Int z, Ar2 b => Ok (Ar2 (map (map (op (IZR z))) b))
  | Flt r, Ar2 b => Ok (Ar2 (map (map (op r)) b))
  | Ar1 a, (Ar1 b | Lst b) => do c <- bc1 op a b; Ok (Ar1 c)
  | Lst a, Ar1 b => do c <- bc1 op a b; Ok (Ar1 c)
  | Ar1 a, Int z => Ok (Ar1 (map (fun u => op u (IZR z)) a))
  | Ar1 a, Flt r => Ok (Ar1 (map (fun u => op u r) a))
  | Int z, Ar1 b => Ok (Ar1 (map (op (IZR z)) b))
  | Flt r, Ar1 b => Ok (Ar1 (map (op r) b))
  | Int z, Int w => Ok (Flt (op (IZR z) (IZR w)))
  | Int z, Flt r => Ok (Flt (op (IZR z) r))
  | Flt r, Int z => Ok (Flt (op r (IZR z)))
  | Flt r, Flt q => Ok (Flt (op r q))
  | _, _ => Err TypeError
  end.
(** Python's [+]: integers stay integers, lists are concatenated (no /repo code) *)
Definition padd (x y : pv) : res pv :=
  match x, y with
  | Int a, Int b => Ok (Int (a + b))
  | Lst a, Lst b => Ok (Lst (a ++ b))
  | _, _ => arith Rplus x y
  end.
(** Python's [-] (no /repo code) *)
Definition psub (x y : pv) : res pv :=
  match x, y with Int a, Int b => Ok (Int (a - b)) | _, _ => arith Rminus x y end.
(** Python's [*]: an integer repeats a list (no /repo code) *)
Definition pmul (x y : pv) : res pv :=
  match x, y with
  | Int a, Int b => Ok (Int (a * b))
  | Int a, Lst b => Ok (Lst (concat (repeat b (Z.to_nat a))))
  | Lst a, Int b => Ok (Lst (concat (repeat a (Z.to_nat b))))
  | _, _ => arith Rmult x y
  end.
(** Python's [/]; only numbers can raise ZeroDivisionError, which is left out
    (no /repo code) *)
Definition pdiv (x y : pv) : res pv := arith Rdiv x y.
(** an elementwise function of an array; [lst]: what a list becomes (no /repo code) *)
Definition elementwise (f : R -> R) (lst : list R -> res pv) (x : pv) : res pv :=
  match x with
  | Int z => Ok (Flt (f (IZR z)))
  | Flt r => Ok (Flt (f r))
  | Lst l => lst l
  | Ar1 l => Ok (Ar1 (map f l))
  | Ar2 l => Ok (Ar2 (map (map f) l))
  end.
(** unary minus: not defined for lists (no /repo code) *)
Definition pneg (x : pv) : res pv :=
  match x with Int z => Ok (Int (- z)) | _ => elementwise Ropp (fun _ => Err TypeError) x end.
(** [x ** n]: not defined for lists (no /repo code) *)
Definition ppow (x : pv) (n : nat) : res pv :=
  match x with
  | Int z => Ok (Int (z ^ Z.of_nat n))
  | _ => elementwise (fun r => r ^ n) (fun _ => Err TypeError) x
  end.

Section Jac.
(** the numpy functions (sqrt, exp, sin, ...) as real functions *)
Variable ufunc : string -> R -> R.

(** a call of the lambdified function with the keyword arguments [env] *)
Fixpoint run (env : string -> option pv) (e : expr) : res pv :=
  match e with
  | INT z => Ok (Int z)
  | FLT r => Ok (Flt r)
  | VAR s => match env s with Some v => Ok v | None => Err KeyError end
  | ADD a b => do x <- run env a; do y <- run env b; padd x y
  | SUB a b => do x <- run env a; do y <- run env b; psub x y
  | MUL a b => do x <- run env a; do y <- run env b; pmul x y
  | DIV a b => do x <- run env a; do y <- run env b; pdiv x y
  | NEG a => do x <- run env a; pneg x
  | POW a n => do x <- run env a; ppow x n
  | FUN f a => do x <- run env a; elementwise (ufunc f) (fun l => Ok (Ar1 (map (ufunc f) l))) x
  end.

(** rtfits.py 1898-1903: a fitted parameter is given by the list of its values
    (a part of the vector of the optimiser, 2345-2346), auxiliary data by the
    rectangular array (1105) *)
Definition call_env (res_dict : list (string * list R)) (fixed_dict : list (string * list (list R))) (s : string) : option pv :=
  match dget string_dec s res_dict with
  | Some l => Some (Lst l)
  | None => option_map Ar2 (dget string_dec s fixed_dict)
  end.

(** rtfits.py 1904-1907: a number stays, everything else is flattened with
    [np.fromiter(chain( *df_dx), count=jac_size)]: an entry of a list or an array
    of one dimension is a number, which can not be iterated; too few entries are
    an error, superfluous ones are ignored *)
Definition flatten (jac_size : nat) (v : pv) : res (nat -> R) :=
  match v with
  | Int z => Ok (fun _ => IZR z)
  | Flt r => Ok (fun _ => r)
  | Lst [] | Ar1 [] => if Nat.eqb jac_size 0 then Ok (fun _ => 0) else Err ValueError
  | Lst _ | Ar1 _ => Err TypeError
  | Ar2 l => if Nat.ltb (List.length (concat l)) jac_size then Err ValueError
             else Ok (fun c => nth c (concat l) 0)
  end.

(** rtfits.py 1894-1913 (1916-1927, 1930-1941): the derivative of the definition
    by one symbol, multiplied to the columns of the jacobian ([multiply] and [*]
    do this for each row); [outer]: the flattened derivative of the model by tau
    (omega, NormBRDF) *)
Definition times_inner (res_dict : list (string * list R)) (fixed_dict : list (string * list (list R)))
    (d : expr) (outer : list R) : res (list R) :=
  do v <- run (call_env res_dict fixed_dict) d;
  do f <- flatten (List.length outer) v;
  Ok (map (fun c => nth c outer 0 * f c) (seq 0 (List.length outer))).

(** [neworder[neworder.index(i)] = slot] *)
Fixpoint replace_first (i slot : string) (l : list string) : res (list string) :=
  match l with
  | [] => Err ValueError
  | x :: r => if String.eqb x i then Ok (slot :: r) else do r' <- replace_first i slot r; Ok (x :: r')
  end.
(** rtfits.py 1848-1857: the slots that replace the fitted symbols; [defs]: for
    each of tau, omega, NormBRDF the symbols of the definition that are fitted *)
Fixpoint neworder (defs : list (string * list string)) (order : list string) : res (list string) :=
  match defs with
  | [] => Ok order
  | (slot, symbs) :: r =>
      do o <- fold_left (fun acc i => do o <- acc; replace_first i slot o) symbs (Ok order);
      neworder r o
  end.

(** rtfits.py 1846-1941: the flattened derivatives of all fitted parameters;
    [jac]: R.jacobian for one slot (C06-C09); [diffs]: for each definition the
    derivatives by its fitted symbols *)
Definition calc_jac (res_dict : list (string * list R)) (fixed_dict : list (string * list (list R)))
    (jac : string -> list R) (diffs : list (string * list (string * expr))) (order : list string)
    : res (list (string * list R)) :=
  do o <- neworder (map (fun d => (fst d, map fst (snd d))) diffs) order;
  let start := combine order (map jac o) in                                      (* 1862-1888 *)
  mapM (fun kv =>
          do data <- fold_left (fun acc d => do data <- acc;
                                  match dget string_dec (fst kv) (snd d) with
                                  | Some e => times_inner res_dict fixed_dict e data
                                  | None => Ok data end) diffs (Ok (snd kv));
          Ok (fst kv, data)) start.
End Jac.
