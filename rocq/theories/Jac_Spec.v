(** Specification of the chain rule (independent of the model of Python's
    evaluation): real values of an expression, the values of the symbols at one
    observation, and expressions whose evaluation on lists and arrays is harmless. *)
From Coq Require Import ZArith Reals Bool Arith String List.
From Verif Require Import Base Jac_Model.
Import ListNotations.
Local Open Scope list_scope.
Local Open Scope R_scope.

Section Spec.
Variable ufunc : string -> R -> R.
(** the number an expression stands for *)
Fixpoint value (env : string -> R) (e : expr) : R :=
  match e with
  | INT z => IZR z
  | FLT r => r
  | VAR s => env s
  | ADD a b => value env a + value env b
  | SUB a b => value env a - value env b
  | MUL a b => value env a * value env b
  | DIV a b => value env a / value env b
  | NEG a => - value env a
  | POW a n => value env a ^ n
  | FUN f a => ufunc f (value env a)
  end.
End Spec.

(** the symbols of an expression *)
Fixpoint symbols (e : expr) : list string :=
  match e with
  | INT _ | FLT _ => []
  | VAR s => [s]
  | ADD a b | SUB a b | MUL a b | DIV a b => symbols a ++ symbols b
  | NEG a | POW a _ | FUN _ a => symbols a
  end.

Definition upd (env : string -> R) (k : string) (v : R) : string -> R :=
  fun s => if String.eqb s k then v else env s.

(** the values of all symbols at observation [c] (its position in the flattened
    array): a fitted parameter has the value of the group [grp s c] *)
Definition at_obs (fitted : list (string * list R)) (aux : list (string * list (list R)))
    (grp : string -> nat -> nat) (c : nat) (s : string) : R :=
  match dget string_dec s fitted with
  | Some l => nth (grp s c) l 0
  | None => match dget string_dec s aux with Some a => nth c (concat a) 0 | None => 0 end
  end.

(** all auxiliary arrays have n rows and m columns *)
Definition rectangular (n m : nat) (aux : list (string * list (list R))) : Prop :=
  forall s a, In (s, a) aux -> List.length a = n /\ forall row, In row a -> List.length row = m.

(** What becomes of an expression: a number, an array like the data, the values of
    a parameter as a list / array of a single value; [None]: none of these.
    [cl]: auxiliary data are arrays, parameters with a single value lists. *)
Inductive kind := Number | Data | Single_list | Single_array.
Definition kind2 (k1 k2 : kind) : option kind :=
  match k1, k2 with
  | Number, Number => Some Number
  | Data, _ | _, Data => Some Data
  | Single_array, _ | _, Single_array => Some Single_array
  | _, _ => None
  end.
Fixpoint kind_of (cl : string -> option kind) (e : expr) : option kind :=
  match e with
  | INT _ | FLT _ => Some Number
  | VAR s => cl s
  | ADD a b | SUB a b | MUL a b | DIV a b =>
      match kind_of cl a, kind_of cl b with Some x, Some y => kind2 x y | _, _ => None end
  | NEG a | POW a _ => match kind_of cl a with Some Single_list => None | o => o end
  | FUN _ a => match kind_of cl a with Some Single_list => Some Single_array | o => o end
  end.
Definition classify (fitted : list (string * list R)) (aux : list (string * list (list R))) (s : string) : option kind :=
  match dget string_dec s fitted with
  | Some [_] => Some Single_list
  | Some _ => None
  | None => match dget string_dec s aux with Some _ => Some Data | None => None end
  end.
(** the inner derivative is a number, or it is made of auxiliary data and single
    values so that each single value meets data first *)
Definition harmless fitted aux (d : expr) : Prop :=
  kind_of (classify fitted aux) d = Some Number \/ kind_of (classify fitted aux) d = Some Data.

(** the parameters of the model: tau, omega, NormBRDF by their definitions, others directly *)
Definition slots (ufunc : string -> R -> R) (defs : list (string * expr)) (env : string -> R) (s : string) : R :=
  match dget string_dec s defs with Some e => value ufunc env e | None => env s end.
