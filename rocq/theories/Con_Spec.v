(** Specification vocabulary for the defdict container (C35-C38, C79-C81). *)
From Coq Require Import List Arith ZArith QArith Bool String.
From Verif Require Import Base Con_Model.
Import ListNotations.
Open Scope string_scope.

(** what a user reads: the property [k] of variable [x] *)
Definition property (x k : string) (d : defdict) : option val :=
  match getitem x d with Ok v => get_param k v | Err _ => None end.

(** two defdicts that a user cannot tell apart: same variables in the same
    order, same six properties *)
Definition same_definitions (d1 d2 : defdict) : Prop :=
  dd_keys d1 = dd_keys d2 /\ forall x k, property x k d1 = property x k d2.

(** every defdict a program can hold: new, built from a dictionary, or
    changed by a public operation *)
Inductive reachable : defdict -> Prop :=
| R_new : reachable new_defdict
| R_from : forall items d, NoDup (keys items) -> from_dict items = Ok d -> reachable d
| R_step : forall d o, reachable d -> reachable (fst (step o d)).

(** Is [x] defined after a history?  The history is the list of calls with
    their outcome, most recent first; calls that raised do not count. *)
Fixpoint defined_after (h : list (op * option pyerr)) (x : string) : bool :=
  match h with
  | [] => false
  | (o, Some _) :: r => defined_after r x
  | (o, None) :: r =>
      match o with
      | Add n _ _ => String.eqb n x || defined_after r x
      | Assign n _ => (String.eqb n x && negb (String.prefix "_" x)) || defined_after r x
      | Remove n => negb (String.eqb n x) && defined_after r x
      | _ => defined_after r x
      end
  end.

(** the number of calls that had been made when [x] was inserted for the
    last time (meaningful if [x] is defined) *)
Fixpoint inserted_at (h : list (op * option pyerr)) (x : string) : nat :=
  match h with
  | [] => 0
  | _ :: r => if defined_after r x then inserted_at r x else List.length r
  end.

(** [x] stands before [y] in [l] *)
Definition before {A} (x y : A) (l : list A) : Prop :=
  exists l1 l2 l3, l = (l1 ++ x :: l2 ++ y :: l3)%list.

(** the variable an operation names *)
Definition target (o : op) : string :=
  match o with
  | Add n _ _ | Remove n | Assign n _ | SetItem n _ _ | SetKey n _ _ | SetProp n _ _ => n
  end.

(** the documented property list [fitQ, val, freq, ([min], [max]), interpQ]
    and the documented property dict of six given values *)
Definition prop_list (p : props) : val :=
  VList [p_fitQ p; p_val p; p_freq p; VTup [VList [p_minval p]; VList [p_maxval p]]; p_interpQ p].
Definition prop_dict (p : props) : val :=
  VDict [("fitQ", p_fitQ p); ("val", p_val p); ("freq", p_freq p); ("minval", p_minval p);
         ("maxval", p_maxval p); ("interpQ", p_interpQ p)].

(** variable [x] of [d] has exactly the six properties [p] *)
Definition has_props (x : string) (p : props) (d : defdict) : Prop :=
  property x "fitQ" d = Some (p_fitQ p) /\ property x "val" d = Some (p_val p) /\
  property x "freq" d = Some (p_freq p) /\ property x "minval" d = Some (p_minval p) /\
  property x "maxval" d = Some (p_maxval p) /\ property x "interpQ" d = Some (p_interpQ p).
