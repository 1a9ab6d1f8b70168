(** Specification of the accessor of MultiFits objects (C176), in terms of what the user did. *)
From Coq Require Import Bool Arith String List.
From Verif Require Import Base Acc_Model.
Import ListNotations.
Local Open Scope list_scope.

(** the fit that was given the name [n] last, in a list of additions (latest first) *)
Fixpoint last_of (n : string) (l : list (string * nat)) : option nat :=
  match l with
  | [] => None
  | (k, o) :: r => if string_dec k n then Some o else last_of n r
  end.
(** the configuration [n] of the object [c] after a session (latest operation first) *)
Fixpoint latest (c : nat) (n : string) (ops : list op) : option nat :=
  match ops with
  | [] => None
  | Create c' :: r => if Nat.eqb c' c then None else latest c n r
  | Load c' l :: r => if Nat.eqb c' c then last_of n (rev l) else latest c n r
  | Add c' k o :: r => if Nat.eqb c' c then (if string_dec k n then Some o else latest c n r) else latest c n r
  end.
(** all names that were given to fits *)
Definition additions (ops : list op) : list (string * nat) :=
  flat_map (fun x => match x with Create _ => [] | Load _ l => l | Add _ n o => [(n, o)] end) ops.
(** was an object created in this session? *)
Definition created (ops : list op) : bool := existsb (fun x => match x with Create _ => true | _ => false end) ops.

(** the keyword arguments given in the calls of the callback [n], in their order (calls with positional arguments fail
    before they are looked at) *)
Definition keywords {A} (n : string) (l : list (string * (list A * dict string A))) : list (string * A) :=
  flat_map (fun x => if string_dec (fst x) n then match fst (snd x) with [] => snd (snd x) | _ => [] end else []) l.
