(** Specification for C203-C205: documented arguments, valid calls. *)
From Coq Require Import String List Bool ZArith QArith Arith.
From Verif Require Import Base Kwd_Model.
Import ListNotations.
Local Open Scope string_scope.

(** the arguments that can be given by position, in order *)
Definition arguments (c : cls) : list string :=
  match c with
  | SIso | VRay => []
  | SLobe => ["ncoefs"; "i"; "a"]
  | _ => ["t"; "ncoefs"; "a"]
  end.
(** the parameters listed in the documentation of the classes *)
Definition documented (c : cls) : list string :=
  match c with
  | SIso => ["NormBRDF"]
  | SLobe => ["i"; "ncoefs"; "a"; "NormBRDF"]
  | SHG | SNadir => ["t"; "ncoefs"; "a"; "NormBRDF"]
  | VRay => ["tau"; "omega"; "ncoefs"; "a"]
  | VHG | VHGR => ["tau"; "omega"; "t"; "ncoefs"; "a"]
  end.
(** the parameters that are used *)
Definition used (c : cls) : list string :=
  (arguments c ++ match c with SIso | SLobe | SHG | SNadir => ["NormBRDF"] | _ => ["omega"; "tau"] end)%list.

(** position of a name *)
Fixpoint position (k : string) (l : list string) : option nat :=
  match l with
  | [] => None
  | x :: r => if String.eqb x k then Some O else option_map S (position k r)
  end.
(** what a call gives for a name: by position or by keyword *)
Definition given (c : cls) (pos : list val) (kw : dict string val) (k : string) : option val :=
  match position k (arguments c) with
  | Some n => match nth_error pos n with Some v => Some v | None => dget string_dec k kw end
  | None => dget string_dec k kw
  end.
(** a value or its default *)
Definition gor (g : string -> option val) (k : string) (d : val) : val := match g k with Some v => v | None => d end.
(** Python accepts the call: not too many arguments, none twice *)
Definition well_called (c : cls) (pos : list val) (kw : dict string val) : Prop :=
  (List.length pos <= List.length (arguments c))%nat /\ ~ In "self" (keys kw) /\
  forall n k, nth_error (arguments c) n = Some k -> (n < List.length pos)%nat -> ~ In k (keys kw).

Definition positive (v : val) : Prop := v = VBool true \/ (exists z, v = VInt z /\ (0 < z)%Z) \/ (exists q, v = VFloat q /\ (0 < q)%Q).
Definition power (v : val) : Prop := (exists b, v = VBool b) \/ (exists z, v = VInt z /\ (0 <= z)%Z).
Definition triple (h : heap) (v : val) : Prop := exists l x y z, v = VRef l /\ nth_error h l = Some [x; y; z].
Definition float_triple (h : heap) (v : val) : Prop := exists l x y z, v = VRef l /\ nth_error h l = Some [VFloat x; VFloat y; VFloat z].

(** the list that is used if none is given *)
Definition a_default (c : cls) (h : heap) : val :=
  match c with SLobe => VRef 0 | SHG => VRef 1 | SNadir => VRef 2 | VHG => VRef 3 | VHGR => VRef 4 | SIso | VRay => VRef (List.length h) end.
Definition valid (c : cls) (h : heap) (g : string -> option val) : Prop :=
  match c with
  | SIso | VRay => True
  | SLobe => positive (gor g "ncoefs" VNone) /\ power (gor g "i" VNone) /\ float_triple h (gor g "a" (a_default c h))
  | SHG | SNadir | VHG => gor g "t" VNone <> VNone /\ positive (gor g "ncoefs" VNone) /\ triple h (gor g "a" (a_default c h))
  | VHGR => gor g "t" VNone <> VNone /\ positive (gor g "ncoefs" VNone) /\ float_triple h (gor g "a" (a_default c h))
  end.
(** the value of an attribute of the object that is made *)
Definition expected (c : cls) (h : heap) (g : string -> option val) (k : string) : option val :=
  if String.eqb k "a" then Some (match c with SIso | VRay => a_default c h | _ => gor g "a" (a_default c h) end)
  else if String.eqb k "NormBRDF" then match c with SIso | SLobe | SHG | SNadir => Some (gor g k (VFloat 1)) | _ => None end
  else if String.eqb k "omega" || String.eqb k "tau" then match c with VRay | VHG | VHGR => Some (gor g k VNone) | _ => None end
  else if String.eqb k "i" then match c with SLobe => g k | _ => None end
  else if String.eqb k "t" then match c with SHG | SNadir | VHG | VHGR => g k | _ => None end
  else if String.eqb k "ncoefs" then match c with SLobe => option_map int_of (g k) | SHG | SNadir | VHG | VHGR => g k | _ => None end
  else None.
(** classes whose default list is a default argument *)
Definition shares (c : cls) : bool := match c with SIso | VRay => false | _ => true end.
(** operations that change lists in place *)
Definition edits (o : op) : bool := match o with Edit _ _ _ | Append _ _ => true | _ => false end.
Definition assigns (n : nat) (o : op) : bool := match o with Assign m _ => Nat.eqb m n | _ => false end.
(** which list an object refers to *)
Definition loc_of (s : state) (n : nat) : option nat :=
  match nth_error (s_objs s) n with Some x => match attr x "a" with Some (VRef l) => Some l | _ => None end | None => None end.
