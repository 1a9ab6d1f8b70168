(** Model: the constructors of the scattering functions (surface.py, volume.py) with positional and keyword arguments,
    the lists [a] they refer to, and the names and values shown by __repr__ and init_dict.
    Simplified: the linear combinations (C24, C72, C113) are left out; nan is no float here. *)
From Coq Require Import String List Bool ZArith QArith Arith.
From Verif Require Import Base.
Import ListNotations.
Local Open Scope string_scope.

(** the classes: surface.py 578 Isotropic, 615 CosineLobe, 712 HenyeyGreenstein, 778 HG_nadirnorm; volume.py 594
    Rayleigh, 658 HenyeyGreenstein, 740 HGRayleigh *)
Inductive cls : Type := SIso | SLobe | SHG | SNadir | VRay | VHG | VHGR.
(** values (plain Python): None, bool, int, float, sympy symbol, list (a reference), anything else that has no order
    (strings, tuples, ...) *)
Inductive val : Type := VNone | VBool (b : bool) | VInt (z : Z) | VFloat (q : Q) | VSym (s : string) | VRef (loc : nat) | VOther (n : nat).
(** the lists of a session by reference (no /repo code) *)
Definition heap : Type := list (list val).
(** an object: its class and its attributes *)
Record obj : Type := mkobj { o_cls : cls; o_attrs : dict string val }.

(** the positional-or-keyword arguments besides self: surface.py 592, 640, 738, 804; volume.py 618, 685, 771 *)
Definition sig (c : cls) : list string :=
  match c with
  | SIso | VRay => []
  | SLobe => ["ncoefs"; "i"; "a"]
  | SHG | SNadir | VHG | VHGR => ["t"; "ncoefs"; "a"]
  end.
(** the lists that are default arguments exist once, since the class was defined: surface.py 640, 738, 804, volume.py
    685, 771.  They are the first entries of the heap *)
Definition default_loc (c : cls) : nat :=
  match c with SLobe => 0 | SHG => 1 | SNadir => 2 | VHG => 3 | VHGR => 4 | SIso | VRay => 0 end.
(** surface.py 22, volume.py 24: the default of the base classes, a new list each time *)
Definition base_a (c : cls) : list val :=
  match c with
  | SIso | SLobe | SHG | SNadir => [VFloat 1; VFloat 1; VFloat 1]
  | VRay | VHG | VHGR => [VFloat (-1); VFloat 1; VFloat 1]
  end.
(** the heap after importing rt1: surface.py 640, 738, 804; volume.py 685, 771 *)
Definition heap0 : heap := [base_a SLobe; base_a SHG; base_a SNadir; base_a VHG; base_a VHGR].

(** binding of positional arguments (plain Python) *)
Fixpoint bind_pos (names : list string) (pos : list val) : res (dict string val) :=
  match pos, names with
  | [], _ => Ok []
  | _ :: _, [] => Err TypeError
  | v :: r, n :: ns => do d <- bind_pos ns r; Ok ((n, v) :: d)
  end.
(** binding of keyword arguments: the arguments of the signature, and the others in kwargs (plain Python) *)
Fixpoint bind_kw (names : list string) (bound : dict string val) (kw : dict string val) : res (dict string val * dict string val) :=
  match kw with
  | [] => Ok (bound, [])
  | (k, v) :: r =>
      if String.eqb k "self" then Err TypeError
      else if inb string_dec k names
           then if dmem string_dec k bound then Err TypeError else bind_kw names (bound ++ [(k, v)])%list r
           else do x <- bind_kw names bound r; Ok (fst x, (k, v) :: snd x)
  end.

(** [v > 0] used as a condition: symbols and other objects raise *)
Definition gt0 (v : val) : res bool :=
  match v with
  | VBool b => Ok b
  | VInt z => Ok (Z.ltb 0 z)
  | VFloat q => Ok (negb (Qle_bool q 0))
  | _ => Err TypeError
  end.
(** [int(v)] of a positive number *)
Definition int_of (v : val) : val :=
  match v with VBool b => VInt (if b then 1 else 0) | VFloat q => VInt (Qnum q / Zpos (Qden q)) | _ => v end.
(** [assert b] *)
Definition assert_ (b : bool) : res unit := if b then Ok tt else Err AssertionError.
(** [v is not None] *)
Definition not_none (v : val) : bool := match v with VNone => false | _ => true end.
(** [type(x) == float] *)
Definition is_float (v : val) : bool := match v with VFloat _ => true | _ => false end.
(** surface.py 652-663, 746-752, 812-818; volume.py 690-696, 776-786: the checks of [a]; with [floats] also the types *)
Definition check_a (h : heap) (floats : bool) (a : val) : res unit :=
  match a with
  | VRef l => let x := nth l h [] in
      do u <- assert_ (Nat.eqb (List.length x) 3); if floats then assert_ (forallb is_float x) else Ok tt
  | _ => Err AssertionError
  end.
(** surface.py 646-651: the checks of the power of a cosine lobe *)
Definition check_i (v : val) : res unit :=
  match v with VInt z => assert_ (Z.leb 0 z) | VBool _ => Ok tt | _ => Err AssertionError end.
(** [assert v > 0] *)
Definition check_pos (v : val) : res unit := do b <- gt0 v; assert_ b.

(** surface.py 17-30, volume.py 16-28: the attributes of the base class; [loc] is the new list *)
Definition base_attrs (c : cls) (kwargs : dict string val) (loc : nat) : dict string val :=
  match c with
  | SIso | SLobe | SHG | SNadir =>
      [("a", VRef loc); ("NormBRDF", match dget string_dec "NormBRDF" kwargs with Some v => v | None => VFloat 1 end)]
  | VRay | VHG | VHGR =>
      [("omega", match dget string_dec "omega" kwargs with Some v => v | None => VNone end);
       ("tau", match dget string_dec "tau" kwargs with Some v => v | None => VNone end); ("a", VRef loc)]
  end.
(** an argument or its default *)
Definition argval (d : dict string val) (k : string) (dflt : val) : val := match dget string_dec k d with Some v => v | None => dflt end.

(** the constructors: surface.py 592-593, 640-665, 738-752, 804-820; volume.py 618-619, 685-698, 771-788 *)
Definition init (c : cls) (h : heap) (args kwargs : dict string val) : res (dict string val) :=
  let base := base_attrs c kwargs (List.length h) in
  let t := argval args "t" VNone in
  let n := argval args "ncoefs" VNone in
  let i := argval args "i" VNone in
  let a := argval args "a" (VRef (default_loc c)) in
  match c with
  | SIso | VRay => Ok base
  | SLobe =>
      do u <- assert_ (not_none n); do u <- assert_ (not_none i); do u <- check_pos n; do u <- check_i i; do u <- check_a h true a;
      Ok (dset string_dec "ncoefs" (int_of n) (dset string_dec "a" a (dset string_dec "i" i base)))
  | SHG | SNadir =>
      do u <- assert_ (not_none t); do u <- assert_ (not_none n); do u <- check_pos n; do u <- check_a h false a;
      Ok (dset string_dec "a" a (dset string_dec "ncoefs" n (dset string_dec "t" t base)))
  | VHG =>
      do u <- assert_ (not_none t); do u <- assert_ (not_none n); do u <- check_a h false a; do u <- check_pos n;
      Ok (dset string_dec "ncoefs" n (dset string_dec "a" a (dset string_dec "t" t base)))
  | VHGR =>
      do u <- assert_ (not_none t); do u <- assert_ (not_none n); do u <- check_a h true a; do u <- check_pos n;
      Ok (dset string_dec "ncoefs" n (dset string_dec "a" a (dset string_dec "t" t base)))
  end.
(** a call of the class (plain Python): binding, then __init__ (surface.py 592-820, volume.py 618-788).  The list of the
    base class is a new entry of the heap *)
Definition new (c : cls) (pos : list val) (kw : dict string val) (h : heap) : heap * res obj :=
  ((h ++ [base_a c])%list,
   do p <- bind_pos (sig c) pos; do b <- bind_kw (sig c) p kw; do at_ <- init c h (fst b) (snd b); Ok (mkobj c at_)).

(** [obj.attr] *)
Definition attr (o : obj) (k : string) : option val := dget string_dec k (o_attrs o).
(** [_param_names]: surface.py 590, 638, 736, 802; volume.py 616, 683, 769 *)
Definition param_names (c : cls) : list string :=
  match c with
  | SIso => ["NormBRDF"]
  | SLobe => ["i"; "ncoefs"; "NormBRDF"; "a"]
  | SHG | SNadir => ["t"; "ncoefs"; "NormBRDF"; "a"]
  | VRay => ["tau"; "omega"]
  | VHG | VHGR => ["tau"; "omega"; "ncoefs"; "t"; "a"]
  end.
(** the values shown by __repr__ (surface.py 32-42, volume.py 30-40) and stored by init_dict (surface.py 65-73, volume.py
    63-71) under their names; init_dict raises a KeyError where an attribute is missing.
    Simplified: symbols are not turned into strings *)
Definition shown (o : obj) : res (dict string val) :=
  mapM (fun k => match attr o k with Some v => Ok (k, v) | None => Err KeyError end) (param_names (o_cls o)).

(** a session (no /repo code): making a list, calling a class, changing an element of [obj.a], appending to it,
    assigning a list to [obj.a] *)
Inductive op : Type :=
| Make (l : list val) | New (c : cls) (pos : list val) (kw : dict string val)
| Edit (o i : nat) (v : val) | Append (o : nat) (v : val) | Assign (o : nat) (loc : nat).
(** the lists and the objects that were created *)
Record state : Type := mkst { s_heap : heap; s_objs : list obj }.
(** the beginning of a session *)
Definition start : state := mkst heap0 [].
(** changing one list (no /repo code) *)
Fixpoint update {A} (n : nat) (f : A -> A) (l : list A) : list A :=
  match l, n with
  | [], _ => []
  | x :: r, O => f x :: r
  | x :: r, S m => x :: update m f r
  end.
(** [obj.a[i] = v], [obj.a.append(v)] *)
Definition in_place (o : nat) (f : list val -> list val) (s : state) : state :=
  match nth_error (s_objs s) o with
  | Some x => match attr x "a" with Some (VRef l) => mkst (update l f (s_heap s)) (s_objs s) | _ => s end
  | None => s
  end.
(** one step of a session (no /repo code); an exception leaves the objects as they are; only lists that
    exist can be assigned *)
Definition step (s : state) (o : op) : state :=
  match o with
  | Make l => mkst (s_heap s ++ [l])%list (s_objs s)
  | New c pos kw => let (h, r) := new c pos kw (s_heap s) in
      mkst h (match r with Ok x => (s_objs s ++ [x])%list | Err _ => s_objs s end)
  | Edit o i v => in_place o (update i (fun _ => v)) s
  | Append o v => in_place o (fun l => l ++ [v])%list s
  | Assign o l => if Nat.ltb l (List.length (s_heap s)) then mkst (s_heap s) (update o (fun x => mkobj (o_cls x) (dset string_dec "a" (VRef l) (o_attrs x))) (s_objs s)) else s
  end.
(** a session *)
Definition session (ops : list op) : state := fold_left step ops start.
(** the content of [obj.a] *)
Definition a_of (s : state) (o : nat) : option (list val) :=
  match nth_error (s_objs s) o with
  | Some x => match attr x "a" with Some (VRef l) => nth_error (s_heap s) l | _ => None end
  | None => None
  end.
