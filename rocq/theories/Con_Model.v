(** Model of /repo/rt1/_containers.py: the defdict container.

    Simplifications.  Values of properties are a finite tree of Python
    literals ([val]); aliasing of mutable values is not represented (the
    deep copy of from_dict is the identity on trees).  Variable names are
    strings other than the names Python reserves on every object
    ("__class__", "__dict__", ...), and the private attributes
    "_variables"/"_vars" of a defdict and "_fitQ"/... of a variable are not
    overwritten by the user. *)
From Coq Require Import List Arith ZArith QArith Bool String Ascii.
From Verif Require Import Base.
Import ListNotations.
Open Scope string_scope.

(** a Python literal that can occur as a property value (plain Python, no /repo code) *)
Inductive val : Type :=
| VNone
| VBool (b : bool)
| VNum (q : Q)
| VStr (s : string)
| VList (l : list val)
| VTup (l : list val)
| VDict (d : list (string * val)).

(** _containers.py:227-246 [_RT1_variable.__init__]: the seven boxed
    values of a variable, and (v_extra) the plain instance attributes that
    [__setattr__] (278-283) creates for any other key. *)
Record variable : Type := mkvar {
  v_name : val;
  v_fitQ : val;
  v_val : val;
  v_freq : val;
  v_minval : val;
  v_maxval : val;
  v_interpQ : val;
  v_extra : dict string val
}.

(** _containers.py:13-16 [_RT1_defdict.__init__]: the list of names, the
    namespace object holding the definitions, and (d_attrs) the plain
    instance attributes created by line 39. *)
Record defdict : Type := mkdd {
  d_variables : list string;
  d_vars : dict string variable;
  d_attrs : dict string val
}.

(** _containers.py:13-16: a new, empty defdict *)
Definition new_defdict : defdict := mkdd [] [] [].

(** the six property names, _containers.py:228, 258, 279 *)
Definition paramnames : list string :=
  ["fitQ"; "val"; "freq"; "minval"; "maxval"; "interpQ"].

(** the six property values of a call of [add_variable] *)
Record props : Type := mkprops {
  p_fitQ : val; p_val : val; p_freq : val; p_minval : val; p_maxval : val; p_interpQ : val
}.

(** the defaults in the signature of [add_variable], _containers.py:48-50 *)
Definition default_props : props :=
  mkprops (VBool true) (VNum (1#2)) VNone (VNum 0) (VNum 1) (VBool false).

(** overriding one keyword argument (Python call semantics for the
    signature _containers.py:48-50); an unknown keyword, or one that
    repeats [self]/[name], is a TypeError *)
Definition set_prop (k : string) (v : val) (p : props) : res props :=
  if String.eqb k "fitQ" then Ok (mkprops v (p_val p) (p_freq p) (p_minval p) (p_maxval p) (p_interpQ p))
  else if String.eqb k "val" then Ok (mkprops (p_fitQ p) v (p_freq p) (p_minval p) (p_maxval p) (p_interpQ p))
  else if String.eqb k "freq" then Ok (mkprops (p_fitQ p) (p_val p) v (p_minval p) (p_maxval p) (p_interpQ p))
  else if String.eqb k "minval" then Ok (mkprops (p_fitQ p) (p_val p) (p_freq p) v (p_maxval p) (p_interpQ p))
  else if String.eqb k "maxval" then Ok (mkprops (p_fitQ p) (p_val p) (p_freq p) (p_minval p) v (p_interpQ p))
  else if String.eqb k "interpQ" then Ok (mkprops (p_fitQ p) (p_val p) (p_freq p) (p_minval p) (p_maxval p) v)
  else Err TypeError.

(** the argument binding of [add_variable(name, **kw)] *)
Fixpoint bind_kw (kw : list (string * val)) (p : props) : res props :=
  match kw with
  | [] => Ok p
  | (k, v) :: r => do p' <- set_prop k v p; bind_kw r p'
  end.

(** the argument binding of [add_variable(name, *args)]: positional
    arguments in the order of the signature; too many are a TypeError *)
Fixpoint bind_pos (names : list string) (args : list val) (p : props) : res props :=
  match args, names with
  | [], _ => Ok p
  | _ :: _, [] => Err TypeError
  | a :: r, n :: ns => do p' <- set_prop n a p; bind_pos ns r p'
  end.

(** _containers.py:108-123 [add_variable], with bound arguments *)
Definition add_variable (name : string) (p : props) (d : defdict) : defdict :=
  mkdd (if inb string_dec name (d_variables d) then d_variables d
        else (d_variables d ++ [name])%list)
       (dset string_dec name
          (mkvar (VStr name) (p_fitQ p) (p_val p) (p_freq p) (p_minval p) (p_maxval p)
             (p_interpQ p) [])
          (d_vars d))
       (d_attrs d).

(** [list.pop(list.index(x))], used in _containers.py:135: removes the first occurrence *)
Fixpoint remove_first (x : string) (l : list string) : list string :=
  match l with
  | [] => []
  | y :: r => if string_dec x y then r else y :: remove_first x r
  end.

(** _containers.py:125-136 [remove_variable]: the state after the call and
    the exception of [delattr] when there is no such attribute *)
Definition remove_variable (name : string) (d : defdict) : defdict * option pyerr :=
  let l := if inb string_dec name (d_variables d) then remove_first name (d_variables d)
           else d_variables d in
  if dmem string_dec name (d_vars d)
  then (mkdd l (ddel string_dec name (d_vars d)) (d_attrs d), None)
  else (mkdd l (d_vars d) (d_attrs d), Some AttributeError).

(** [key.startswith("_")], _containers.py:27 *)
Definition starts_underscore (k : string) : bool := String.prefix "_" k.

(** _containers.py:26-39 [_RT1_defdict.__setattr__].  A name that is also a
    read-only property of the class ("var", 44-46) cannot be set as a plain
    attribute. *)
Definition setattr_defdict (key : string) (v : val) (d : defdict) : defdict * option pyerr :=
  if negb (starts_underscore key) && negb (inb string_dec key (d_variables d)) then
    match v with
    | VDict kw => match bind_kw kw default_props with
                  | Ok p => (add_variable key p d, None)
                  | Err e => (d, Some e)
                  end
    | VList l => match bind_pos paramnames l default_props with
                 | Ok p => (add_variable key p d, None)
                 | Err e => (d, Some e)
                 end
    | _ => (d, Some AttributeError)
    end
  else if String.eqb key "var" then (d, Some AttributeError)
  else (mkdd (d_variables d) (d_vars d) (dset string_dec key v (d_attrs d)), None).

(** _containers.py:251-261: reading one of the six properties *)
Definition get_param (k : string) (x : variable) : option val :=
  if String.eqb k "fitQ" then Some (v_fitQ x)
  else if String.eqb k "val" then Some (v_val x)
  else if String.eqb k "freq" then Some (v_freq x)
  else if String.eqb k "minval" then Some (v_minval x)
  else if String.eqb k "maxval" then Some (v_maxval x)
  else if String.eqb k "interpQ" then Some (v_interpQ x)
  else None.

(** _containers.py:278-281: [object.__getattribute__(self, key).value = val]
    for one of the six properties *)
Definition set_param (k : string) (v : val) (x : variable) : option variable :=
  if String.eqb k "fitQ" then Some (mkvar (v_name x) v (v_val x) (v_freq x) (v_minval x) (v_maxval x) (v_interpQ x) (v_extra x))
  else if String.eqb k "val" then Some (mkvar (v_name x) (v_fitQ x) v (v_freq x) (v_minval x) (v_maxval x) (v_interpQ x) (v_extra x))
  else if String.eqb k "freq" then Some (mkvar (v_name x) (v_fitQ x) (v_val x) v (v_minval x) (v_maxval x) (v_interpQ x) (v_extra x))
  else if String.eqb k "minval" then Some (mkvar (v_name x) (v_fitQ x) (v_val x) (v_freq x) v (v_maxval x) (v_interpQ x) (v_extra x))
  else if String.eqb k "maxval" then Some (mkvar (v_name x) (v_fitQ x) (v_val x) (v_freq x) (v_minval x) v (v_interpQ x) (v_extra x))
  else if String.eqb k "interpQ" then Some (mkvar (v_name x) (v_fitQ x) (v_val x) (v_freq x) (v_minval x) (v_maxval x) v (v_extra x))
  else None.

(** _containers.py:278-283 [_RT1_variable.__setattr__]: one of the six
    properties, or a plain attribute; "name" and "_props" are properties
    without a setter (285-287, 313-321) *)
Definition setattr_var (k : string) (v : val) (x : variable) : res variable :=
  match set_param k v x with
  | Some x' => Ok x'
  | None =>
      if String.eqb k "name" || String.eqb k "_props" then Err AttributeError
      else Ok (mkvar (v_name x) (v_fitQ x) (v_val x) (v_freq x) (v_minval x) (v_maxval x)
                 (v_interpQ x) (dset string_dec k v (v_extra x)))
  end.

(** unpacking an iterable (plain Python): lists, tuples, strings
    (characters) and dicts (keys); anything else is a TypeError *)
Definition iterate (v : val) : res (list val) :=
  match v with
  | VList l | VTup l => Ok l
  | VStr s => Ok (map (fun c => VStr (String c EmptyString)) (list_ascii_of_string s))
  | VDict d => Ok (map (fun kv => VStr (fst kv)) d)
  | _ => Err TypeError
  end.

(** the target [[a]] of an unpacking assignment (_containers.py:268, 339) *)
Definition unpack1 (v : val) : res val :=
  do l <- iterate v;
  match l with [a] => Ok a | _ => Err ValueError end.

(** the target [[[a], [b]]] of an unpacking assignment (_containers.py:268, 339) *)
Definition unpack_minmax (v : val) : res (val * val) :=
  do l <- iterate v;
  match l with
  | [x; y] => do a <- unpack1 x; do b <- unpack1 y; Ok (a, b)
  | _ => Err ValueError
  end.

(** the padding list, _containers.py:342 *)
Definition padding : list val :=
  [VNone; VNone; VNone; VList [VList [VNone]; VList [VNone]]; VNone].

(** _containers.py:323-343 [_RT1_variable._from_list] (only called on a
    fresh variable whose defdict is dropped if an exception leaves
    from_dict, so that the partial assignments before an exception are not
    represented) *)
Definition from_list (l : list val) (x : variable) : res variable :=
  match (l ++ skipn (List.length l) padding)%list with
  | [a; b; c; m; i] =>
      do mm <- unpack_minmax m;
      Ok (mkvar (v_name x) a b c (fst mm) (snd mm) i (v_extra x))
  | _ => Err ValueError
  end.

(** _containers.py:345-361 [_RT1_variable._to_list] and 313-321 [_props] *)
Definition to_list (x : variable) : list val :=
  [v_fitQ x; v_val x; v_freq x; VTup [VList [v_minval x]; VList [v_maxval x]]; v_interpQ x].

(** _containers.py:363-376 [_RT1_variable._from_dict] *)
Fixpoint from_dict_var (kw : list (string * val)) (x : variable) : res variable :=
  match kw with
  | [] => Ok x
  | (k, v) :: r => do x' <- setattr_var k v x; from_dict_var r x'
  end.

(** [v.value] for a property value [v]: none of the literals has such an
    attribute (plain Python) *)
Definition getattr_value (v : val) : res val := Err AttributeError.

(** _containers.py:378-395 [_RT1_variable._to_dict]: [self.fitQ] is already
    the value (257-259), of which the attribute [.value] is taken *)
Definition to_dict_var (x : variable) : res (list (string * val)) :=
  do a <- getattr_value (v_fitQ x);
  do b <- getattr_value (v_val x);
  do c <- getattr_value (v_freq x);
  do m <- getattr_value (v_minval x);
  do n <- getattr_value (v_maxval x);
  do i <- getattr_value (v_interpQ x);
  Ok [("fitQ", a); ("val", b); ("freq", c); ("minval", m); ("maxval", n); ("interpQ", i)].

(** [_RT1_defdict.__getitem__], _containers.py:23-24: AttributeError if
    there is no such definition *)
Definition getitem (name : string) (d : defdict) : res variable :=
  match dget string_dec name (d_vars d) with
  | Some x => Ok x
  | None => Err AttributeError
  end.

(** replacing the (mutable) definition object of [name] by its changed state *)
Definition put_var (name : string) (x : variable) (d : defdict) : defdict :=
  mkdd (d_variables d) (dset string_dec name x (d_vars d)) (d_attrs d).

(** one iteration of the loop of [from_dict], _containers.py:162-167 *)
Definition from_dict_step (key : string) (v : val) (d : defdict) : res defdict :=
  let d1 := add_variable key default_props d in
  match v with
  | VList l => do x <- getitem key d1; do x' <- from_list l x; Ok (put_var key x' d1)
  | VDict kw => do x <- getitem key d1; do x' <- from_dict_var kw x; Ok (put_var key x' d1)
  | _ => Ok d1
  end.

(** _containers.py:162-167: the loop over the items *)
Fixpoint from_dict_loop (items : list (string * val)) (d : defdict) : res defdict :=
  match items with
  | [] => Ok d
  | (k, v) :: r => do d' <- from_dict_step k v d; from_dict_loop r d'
  end.

(** _containers.py:138-168 [_RT1_defdict.from_dict] *)
Definition from_dict (items : list (string * val)) : res defdict :=
  from_dict_loop items new_defdict.

(** one iteration of [to_dict], _containers.py:187-192 *)
Fixpoint to_dict_loop (f : variable -> res val) (names : list string) (d : defdict)
    (acc : dict string val) : res (dict string val) :=
  match names with
  | [] => Ok acc
  | n :: r => do x <- getitem n d; do v <- f x; to_dict_loop f r d (dset string_dec n v acc)
  end.

(** _containers.py:170-194 [_RT1_defdict.to_dict]: any other value of
    [props] yields the empty dictionary *)
Definition to_dict (how : string) (d : defdict) : res (dict string val) :=
  if String.eqb how "list" then to_dict_loop (fun x => Ok (VList (to_list x))) (d_variables d) d []
  else if String.eqb how "dict" then
    to_dict_loop (fun x => do kw <- to_dict_var x; Ok (VDict kw)) (d_variables d) d []
  else Ok [].

(** the list indexed in _containers.py:266 *)
Definition index_names : list string := ["fitQ"; "val"; "freq"; "mima"; "interpQ"].

(** Python list indexing with negative indices *)
Definition py_index {A} (l : list A) (i : Z) : option A :=
  let n := Z.of_nat (List.length l) in
  if (0 <=? i)%Z && (i <? n)%Z then nth_error l (Z.to_nat i)
  else if (-n <=? i)%Z && (i <? 0)%Z then nth_error l (Z.to_nat (n + i))
  else None.

(** [_RT1_variable.__setitem__] with an integer, _containers.py:265-274 *)
Definition setitem_int (i : Z) (v : val) (x : variable) : res variable :=
  match py_index index_names i with
  | None => Err IndexError
  | Some n =>
      if String.eqb n "mima" then
        do mm <- unpack_minmax v;
        Ok (mkvar (v_name x) (v_fitQ x) (v_val x) (v_freq x) (fst mm) (snd mm) (v_interpQ x)
              (v_extra x))
      else match set_param n v x with Some x' => Ok x' | None => Err AttributeError end
  end.

(** [_RT1_variable.__setitem__] with a name, _containers.py:275-276: the
    boxed properties, including "name"; anything else has no [.value] to set
    (a plain attribute holds a literal) *)
Definition setitem_key (k : string) (v : val) (x : variable) : res variable :=
  match set_param k v x with
  | Some x' => Ok x'
  | None =>
      if String.eqb k "name" then
        Ok (mkvar v (v_fitQ x) (v_val x) (v_freq x) (v_minval x) (v_maxval x) (v_interpQ x)
              (v_extra x))
      else Err AttributeError
  end.

(** the public operations on a defdict *)
Inductive op : Type :=
| Add (name : string) (pos : list val) (kw : list (string * val))
| Remove (name : string)
| Assign (name : string) (v : val)                 (* d.name = v *)
| SetItem (name : string) (i : Z) (v : val)        (* d[name][i] = v *)
| SetKey (name : string) (k : string) (v : val)    (* d[name]["k"] = v *)
| SetProp (name : string) (k : string) (v : val).  (* d[name].k = v *)

(** names bound by positional arguments may not be repeated as keywords
    (Python call semantics) *)
Definition bind_args (pos : list val) (kw : list (string * val)) : res props :=
  if existsb (fun k => inb string_dec k (firstn (List.length pos) paramnames)) (map fst kw)
  then Err TypeError
  else do p <- bind_pos paramnames pos default_props; bind_kw kw p.

(** the change of one definition, d[name]... = v *)
Definition modify (name : string) (f : variable -> res variable) (d : defdict)
  : defdict * option pyerr :=
  match getitem name d with
  | Err e => (d, Some e)
  | Ok x => match f x with
            | Ok x' => (put_var name x' d, None)
            | Err e => (d, Some e)
            end
  end.

(** one call: the state afterwards and the exception, if any *)
Definition step (o : op) (d : defdict) : defdict * option pyerr :=
  match o with
  | Add n pos kw => match bind_args pos kw with
                    | Ok p => (add_variable n p d, None)
                    | Err e => (d, Some e)
                    end
  | Remove n => remove_variable n d
  | Assign n v => setattr_defdict n v d
  | SetItem n i v => modify n (setitem_int i v) d
  | SetKey n k v => modify n (setitem_key k v) d
  | SetProp n k v => modify n (setattr_var k v) d
  end.

(** a history of calls (exceptions are caught by the caller), with the outcome of each *)
Fixpoint run (ops : list op) (d : defdict) : defdict * list (op * option pyerr) :=
  match ops with
  | [] => (d, [])
  | o :: r => let '(d1, e) := step o d in
              let '(d2, tr) := run r d1 in (d2, (o, e) :: tr)
  end.

(** [_RT1_defdict.keys], __iter__, _containers.py:41-42, 199-200 *)
Definition dd_keys (d : defdict) : list string := d_variables d.

(** [_RT1_defdict.items], _containers.py:196-197 *)
Definition dd_items (d : defdict) : res (dict string val) := to_dict "list" d.
