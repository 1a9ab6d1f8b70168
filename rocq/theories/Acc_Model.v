(** Model of the accessor of a MultiFits object: /repo/rt1/rtfits.py _MultiAccessors (3053-3123), _FitContainer.[__iter__]
    (3140-3141) and the parts of MultiFits that it uses (3194-3204, 3302-3304, 3345-3374).

    Simplifications: fit objects are numbers; names of configurations are accepted ones (C62).  Methods have no *args and
    **kwargs.  What a method does with its arguments is an arbitrary function. *)
From Coq Require Import Bool Arith String List.
From Verif Require Import Base.
Import ListNotations.
Local Open Scope string_scope.
Local Open Scope list_scope.

Section Acc.
(** values of arguments and attributes *)
Variable A : Type.
(** names of the attributes of the class Fits that are properties, and of those that only instances have, without
    "dataset", "aux_data", "plot" (3061-3087) *)
Variable props : list string.
(** value of an attribute of a fit *)
Variable attr : nat -> string -> A.

(** A MultiFits object: config_names and the attributes of its container *)
Record multi : Type := mkmulti { m_names : list string; m_fit : dict string nat }.
(** The session: MultiFits objects; the attribute config_name of fits; have the properties been set on the class
    _MultiAccessors (3075-3087)? *)
Record state : Type := mkstate { s_multi : dict nat multi; s_name : nat -> string; s_set : bool }.
(** a new interpreter *)
Definition start : state := mkstate [] (fun _ => "default") false.
(** what a user can do *)
Inductive op : Type :=
| Create (c : nat)                              (* MultiFits() *)
| Load (c : nat) (m : list (string * nat))      (* unpickling a MultiFits object with these configurations *)
| Add (c : nat) (name : string) (o : nat).      (* c.add_config(name, o) *)
(** 3372-3374 *)
Definition add (names : nat -> string) (m : multi) (n : string) (o : nat) : (nat -> string) * multi :=
  (fun x => if Nat.eqb x o then n else names x, mkmulti (m_names m ++ [n]) (dset string_dec n o (m_fit m))).
(** one operation.  Unpickling does not call _MultiAccessors.__init__ (the loaded fits have the names they were added with) *)
Definition step (s : state) (x : op) : state :=
  match x with
  | Create c => mkstate (dset Nat.eq_dec c (mkmulti [] []) (s_multi s)) (s_name s) true
  | Load c l =>
      let (names, m) := fold_left (fun nm kv => add (fst nm) (snd nm) (fst kv) (snd kv)) l (s_name s, mkmulti [] []) in
      mkstate (dset Nat.eq_dec c m (s_multi s)) names (s_set s)
  | Add c n o =>
      match dget Nat.eq_dec c (s_multi s) with
      | None => s
      | Some m => let (names, m) := add (s_name s) m n o in mkstate (dset Nat.eq_dec c m (s_multi s)) names (s_set s)
      end
  end.
(** any session *)
Definition run (ops : list op) : state := fold_left step ops start.
(** 3140-3141 [__iter__] *)
Definition fits_of (m : multi) : list nat :=
  flat_map (fun n => match dget string_dec n (m_fit m) with Some o => [o] | None => [] end) (m_names m).
(** 3089-3091 [config_fits] *)
Definition config_fits (s : state) (m : multi) : dict string nat :=
  fold_left (fun d o => dset string_dec (s_name s o) o d) (fits_of m) [].
(** 3093-3098: an attribute of the accessor that is a property *)
Definition get (s : state) (m : multi) (prop : string) : res (dict string A) :=
  if inb string_dec prop props then
    if s_set s then Ok (map (fun kv => (fst kv, attr (snd kv) prop)) (config_fits s m)) else Err AttributeError
  else Err AttributeError.

(** Python's binding of positional and keyword arguments *)
Definition bindargs (params : list string) (pos : list A) (kw : dict string A) : res (dict string A) :=
  if Nat.ltb (length params) (length pos) then Err TypeError
  else if existsb (fun k => inb string_dec k (firstn (length pos) params)) (keys kw) then Err TypeError
  else if negb (forallb (fun k => inb string_dec k params) (keys kw)) then Err TypeError
  else Ok (combine params pos ++ kw).
(** a callback (3100-3117): the fit, start_args (a tuple), start_kwargs *)
Record callback : Type := mkcb { c_fit : nat; c_args : list A; c_kwargs : dict string A }.
(** 3119-3123 [_applyit] *)
Definition apply (s : state) (m : multi) (pos : list A) (kw : dict string A) : dict string callback :=
  map (fun kv => (fst kv, mkcb (snd kv) pos kw)) (config_fits s m).
(** 3105-3115: calling it: the callback afterwards, and on which fit with which arguments the method is run.  A tuple
    has neither item assignment (TypeError) nor append (AttributeError) *)
Definition call (params : list string) (cb : callback) (pos : list A) (kw : dict string A) : callback * res (nat * dict string A) :=
  match pos with
  | _ :: _ => (cb, Err (match c_args cb with [] => AttributeError | _ => TypeError end))
  | [] =>
      let cb := mkcb (c_fit cb) (c_args cb) (dupdate string_dec (c_kwargs cb) kw) in
      (cb, do b <- bindargs params (c_args cb) (c_kwargs cb); Ok (c_fit cb, b))
  end.
(** a sequence of calls of callbacks: name, positional and keyword arguments *)
Fixpoint calls (params : list string) (d : dict string callback) (l : list (string * (list A * dict string A))) :
  dict string callback * list (res (nat * dict string A)) :=
  match l with
  | [] => (d, [])
  | (n, (pos, kw)) :: r =>
      match dget string_dec n d with
      | None => let (d, o) := calls params d r in (d, Err KeyError :: o)
      | Some cb =>
          let (cb, x) := call params cb pos kw in
          let (d, o) := calls params (dset string_dec n cb d) r in (d, x :: o)
      end
  end.
End Acc.
Arguments mkcb {A}.
