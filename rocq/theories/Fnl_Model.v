(** Model of the life of the coefficients of the interaction term in an RT1 object: /repo/rt1/rt1.py [__init__]
    (124-200, the attributes), [__getstate__] (202-222), [_get_fn], [_set_fn] (272-302), [_get_fnevals], [_set_fnevals]
    (306-384), [interaction] (1223-1240) and [calc] (680-720, whether it is evaluated).

    Simplifications: V, SRF and geometry are one value (the definition [M] of the model); the expansion of the
    coefficients from a definition is an arbitrary function. *)
From Coq Require Import Bool String List.
From Verif Require Import Base.
Import ListNotations.

Section Fnl.
(** definitions, lists of coefficients, compiled functions *)
Context {M F E : Type}.
(** rt1.py 284-299: [_calc_interaction_expansion], [_extract_coefficients] *)
Variable expand : M -> F.
(** rt1.py 320-357: compilation for the names of param_dict *)
Variable compile : list string -> F -> E.

(** lambda_backend: "symengine" or "sympy", or any other string *)
Inductive backend : Type := Available | Unknown.
(** An RT1 object.  [o_fn], [o_ev]: the attributes __fn and __fnevals ([None]: there is no such attribute; their value may
    be Python's None as well) *)
Record obj : Type := mkobj {
  o_model : M; o_names : list string; o_intQ : bool; o_backend : backend;
  o_fn_input : option F; o_ev_input : option E;
  o_fn : option (option F); o_ev : option (option E) }.
(** rt1.py 124-170: a new object *)
Definition new (m : M) (names : list string) (intQ : bool) (b : backend) (fn_input : option F) (ev_input : option E) : obj :=
  mkobj m names intQ b fn_input ev_input None None.
(** assignment of __fn (rt1.py 296, 302) *)
Definition put_fn (o : obj) (x : option F) : obj :=
  mkobj (o_model o) (o_names o) (o_intQ o) (o_backend o) (o_fn_input o) (o_ev_input o) (Some x) (o_ev o).
(** assignment of __fnevals (rt1.py 337, 352, 384) *)
Definition put_ev (o : obj) (x : option E) : obj :=
  mkobj (o_model o) (o_names o) (o_intQ o) (o_backend o) (o_fn_input o) (o_ev_input o) (o_fn o) (Some x).

(** rt1.py 279-302 [_set_fn] *)
Definition set_fn (o : obj) (fn : option F) : obj :=
  match fn, o_intQ o with
  | None, true => put_fn o (Some (expand (o_model o)))
  | _, _ => put_fn o fn
  end.
(** rt1.py 272-277 [_get_fn] *)
Definition get_fn (o : obj) : obj * option F :=
  match o_fn o with
  | Some x => (o, x)
  | None => let o := set_fn o (o_fn_input o) in (o, match o_fn o with Some x => x | None => None end)
  end.
(** rt1.py 315-384 [_set_fnevals]; the coefficients None can not be compiled (TypeError) *)
Definition set_ev (o : obj) (ev : option E) : obj * res unit :=
  match ev, o_intQ o with
  | None, true =>
      match o_backend o with
      | Unknown => (o, Ok tt)                                                     (* 370-374 *)
      | Available =>
          let (o, fn) := get_fn o in
          match fn with
          | Some f => (put_ev o (Some (compile (o_names o) f)), Ok tt)
          | None => (o, Err TypeError)
          end
      end
  | _, _ => (put_ev o ev, Ok tt)
  end.
(** rt1.py 306-313 [_get_fnevals] *)
Definition get_ev (o : obj) : obj * res (option E) :=
  match o_ev o with
  | Some x => (o, Ok x)
  | None =>
      match set_ev o (o_ev_input o) with
      | (o, Err e) => (o, Err e)
      | (o, Ok tt) => (o, match o_ev o with Some x => Ok x | None => Err AttributeError end)   (* 311 *)
      end
  end.
(** the interaction term, rt1.py 680-720, 1223-1278: [Ok None] without int_Q, otherwise the functions it is evaluated with
    (None is not callable) *)
Definition eval (o : obj) : obj * res (option E) :=
  if o_intQ o then
    match get_ev o with
    | (o, Ok (Some e)) => (o, Ok (Some e))
    | (o, Ok None) => (o, Err TypeError)
    | (o, Err e) => (o, Err e)
    end
  else (o, Ok None).
(** rt1.py 202-222 [__getstate__]: the object afterwards; what is pickled is the same dict.  (there is no attribute
    "_fn_input", line 210) *)
Definition getstate (o : obj) : obj * obj :=
  let o := mkobj (o_model o) (o_names o) (o_intQ o) (o_backend o) (o_fn_input o) (o_ev_input o) None (o_ev o) in (o, o).

(** what a user can do with an object *)
Inductive op : Type :=
| Eval                              (* R.calc() *)
| ReadFn                            (* R.fn *)
| Pickle                            (* pickle, copy.deepcopy, sending to another process *)
| SetModel (m : M)                  (* R.V = ..., R.SRF = ..., R.geometry = ... *)
| SetNames (l : list string)        (* R.param_dict = ... *)
| SetIntQ (b : bool)
| SetFn (f : option F)              (* R.fn = ... *)
| SetEv (e : option E).             (* R._fnevals = ... *)
(** one operation, and the result of an evaluation.  rt1.py 145-165 (plain attributes), 304, 386 (properties) *)
Definition step (o : obj) (a : op) : obj * option (res (option E)) :=
  match a with
  | Eval => let (o, r) := eval o in (o, Some r)
  | ReadFn => (fst (get_fn o), None)
  | Pickle => (fst (getstate o), None)
  | SetModel m => (mkobj m (o_names o) (o_intQ o) (o_backend o) (o_fn_input o) (o_ev_input o) (o_fn o) (o_ev o), None)
  | SetNames l => (mkobj (o_model o) l (o_intQ o) (o_backend o) (o_fn_input o) (o_ev_input o) (o_fn o) (o_ev o), None)
  | SetIntQ b => (mkobj (o_model o) (o_names o) b (o_backend o) (o_fn_input o) (o_ev_input o) (o_fn o) (o_ev o), None)
  | SetFn f => (set_fn o f, None)
  | SetEv e => (fst (set_ev o e), None)
  end.
(** a history: the object afterwards and the results of all evaluations *)
Fixpoint run (o : obj) (l : list op) : obj * list (res (option E)) :=
  match l with
  | [] => (o, [])
  | a :: r => let (o, x) := step o a in let (o, xs) := run o r in (o, match x with Some y => y :: xs | None => xs end)
  end.
End Fnl.
Arguments obj : clear implicits.
Arguments op : clear implicits.
