(** Specification vocabulary for C161 *)
From Coq Require Import Arith Bool Ascii String List.
From Verif Require Import Base Tab_Model.
Import ListNotations.
Local Open Scope string_scope.
Local Open Scope list_scope.

(** the entries of a nested dict, one after the other, every sub-dict below its name: depth, key, value *)
Inductive cell : Type := Number (t : string) | Heading.
Fixpoint listing1 (depth : nat) (key : string) (v : mval) : list (nat * string * cell) :=
  match v with
  | MFloat t | MInt t => [(depth, key, Number t)]
  | MDict d => (depth, key, Heading) :: flat_map (fun kv => listing1 (S depth) (fst kv) (snd kv)) d
  | MOther => []
  end.
Definition listing (depth : nat) (d : list (string * mval)) : list (nat * string * cell) := flat_map (fun kv => listing1 depth (fst kv) (snd kv)) d.
(** how many levels of dicts are below a value *)
Fixpoint height (v : mval) : nat :=
  match v with MDict d => fold_right (fun kv n => Nat.max (S (height (snd kv))) n) 0 d | _ => 0 end.
Definition heights (d : list (string * mval)) : nat := fold_right (fun kv n => Nat.max (height (snd kv)) n) 0 d.
(** no integers among the values *)
Fixpoint no_int (v : mval) : Prop :=
  match v with
  | MInt _ => False
  | MDict d => (fix all (d : list (string * mval)) : Prop := match d with [] => True | kv :: r => no_int (snd kv) /\ all r end) d
  | _ => True
  end.
(** a row of the flat table *)
Definition flat_row (x : nat * string * cell) : string * string :=
  let '(depth, key, c) := x in ((times depth "-" ++ " " ++ key)%string, match c with Number t => t | Heading => "" end).

(** a printed line *)
Definition line (x : nat * string * cell) : string :=
  let '(depth, key, c) := x in
  (" " ++ times depth "--" ++ match c with
                              | Number t => ljust (13 - 2 * depth) key ++ "| " ++ ljust 14 t
                              | Heading => ljust (29 - 2 * depth) (ljust (13 - 2 * depth) key ++ "|")
                              end ++ "|")%string.
Definition header : list string := ["----------- METRICS -----------"; "     METRIC   |     VALUE     |"].
(** lines of a text *)
Definition text (lines : list string) : string := String.concat "" (map (fun l => (l ++ nl)%string) lines).

(** a line with its two bars in columns 14 and 30, and nothing after *)
Definition aligned (l : string) : Prop := String.length l = 31 /\ String.get 14 l = Some "|"%char /\ String.get 30 l = Some "|"%char.
Fixpoint no_bar (s : string) : Prop := match s with EmptyString => True | String c r => c <> "|"%char /\ no_bar r end.
(** key and number fit in their columns *)
Definition fits (x : nat * string * cell) : Prop :=
  let '(depth, key, c) := x in String.length key <= 13 - 2 * depth /\ match c with Number t => String.length t <= 14 | Heading => True end.
