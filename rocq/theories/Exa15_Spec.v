(** Specification for the definition of a variable by a list
    (rt1/_containers.py:323-343). *)
From Coq Require Import String.
Local Open Scope string_scope.

(** the item of the list that holds a property; the bounds share one item
    (_containers.py:323-343) *)
Definition item_of (k : string) : option nat :=
  if string_dec k "fitQ" then Some 0 else if string_dec k "val" then Some 1 else if string_dec k "freq" then Some 2
  else if string_dec k "minval" then Some 3 else if string_dec k "maxval" then Some 3
  else if string_dec k "interpQ" then Some 4 else None.
