(** What is expected of the caches of class Fits: stated with the decorators of the source, not with its list of names. *)
From Coq Require Import List Arith Bool String.
From Verif Require Import Base Clr_Model.
Import ListNotations.
Local Open Scope list_scope.

(** every function of /repo/rt1/rtfits.py with the decorator @lru_cache (by the line of the decorator) *)
Definition decorated : list (nat * string) :=
  [(535, "set_model"); (555, "interp_vals"); (581, "param_dyn_dict"); (685, "param_dyn_df"); (706, "_param_dyn_monotonic");
   (714, "_groupindex"); (737, "_N_groups"); (742, "_dataset_used"); (776, "index"); (786, "_jac_assign_rule");
   (854, "meandatetimes"); (874, "_meandt_interp_assigns"); (934, "inc"); (945, "mask"); (955, "data"); (966, "data_weights");
   (980, "_order"); (991, "_orig_index"); (1006, "_idx_assigns"); (1020, "_param_assigns"); (1032, "_param_assigns_dataset");
   (1042, "_val_assigns"); (1314, "V"); (1326, "SRF"); (1408, "_tau_symb"); (1413, "_tau_func"); (1418, "_tau_diff_func");
   (1423, "_omega_symb"); (1428, "_omega_func"); (1433, "_omega_diff_func"); (1438, "_N_symb"); (1443, "_N_func");
   (1448, "_N_diff_func"); (1499, "_assignvals_log_message"); (1626, "_get_excludesymbs"); (3030, "metric")]%string.

(** no result of any decorated function is cached, for any object *)
Definition all_empty (s : st) : Prop := forall line name, In (line, name) decorated -> caches s name = [].

(** the attributes that define a fit *)
Definition defines (attr : string) : Prop := In attr ["sig0"; "dB"; "dataset"; "defdict"; "set_V_SRF"]%string.

(** an operation that empties the caches *)
Definition empties (x : op) : Prop := match x with OSetattr _ a => defines a | OClear _ => True | _ => False end.

(** the warnings that belong to a parameter: groups that are not monotonic; less than two values (unless the call ended before) *)
Definition warnings (o : nat) (i : item) : list key :=
  (if i_mono i then [] else [(o, ["interp_non_mono"%string; i_name i])]) ++
  (if (i_mono i || i_ok i) && negb (i_many i) then [(o, ["interp_1_val"%string; i_name i])] else []).
(** the parameters that are processed: up to the first exception *)
Fixpoint processed (l : list item) : list item :=
  match l with [] => [] | i :: l => i :: if i_mono i || i_ok i then processed l else [] end.
(** all warnings there is a reason for in a session *)
Definition due (ops : list op) : list key :=
  flat_map (fun x => match x with OAssign o l => flat_map (warnings o) (processed l) | _ => [] end) ops.
