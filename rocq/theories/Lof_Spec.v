(** Specification vocabulary for C181 *)
From Coq Require Import String List ZArith Bool Arith.
From Verif Require Import Base Mf_Model Mf_Spec Lof_Model.
Import ListNotations.

Section Spec.
Context {A V D : Type}.
(** the parts of a fit that may be missing *)
Inductive piece : Type := Data | Aux | Results.
(** the name of the table of a part *)
Definition key (p : piece) : string := match p with Data => "dataset" | Aux => "aux_data" | Results => "res_dict" end%string.
(** the fit has (at least one value of) this part; the results of a MultiFits object are stored in one piece, so that all
    configurations need parameters *)
Definition has (p : piece) (f : fit A V D) : Prop :=
  match p with
  | Data => exists x l, f_data f = Some (x :: l)
  | Aux => exists x l, f_aux f = Some (x :: l)
  | Results =>
      match f_confs f with
      | Single _ r => exists rd, r = Some rd /\ exists k x l, In (k, x :: l) rd
      | Multi l => (forall cfg a r, In (cfg, (a, r)) l -> exists rd, r = Some rd /\ rd <> []) /\
                   exists cfg a rd, In (cfg, (a, Some rd)) l /\ exists k x vs, In (k, x :: vs) rd
      end
  end.
(** values of results without NaN *)
Definition clean (rd : resdict V) : list (string * list V) := map (fun kv => (fst kv, numbers (snd kv))) rd.
(** data without rows is no data *)
Definition some_rows (d : option (list D)) : option (list D) := match d with Some [] => None | _ => d end.
(** ... and results without values are no results *)
Definition some_values (rd : option (resdict V)) : option (resdict V) :=
  match rd with Some l => if forallb (fun kv => Nat.eqb (List.length (snd kv)) 0) l then None else rd | None => None end.
End Spec.
