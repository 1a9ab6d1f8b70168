(** Model of the overview of the NetCDF-files: /repo/rt1/rtresults.py [NetCDF_variables] (462-472), over [_get_results]
    (212-226) and [load_nc] (260-299) of Ldr_Model.
    Simplified: the folder does not change while it runs; xarray.open_dataset is a parameter. *)
From Coq Require Import Arith Bool String Ascii List.
From Verif Require Import Base Str_Model Rdr_Model Ldr_Model.
Import ListNotations.
Local Open Scope string_scope.
Local Open Scope list_scope.

Section Ncv.
(** what is printed for an opened dataset *)
Context {D : Type}.
(** rtresults.py 298: xarray.open_dataset of a file in the results-folder *)
Variable open : string -> res D.

(** what is printed: line 470 (the name of the file), line 472 (the dataset) *)
Inductive line : Type := Title (name : string) | Shown (d : D).

(** rtresults.py 260-299 [load_nc] with a name *)
Definition load_nc (folder : option (list (string * node))) (r : string) : res D :=
  do f <- load_named ".nc" folder (Some r); open f.

(** rtresults.py 469-472: the loop; the printed lines, and the exception that ends it *)
Fixpoint show (folder : option (list (string * node))) (names : list string) : list line * option pyerr :=
  match names with
  | [] => ([], None)
  | r :: rest =>
      match load_nc folder r with
      | Err e => ([Title (r ++ ".nc")%string], Some e)
      | Ok d => let (out, e) := show folder rest in (Title (r ++ ".nc")%string :: Shown d :: out, e)
      end
  end.

(** rtresults.py 462-472 [NetCDF_variables] *)
Definition netcdf_variables (folder : option (list (string * node))) : list line * option pyerr :=
  match get_results ".nc" folder with
  | Err e => ([], Some e)
  | Ok results => if Nat.eqb (List.length results) 0 then ([], Some AssertionError) else show folder (keys results)
  end.
End Ncv.
Arguments line : clear implicits.
