(** Model of /repo/rt1/rtplots.py [hemreflect] (265-406): where NormBRDF comes from, the returned array and the plot.

    The integrals are those of Hem_Model.  A symbolic NormBRDF is a list of symbols and a function of their values; numpy arrays are lists (one axis)
    or columns (shape (m, 1)); arrays of symbols are not modelled. *)
From Coq Require Import Reals Bool Arith String List.
From Verif Require Import Base Hem_Model.
Import ListNotations.
Local Open Scope R_scope.
Local Open Scope list_scope.

(** the attribute SRF.NormBRDF (surface.py 24) *)
Inductive norm : Type := Num (x : R) | Sym (symbols : list string) (f : list R -> R) | Arr (l : list R) | Col (l : list R).
(** the arguments R and SRF (rtplots.py 265-268): their NormBRDF and BRDF *)
Record source : Type := mksource { s_norm : norm; s_brdf : R -> R -> R -> R -> R }.

(** rtplots.py 328-329, 339-340: param_dict[str(i)] for the symbols *)
Definition values (pd : list (string * R)) (symbols : list string) : res (list R) :=
  mapM (fun s => match dget string_dec s pd with Some v => Ok v | None => Err KeyError end) symbols.
(** rtplots.py 324-333 (argument R): a number has no free_symbols; any exception leaves NormBRDF as it is *)
Definition norm_of_R (pd : list (string * R)) (n : norm) : norm :=
  match n with
  | Sym s f => match values pd s with Ok v => Num (f v) | Err _ => n end
  | _ => n
  end.
(** rtplots.py 334-343 (argument SRF): NormBRDF[0] of a symbol raises a TypeError, which leaves NormBRDF as it is; so do arrays of numbers *)
Definition norm_of_SRF (pd : list (string * R)) (n : norm) : norm := n.

(** rtplots.py 321-345: BRDF and NormBRDF *)
Definition chosen (pd : list (string * R)) (r srf : option source) : res source :=
  match r, srf with
  | Some s, _ => Ok (mksource (norm_of_R pd (s_norm s)) (s_brdf s))
  | None, Some s => Ok (mksource (norm_of_SRF pd (s_norm s)) (s_brdf s))
  | None, None => Err AssertionError
  end.

(** the array sol: one axis or two *)
Inductive array : Type := A1 (l : list R) | A2 (rows : list (list R)).
(** rtplots.py 379-383: np.array(sol) * NormBRDF with numpy's broadcasting; a symbol gives relations without truth value in sol > 1 *)
Definition scaled (sol : list R) (n : norm) : res array :=
  match n with
  | Num x => Ok (A1 (map (fun s => s * x) sol))
  | Sym [] f => Ok (A1 (map (fun s => s * f []) sol))
  | Sym _ _ => match sol with [] => Ok (A1 []) | _ => Err TypeError end
  | Arr l =>
      if Nat.eqb (List.length l) (List.length sol) then Ok (A1 (map (fun p => fst p * snd p) (combine sol l)))
      else match l, sol with
           | [x], _ => Ok (A1 (map (fun s => s * x) sol))
           | _, [s] => Ok (A1 (map (fun x => s * x) l))
           | _, _ => Err ValueError
           end
  | Col l => Ok (A2 (map (fun x => map (fun s => s * x) sol) l))
  end.
(** the integrals for the angles, rtplots.py 349-377 *)
Definition integrals (brdf : R -> R -> R -> R -> R) (phi_0 step lo hi : R) (N : nat) : list R :=
  map (fun theta_0 => simps2 brdf N theta_0 phi_0) (map deg2rad (arange lo hi step)).
(** rtplots.py 265-386: returnarray=True *)
Definition hem_array (pd : list (string * R)) (r srf : option source) (phi_0 step lo hi : R) (N : nat) : res array :=
  do s <- chosen pd r srf;
  scaled (integrals (s_brdf s) phi_0 step lo hi N) (s_norm s).

(** np.max *)
Definition np_max (l : list R) : res R := match l with [] => Err ValueError | x :: r => Ok (fold_left Rmax r x) end.
(** axnum.plot(incnum, y): different lengths raise *)
Definition line (inc y : list R) : res (list (R * R)) := if Nat.eqb (List.length inc) (List.length y) then Ok (combine inc y) else Err ValueError.
(** rtplots.py 387-406: the lines and the upper limit of the axis; in the loop the name sol is bound to the rows, so that 401 sees the last one *)
Definition hem_plot (pd : list (string * R)) (r srf : option source) (phi_0 step lo hi : R) (N : nat) : res (list (list (R * R)) * R) :=
  do a <- hem_array pd r srf phi_0 step lo hi N;
  let inc := arange lo hi step in
  match a with
  | A1 y => do l <- line inc y; do m <- np_max y; Ok ([l], m * (11 / 10))
  | A2 rows =>
      do ls <- mapM (line inc) rows;
      do m <- np_max (last rows []);                                               (* no rows: np.max of an empty array *)
      Ok (ls, m * (11 / 10))
  end.
