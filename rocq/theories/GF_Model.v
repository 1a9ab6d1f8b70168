(** Model of rt1/general_functions.py *)
From Coq Require Import List ZArith Reals Bool.
From Verif Require Import Base.
Import ListNotations.

(** ** rectangularize -- general_functions.py 31-95 *)

(** one padded row; general_functions.py 91-94: [newarray[i, :le] = s] raises
    ValueError if [le > dim]; [s[-1]] (line 82/94) raises IndexError for an empty row,
    even if nothing is padded.  Simplified: dtype casts are not modelled. *)
Definition rect_row {A} (dim : nat) (s : list A) : res (list A) :=
  if Nat.ltb dim (length s) then Err ValueError
  else match rev s with
       | [] => Err IndexError
       | x :: _ => Ok (s ++ repeat x (dim - length s))
       end.

(** mask of one row; general_functions.py 77, 83 *)
Definition mask_row {A} (dim : nat) (s : list A) : list bool :=
  repeat false (length s) ++ repeat true (dim - length s).

(** [len(max(array, key=len))]; general_functions.py 71-73 *)
Definition maxlen {A} (array : list (list A)) : nat :=
  fold_right (fun s m => Nat.max (length s) m) 0 array.

(** general_functions.py 66-73: with [dtype=None] the first element is looked at
    ([next] on an empty iterator: StopIteration); with [dim=None] the longest row counts. *)
Definition rect_dim {A} (array : list (list A)) (dim : option nat) : res nat :=
  match array with
  | [] => Err StopIteration
  | _ => match dim with Some d => Ok d | None => Ok (maxlen array) end
  end.

(** general_functions.py 31-95 with [return_mask=True]: [newarray, mask] *)
Definition rectangularize_mask {A} (array : list (list A)) (dim : option nat)
  : res (list (list A) * list (list bool)) :=
  do d <- rect_dim array dim;
  do rows <- mapM (rect_row d) array;
  Ok (rows, map (mask_row d) array).

(** general_functions.py 89-95, [return_mask=False, return_masked=False] *)
Definition rectangularize {A} (array : list (list A)) (dim : option nat) : res (list (list A)) :=
  do d <- rect_dim array dim;
  mapM (rect_row d) array.

(** ** meandatetime -- general_functions.py 98-119.
    Timestamps are integer nanoseconds (numpy datetime64[ns]); the division of a
    timedelta64 by an integer truncates towards zero ([Z.quot]). *)
Definition meandatetime (x : list Z) : res Z :=
  match x with
  | [] => Err IndexError
  | [x0] => Ok x0
  | x0 :: r =>
      let deltas := map (fun xi => Z.quot (x0 - xi) (Z.of_nat (length x))) r in
      Ok (x0 - fold_left Z.add deltas 0)%Z
  end.

(** ** dBsig0convert -- general_functions.py 122-174, one array element. *)
Definition log10 (x : R) : R := (ln x / ln 10)%R.
(** [10 ** x], general_functions.py 156, 171 *)
Definition pow10 (x : R) : R := Rpower 10 x.

(** general_functions.py 122-174 *)
Definition dBsig0convert (val inc : R) (dB sig0 fitdB fitsig0 : bool) : R :=
  (if negb (Bool.eqb sig0 fitsig0) then                         (* 152 *)
     let val := if fitdB then pow10 (val / 10) else val in       (* 155-156 *)
     let val := if negb sig0 && fitsig0
                then val / (4 * PI * cos inc) else val in        (* 158-159 *)
     let val := if sig0 && negb fitsig0
                then 4 * PI * cos inc * val else val in          (* 161-162 *)
     if dB then 10 * log10 val else val                          (* 164-165 *)
   else if negb (Bool.eqb dB fitdB) then                        (* 166 *)
     let val := if dB && negb fitdB then 10 * log10 val else val in (* 168-169 *)
     if negb dB && fitdB then pow10 (val / 10) else val          (* 171-172 *)
   else val)%R.

(** ** pairwise -- general_functions.py 177-192 *)

(** heads of all lists, if none is empty *)
Fixpoint heads {A} (ls : list (list A)) : option (list A) :=
  match ls with
  | [] => Some []
  | [] :: _ => None
  | (x :: _) :: r => option_map (cons x) (heads r)
  end.

(** Python's [zip( *ls)]: stops at the shortest; [zip()] is empty. *)
Fixpoint zip_star_aux {A} (l0 : list A) (ls : list (list A)) : list (list A) :=
  match l0 with
  | [] => []
  | x :: l0' => match heads ls with
                | Some hs => (x :: hs) :: zip_star_aux l0' (map (@tl A) ls)
                | None => []
                end
  end.
(** [zip( *x)], general_functions.py 192 *)
Definition zip_star {A} (ls : list (list A)) : list (list A) :=
  match ls with [] => [] | l0 :: r => zip_star_aux l0 r end.

(** general_functions.py 189-192: [tee] gives [pairs] copies, copy number n+1 is
    advanced n+1 times (past the end: nothing happens, [next(.., None)]). *)
Definition pairwise {A} (iterable : list A) (pairs : nat) : list (list A) :=
  let x := repeat iterable pairs in                              (* 189 *)
  let x := map (fun p => skipn (fst p) (snd p))                  (* 190-191 *)
               (combine (seq 0 (length x)) x) in
  zip_star x.                                                    (* 192 *)

(** ** split_into -- general_functions.py 195-208; a negative size makes islice raise
    ValueError. *)
Fixpoint split_into {A} (it : list A) (sizes : list (option Z)) : res (list (list A)) :=
  match sizes with
  | [] => Ok []
  | None :: _ => Ok [it]                                         (* 204-206 *)
  | Some size :: r =>
      if Z.ltb size 0 then Err ValueError
      else let n := Z.to_nat size in
           do rest <- split_into (skipn n it) r;                 (* 208 *)
           Ok (firstn n it :: rest)
  end.

(** ** scale -- general_functions.py 211-234 with the default domain functions
    (nanmin, nanmax; no NaN).  Empty input: numpy raises ValueError.  In exact arithmetic a
    constant array divides 0 by 0, which numpy turns into NaN: [None]. *)
Definition rmin_list (x0 : R) (r : list R) : R := fold_left Rmin r x0.
(** [np.nanmax], general_functions.py 211-234 *)
Definition rmax_list (x0 : R) (r : list R) : R := fold_left Rmax r x0.

(** lines 233-234 for one element and given domain *)
Definition scale1 (dom out : R * R) (x : R) : R :=
  (let y := (x - (snd dom + fst dom) / 2) / (snd dom - fst dom) in
   y * (snd out - fst out) + (snd out + fst out) / 2)%R.

(** general_functions.py 211-234 *)
Definition scale (x : list R) (out_range : R * R) : res (list R) :=
  match x with
  | [] => Err ValueError
  | x0 :: r => Ok (map (scale1 (rmin_list x0 r, rmax_list x0 r) out_range) x)
  end.

(** ** dt_to_hms -- general_functions.py 264-272 on timedelta (days, seconds) *)
Definition dt_to_hms (td_days td_seconds : Z) : Z * Z * Z * Z :=
  (let hours := td_seconds / 3600 in
   let minutes := td_seconds mod 3600 / 60 in
   let seconds := td_seconds - hours * 3600 - minutes * 60 in
   (td_days, hours, minutes, seconds))%Z.

(** ** groupby_unsorted -- general_functions.py 275-299 *)
Section GroupBy.
  Context {A K B : Type} (keq : forall x y : K, {x = y} + {x <> y}).

  (** line 295: [d.setdefault(key(item), []).append(get(item))] *)
  Definition setdefault_append (k : K) (b : B) (d : dict K (list B)) : dict K (list B) :=
    match dget keq k d with
    | Some l => dset keq k (l ++ [b]) d
    | None => dset keq k [b] d
    end.

  (** lines 293-295, 299 ([sort=False]) *)
  Definition groupby_unsorted (key : A -> K) (get : A -> B) (a : list A) : dict K (list B) :=
    fold_left (fun d item => setdefault_append (key item) (get item) d) a [].

  (** lines 296-297: [OrderedDict(sorted(d.items()))]; keys are distinct, so the
      comparison of pairs only ever looks at the keys. *)
  Fixpoint insert_key {V} (leb : K -> K -> bool) (kv : K * V) (d : dict K V) : dict K V :=
    match d with
    | [] => [kv]
    | kv' :: r => if leb (fst kv) (fst kv') then kv :: d else kv' :: insert_key leb kv r
    end.
  (** [sorted(d.items())], general_functions.py 296-297 *)
  Definition sort_items {V} (leb : K -> K -> bool) (d : dict K V) : dict K V :=
    fold_right (insert_key leb) [] d.

  (** [groupby_unsorted(..., sort=True)], general_functions.py 275-299 *)
  Definition groupby_sorted (leb : K -> K -> bool) (key : A -> K) (get : A -> B) (a : list A)
    : dict K (list B) := sort_items leb (groupby_unsorted key get a).
End GroupBy.

(** ** find_missing -- general_functions.py 354-401 *)

(** [range(a, b)] *)
Definition zrange (a b : Z) : list Z :=
  map (fun i => (a + Z.of_nat i)%Z) (seq 0 (Z.to_nat (b - a))).

(** line 387: [max(lst) if len(lst) > 0 else 0] *)
Definition max_id (lst : list Z) : Z :=
  match lst with [] => 0%Z | x :: r => fold_left Z.max r x end.

(** lines 389-393: [sorted(set(range(0, maxID)) - set(lst))]; a range is already sorted
    and duplicate free. *)
Definition missing_ids (lst : list Z) : list Z :=
  match lst with
  | [] => []
  | _ => filter (fun i => negb (inb Z.eq_dec i lst)) (zrange 0 (max_id lst))
  end.

(** lines 395-401: element number [i] of [chain(missingIDs, count(maxID + 1))] *)
Definition find_missing (lst : list Z) (i : nat) : Z :=
  let m := missing_ids lst in
  if Nat.ltb i (length m) then nth i m 0%Z
  else (max_id lst + 1 + Z.of_nat (i - length m))%Z.

(** line 399: [islice(.., N)] *)
Definition find_missing_N (lst : list Z) (N : nat) : list Z :=
  map (find_missing lst) (seq 0 N).

(** ** chunkit -- general_functions.py 404-424.  Python's [//] and [%] round towards
    minus infinity (Coq's Z.div / Z.modulo); a slice with nonnegative bounds is
    [firstn]/[skipn]. *)
Definition zslice {A} (a b : Z) (l : list A) : list A :=
  skipn (Z.to_nat a) (firstn (Z.to_nat b) l).

(** general_functions.py 404-424 *)
Definition chunkit {A} (arr : list A) (chunk_size : Z) : res (list (list A)) :=
  if Z.eqb chunk_size 0 then Err ZeroDivisionError else
  (let n := Z.of_nat (length arr) in
   let num_chunks := n / chunk_size in                           (* 420 *)
   let num_chunks := if negb (Z.eqb (n mod chunk_size) 0)        (* 421-422 *)
                     then num_chunks + 1 else num_chunks in
   Ok (map (fun i => zslice (i * chunk_size) ((i + 1) * chunk_size) arr)
           (zrange 0 num_chunks)))%Z.                            (* 423-424 *)
