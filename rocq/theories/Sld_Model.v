(** Model of the widget of printsig0analysis (/repo/rt1/rtplots.py 1780-2334): lines that are drawn once and updated by a slider.

    A line is the number of the measurement whose incidence-angles are its x-data, and its y-data (the component and the
    measurement the values are taken from).  Values, colours and the figure itself are not modelled; the callbacks of matplotlib are
    called for every movement of the slider, and an exception inside of a callback leaves the figure as it is at that point. *)
From Coq Require Import ZArith Bool List.
From Verif Require Import Base.
Import ListNotations.
Local Open Scope Z_scope.

(** rtplots.py:1566-1577: the components *)
Inductive comp : Type := Tot | Surf | Vol | Inter | Data.
(** y-data: values, fractions, and the same for the full range of incidence-angles; [Bounds]: the ends of the vertical line in the
    plot of the parameters *)
Inductive ydata : Type := Val (c : comp) (d : nat) | Frac (c : comp) (d : nat) | Full (c : comp) (d : nat) | FracFull (c : comp) (d : nat) | Bounds.
(** a line of matplotlib *)
Definition line : Type := (nat * ydata)%type.

(** indexing of an array with n entries by an integer (negative numbers count from the end) *)
Definition pyidx (n : nat) (z : Z) : res nat :=
  if (0 <=? z) && (z <? Z.of_nat n) then Ok (Z.to_nat z)
  else if (z <? 0) && (0 <=? z + Z.of_nat n) then Ok (Z.to_nat (z + Z.of_nat n))
  else Err IndexError.

(** rtplots.py:1800-1827 [plotlines]: the lines of one measurement *)
Definition plot_day (pc iq : bool) (d : nat) : list line :=
  [(d, Val Tot d)]
  ++ (if pc then [(d, Val Surf d)] ++ [(d, Val Vol d)] ++ (if iq then [(d, Val Inter d)] else []) else [])
  ++ [(d, Val Data d)] ++ [(d, Bounds)].
(** rtplots.py:1829-1847: fractions *)
Definition frac_day (iq : bool) (d : nat) : list line :=
  [(d, Frac Surf d)] ++ [(d, Frac Vol d)] ++ (if iq then [(d, Frac Inter d)] else []).
(** rtplots.py:1855-1880: the full range of incidence-angles *)
Definition full_day (pc iq : bool) (d : nat) : list line :=
  [(d, Full Tot d)] ++ (if pc then [(d, Full Surf d)] ++ [(d, Full Vol d)] ++ (if iq then [(d, Full Inter d)] else []) else []).
(** rtplots.py:1882-1903 *)
Definition fracfull_day (iq : bool) (d : nat) : list line :=
  [(d, FracFull Surf d)] ++ [(d, FracFull Vol d)] ++ (if iq then [(d, FracFull Inter d)] else []).

(** the four lists of lines *)
Record figure := mkfig { g_lines : list line; g_frac : list line; g_full : list line; g_fracfull : list line }.

(** rtplots.py:1799-1905 [plotlines]: np.arange(0, dayrange, 1); measurements that do not exist raise an IndexError *)
Definition plotlines (n : nat) (pc iq full : bool) (dayrange : nat) : res figure :=
  do days <- mapM (pyidx n) (map Z.of_nat (seq 0 dayrange));
  Ok (mkfig (flat_map (plot_day pc iq) days) (flat_map (frac_day iq) days)
            (if full then flat_map (full_day pc iq) days else []) (if full then flat_map (fracfull_day iq) days else [])).

(** a list of lines and the exception that ended the update *)
Notation upd := (list line * option pyerr)%type.
(** lines[i].set_xdata(...), lines[i].set_ydata(...) (only the x-data if no y-data is given) *)
Fixpoint put_at (i : nat) (d : nat) (y : option ydata) (l : list line) : upd :=
  match l, i with
  | [], _ => ([], Some IndexError)
  | a :: r, O => ((d, match y with Some v => v | None => snd a end) :: r, None)
  | a :: r, S j => (a :: fst (put_at j d y r), snd (put_at j d y r))
  end.
(** a statement is only reached if the ones before it did not raise *)
Definition put (i d : nat) (y : option ydata) (s : upd) : upd :=
  match snd s with Some _ => s | None => put_at i d y (fst s) end.

(** rtplots.py:2110-2133 [animate]: the lines of one measurement, starting with line i *)
Definition animate_day (pc iq : bool) (d : nat) (si : upd * nat) : upd * nat :=
  let (s, i) := si in
  let s := put i d (Some (Val Tot d)) s in
  let i := S i in
  let (s, i) :=
    if pc then
      let s := put i d (Some (Val Surf d)) s in
      let i := S i in
      let s := put i d (Some (Val Vol d)) s in
      let (s, i) := if iq then let i := S i in (put i d (Some (Val Inter d)) s, i) else (s, i) in
      (s, S i)
    else (s, i) in
  let s := put i d (Some (Val Data d)) s in
  let i := S i in
  let s := put i d None s in
  (s, S i).
(** rtplots.py:2135-2154: fractions *)
Definition animate_frac (iq : bool) (d : nat) (si : upd * nat) : upd * nat :=
  let (s, i) := si in
  let s := put i d (Some (Frac Surf d)) s in
  let i := S i in
  let s := put i d (Some (Frac Vol d)) s in
  let (s, i) := if iq then let i := S i in (put i d (Some (Frac Inter d)) s, i) else (s, i) in
  (s, S i).
(** rtplots.py:2156-2178: the full range of incidence-angles *)
Definition animate_full (pc iq : bool) (d : nat) (si : upd * nat) : upd * nat :=
  let (s, i) := si in
  let s := put i d (Some (Full Tot d)) s in
  let i := S i in
  if pc then
    let s := put i d (Some (Full Surf d)) s in
    let i := S i in
    let s := put i d (Some (Full Vol d)) s in
    let (s, i) := if iq then let i := S i in (put i d (Some (Full Inter d)) s, i) else (s, i) in
    (s, S i)
  else (s, i).
(** rtplots.py:2179-2200 *)
Definition animate_fracfull (iq : bool) (d : nat) (si : upd * nat) : upd * nat :=
  let (s, i) := si in
  let s := put i d (Some (FracFull Surf d)) s in
  let i := S i in
  let s := put i d (Some (FracFull Vol d)) s in
  let (s, i) := if iq then let i := S i in (put i d (Some (FracFull Inter d)) s, i) else (s, i) in
  (s, S i).

(** rtplots.py:2107-2109: measurements beyond the last one are skipped; indexing with other numbers as in Python *)
Definition loop (n : nat) (body : nat -> upd * nat -> upd * nat) (days : list Z) (l : list line) : upd :=
  fst (fold_left (fun si day =>
        if Z.of_nat n <=? day then si
        else match snd (fst si) with
             | Some _ => si
             | None => match pyidx n day with
                       | Ok d => body d si
                       | Err e => ((fst (fst si), Some e), snd si)
                       end
             end) days ((l, None), O)).

(** the text of the label: the dates of the first and the last measurement *)
Inductive label : Type := One (d : nat) | Range (a b : nat).

(** the widget: its number of measurements, the arguments, the slider and the figure *)
Record widget := mkwid {
  w_n : nat; w_pc : bool; w_iq : bool; w_fullt : bool; w_range : nat;
  w_min : Z; w_max : Z; w_val : Z; w_label : label; w_fig : figure }.

(** rtplots.py:2085-2106: the text of the label; None: unchanged *)
Definition label_text (n dayrange : nat) (day0 : Z) : res (option label) :=
  match dayrange with
  | O => Ok None
  | 1%nat => do d <- pyidx n day0; Ok (Some (One d))
  | _ => do a <- pyidx n day0; do b <- pyidx n (day0 + Z.of_nat dayrange - 1); Ok (Some (Range a b))
  end.

(** rtplots.py:2085-2202 [animate]; the second component is the exception that was raised *)
Definition animate (day0 : Z) (w : widget) : widget * option pyerr :=
  match label_text (w_n w) (w_range w) day0 with
  | Err e => (w, Some e)
  | Ok lab =>
      let lab := match lab with Some t => t | None => w_label w end in
      let days := map (fun k => day0 + Z.of_nat k) (seq 0 (w_range w)) in
      let mk f := mkwid (w_n w) (w_pc w) (w_iq w) (w_fullt w) (w_range w) (w_min w) (w_max w) (w_val w) lab f in
      let g := w_fig w in
      match loop (w_n w) (animate_day (w_pc w) (w_iq w)) days (g_lines g) with
      | (l1, Some e) => (mk (mkfig l1 (g_frac g) (g_full g) (g_fracfull g)), Some e)
      | (l1, None) =>
          match loop (w_n w) (animate_frac (w_iq w)) days (g_frac g) with
          | (l2, Some e) => (mk (mkfig l1 l2 (g_full g) (g_fracfull g)), Some e)
          | (l2, None) =>
              if w_fullt w then
                match loop (w_n w) (animate_full (w_pc w) (w_iq w)) days (g_full g) with
                | (l3, Some e) => (mk (mkfig l1 l2 l3 (g_fracfull g)), Some e)
                | (l3, None) =>
                    let (l4, e) := loop (w_n w) (animate_fracfull (w_iq w)) days (g_fracfull g) in
                    (mk (mkfig l1 l2 l3 l4), e)
                end
              else (mk (mkfig l1 l2 (g_full g) (g_fracfull g)), None)
          end
      end
  end.

(** rtplots.py:2009-2015, 2226-2250: the figure with its slider from 0 to the last measurement *)
Definition create (n : nat) (pc iq full : bool) (dayrange : nat) : res widget :=
  do f <- plotlines n pc iq full dayrange;
  do d <- pyidx n 0;
  Ok (mkwid n pc iq full dayrange 0 (Z.of_nat n - 1) 0 (One d) f).

(** what the user does: move the slider (to a whole number), or zoom the plot of the parameters to the measurements a, ..., b *)
Inductive op : Type := Move (z : Z) | Zoom (a b : nat) | ZoomEmpty.

(** matplotlib's Slider: the value stays inside the boundaries, the callbacks are called with the new value *)
Definition clamp (lo hi z : Z) : Z := if z <=? lo then lo else if hi <=? z then hi else z.

(** rtplots.py:2205-2222 [updatesliderboundary] (an empty selection raises an IndexError), 2265-2282 *)
Definition step (w : widget) (o : op) : widget * option pyerr :=
  match o with
  | Move z =>
      let v := clamp (w_min w) (w_max w) z in
      animate v (mkwid (w_n w) (w_pc w) (w_iq w) (w_fullt w) (w_range w) (w_min w) (w_max w) v (w_label w) (w_fig w))
  | Zoom a b =>
      (mkwid (w_n w) (w_pc w) (w_iq w) (w_fullt w) (w_range w) (Z.of_nat a - 1) (Z.of_nat b + 1) (w_val w) (w_label w) (w_fig w), None)
  | ZoomEmpty => (w, Some IndexError)
  end.

(** a history *)
Definition run (w : widget) (l : list op) : widget := fold_left (fun w o => fst (step w o)) l w.
