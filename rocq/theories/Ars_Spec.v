(** Specification for C215, C216. *)
From Coq Require Import Reals List Bool Arith String.
From Coquelicot Require Import Coquelicot.
From Verif Require Import Base RT_Model Arr_Model Arr_Spec Ars_Model.
Import ListNotations.
Local Open Scope R_scope.

(** all elements of an array are [v], and there is one *)
Definition single (a : arr R) (v : R) : Prop := (exists ix, index_in ix (shape a)) /\ forall ix, index_in ix (shape a) -> data a ix = v.
(** an index of the result is (with repeated axes of length 1) an index of an array of shape [s] *)
Definition in_range (ix s : list nat) : Prop :=
  (List.length s <= List.length ix)%nat /\ forall i, (i < List.length s)%nat -> nth i s 1%nat = 1%nat \/ (nth i ix 0 < nth i s 1)%nat.

(** sympy compiles the derivatives of the scattering functions: with respect to the zenith-angle in monostatic geometry, and
    with respect to the parameters *)
Definition derivatives (d : dobj) : Prop :=
  let o := d_o d in
  (forall n v, respects (d_brdf d n v) /\ respects (d_p d n v)) /\ (forall key, respects (d_kbrdf d key) /\ respects (d_kp d key)) /\
  respects (a_brdf o) /\ respects (a_p o) /\
  (forall n v t a b c ps, f_val (d_brdf d n v) (t :: a :: b :: c :: ps) = Derive_n (fun x => f_val (a_brdf o) (x :: x :: v :: v + PI :: ps)) n t /\
                          f_val (d_p d n v) (t :: a :: b :: c :: ps) = Derive_n (fun x => f_val (a_p o) (x :: x :: v :: v + PI :: ps)) n t) /\
  (forall key pd w t a b c, map fst pd = map fst (a_params o) -> dget string_dec key pd = Some w ->
     f_val (d_kbrdf d key) (t :: a :: b :: c :: map snd pd) = Derive (fun x => f_val (a_brdf o) (t :: a :: b :: c :: map snd (dset string_dec key x pd))) w /\
     f_val (d_kp d key) (t :: a :: b :: c :: map snd pd) = Derive (fun x => f_val (a_p o) (t :: a :: b :: c :: map snd (dset string_dec key x pd))) w).

(** the same function for one element *)
Definition scalar (w : which) (dB sig0 : bool) (r : RT) : R :=
  match w with
  | SurfaceSlope => surface_slope dB sig0 r | SurfaceCurv => surface_curv dB sig0 r
  | VolumeSlope => volume_slope dB sig0 r | VolumeCurv => volume_curv dB sig0 r
  | TotSlope => tot_slope dB sig0 r | TotCurv => tot_curv dB sig0 r
  end.

(** what the results depend on: order of the derivative, surface and volume *)
Definition order (w : which) : nat := match w with SurfaceSlope | VolumeSlope | TotSlope => 1%nat | _ => 2%nat end.
(** ... *)
Definition has_surface (w : which) : bool := match w with VolumeSlope | VolumeCurv => false | _ => true end.
(** ... *)
Definition has_volume (w : which) : bool := match w with SurfaceSlope | SurfaceCurv => false | _ => true end.
(** the shapes of what a scattering function and its derivatives up to the given order depend on; [f]: compiled function,
    [g]: compiled derivatives *)
Definition function_shapes (d : dobj) (f : func) (g : nat -> func) (n : nat) : list (list nat) :=
  (map shape (used (f_uses f) (call_args (d_o d))) ++ flat_map (fun k => map shape (used (f_uses (g k)) (mono_args d))) (seq 1 n))%list.
(** the shapes of what a slope or curvature depends on; the exit angle only matters if the contribution itself is needed *)
Definition slope_shapes (w : which) (dB sig0 : bool) (d : dobj) (v : R) : list (list nat) :=
  let o := d_o d in
  ([shape (a_bsf o); shape (a_tau o); shape (a_t0 o); shape (a_I0 o)] ++
   (if dB || sig0 then [shape (a_tex o)] else []) ++
   (if has_surface w then shape (a_N o) :: function_shapes d (a_brdf o) (fun k => d_brdf d k v) (order w) else []) ++
   (if has_volume w then shape (a_omega o) :: function_shapes d (a_p o) (fun k => d_p d k v) (order w) else []))%list.

(** the entries of the jacobian that exist *)
Definition known (d : dobj) (key : string) : Prop := In key ["omega"; "tau"; "NormBRDF"; "bsf"]%string \/ In key (map fst (a_params (d_o d))).
(** the shapes of what the normalisation depends on *)
Definition norm_shapes (dB sig0 : bool) (o : aobj) : list (list nat) :=
  if dB then (surface_shapes o ++ volume_shapes o)%list else if sig0 then [shape (a_t0 o)] else [].
(** the shapes of what an entry depends on: the one of the parameter itself only for tau and the parameters of the
    scattering functions *)
Definition entry_shapes (dB sig0 : bool) (d : dobj) (key : string) : list (list nat) :=
  let o := d_o d in
  ([shape (a_tau o); shape (a_t0 o); shape (a_tex o); shape (a_I0 o)] ++ norm_shapes dB sig0 o ++
   (if String.eqb key "omega" then shape (a_bsf o) :: map shape (used (f_uses (a_p o)) (call_args o))
    else if String.eqb key "NormBRDF" then shape (a_bsf o) :: map shape (used (f_uses (a_brdf o)) (call_args o))
    else shape (a_N o) :: shape (a_omega o) ::
         if String.eqb key "tau" then shape (a_bsf o) :: map shape (used (f_uses (a_brdf o)) (call_args o)) ++ map shape (used (f_uses (a_p o)) (call_args o))
         else if String.eqb key "bsf" then map shape (used (f_uses (a_brdf o)) (call_args o)) ++ map shape (used (f_uses (a_p o)) (call_args o))
         else shape (a_bsf o) :: map shape (used (f_uses (d_kbrdf d key)) (call_args o)) ++ map shape (used (f_uses (d_kp d key)) (call_args o))))%list.
