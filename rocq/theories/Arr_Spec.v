(** Specification for C212-C214. *)
From Coq Require Import Reals List Bool Arith String.
From Verif Require Import Base RT_Model Int_Model Arr_Model.
Import ListNotations.
Local Open Scope R_scope.

(** numpy's rule: axis by axis (from the last), the lengths are equal or one of them is 1; missing axes count as 1 *)
Definition compatible (l : list (list nat)) : Prop :=
  forall s t i, In s l -> In t l -> nth i s 1%nat = nth i t 1%nat \/ nth i s 1%nat = 1%nat \/ nth i t 1%nat = 1%nat.
(** the common shape: as many axes as the longest, each as long as the longest *)
Definition common_shape (l : list (list nat)) (u : list nat) : Prop :=
  (forall s, In s l -> (List.length s <= List.length u)%nat) /\ (u = [] \/ exists s, In s l /\ List.length s = List.length u) /\
  forall i, (forall s, In s l -> nth i s 1%nat = 1%nat \/ nth i s 1%nat = nth i u 1%nat) /\ (nth i u 1%nat = 1%nat \/ exists s, In s l /\ nth i s 1%nat = nth i u 1%nat).
(** the indices of an array *)
Definition index_in (ix s : list nat) : Prop := Forall2 lt ix s.
(** only the arguments that occur matter *)
Definition respects (f : func) : Prop := forall l, f_val f (mask (f_uses f) l) = f_val f l.
(** the element of an array for an index of the result: axes of length 1 are repeated *)
Definition element {A} (a : arr A) (ix : list nat) : A :=
  data a (map (fun q => if Nat.eqb (fst q) 1 then 0%nat else snd q) (combine (shape a) ix)).
(** the RT1 object of one element *)
Definition object_at (o : aobj) (ix : list nat) : RT :=
  mkRT (element (a_I0 o) ix) (a_geometry o) (element (a_t0 o) ix) (element (a_p0 o) ix) (element (a_gtex o) ix) (element (a_gpex o) ix)
    (mkV (element (a_tau o) ix) (element (a_omega o) ix) (fun pd a b c d => f_val (a_p o) (a :: b :: c :: d :: map snd pd)))
    (mkSRF (element (a_N o) ix) (fun pd a b c d => f_val (a_brdf o) (a :: b :: c :: d :: map snd pd)))
    (element (a_bsf o) ix) (map (fun q => (fst q, element (snd q) ix)) (a_params o)) 0 None None.
(** the shapes of what [surface] resp. [volume] depends on *)
Definition surface_shapes (o : aobj) : list (list nat) :=
  [shape (a_N o); shape (a_bsf o); shape (a_tau o); shape (a_t0 o); shape (a_tex o); shape (a_I0 o)] ++ map shape (used (f_uses (a_brdf o)) (call_args o)).
(** ... *)
Definition volume_shapes (o : aobj) : list (list nat) :=
  [shape (a_omega o); shape (a_bsf o); shape (a_tau o); shape (a_t0 o); shape (a_tex o); shape (a_I0 o)] ++ map shape (used (f_uses (a_p o)) (call_args o)).
