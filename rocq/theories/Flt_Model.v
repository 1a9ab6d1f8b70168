(** Model of the floating-point evaluation of surface and volume contribution: /repo/rt1/rt1.py
    [surface] (722-748), [volume] (926-949), the cosines (449-457) and the sum in [calc]
    (660-720, with int_Q=False), operation by operation in the order of Python.
    One array element is modelled; a double is the real number it stands for; [rnd] rounds
    the exact result of an operation to a double (IEEE 754; no overflow); [expf] and [cosf] are
    np.exp and np.cos (library functions, no /repo code).  The numbers of the scattering functions
    ([SRF.brdf], [V.p]) are inputs here. *)
From Coq Require Import Reals.
Local Open Scope R_scope.

(** the doubles that are used: I0, V.omega, V.tau, SRF.NormBRDF, bsf, t_0, t_ex and the values of
    SRF.brdf and V.p (rt1.py 128-180, 737-744, 941-947) *)
Record inputs : Type := mkin { i_I0 : R; i_omega : R; i_tau : R; i_N : R; i_bsf : R; i_t0 : R; i_tex : R; i_brdf : R; i_p : R }.

Section Flt.
Variables (rnd expf cosf : R -> R).

(** rt1.py 449-452 *)
Definition fmu_0 (i : inputs) : R := cosf (i_t0 i).
(** rt1.py 454-457 *)
Definition fmu_ex (i : inputs) : R := cosf (i_tex i).
(** rt1.py 734-744 *)
Definition fI_bs (i : inputs) : R := rnd (rnd (i_I0 i * fmu_0 i) * i_brdf i).
(** rt1.py 746, 939: [-(self.V.tau / self._mu_0) - (self.V.tau / self._mu_ex)] *)
Definition farg (i : inputs) : R := rnd (- rnd (i_tau i / fmu_0 i) - rnd (i_tau i / fmu_ex i)).
(** rt1.py 746 *)
Definition fIsurf (i : inputs) : R := rnd (expf (farg i) * fI_bs i).
(** rt1.py 748 *)
Definition fsurface (i : inputs) : R :=
  rnd (i_N i * rnd (rnd (rnd (1 - i_bsf i) * fIsurf i) + rnd (i_bsf i * fI_bs i))).
(** rt1.py 938 *)
Definition ffactor (i : inputs) : R := rnd (rnd (rnd (i_I0 i * i_omega i) * fmu_0 i) / rnd (fmu_0 i + fmu_ex i)).
(** rt1.py 939 *)
Definition fabsorbed (i : inputs) : R := rnd (1 - expf (farg i)).
(** rt1.py 937-949 *)
Definition fvolume (i : inputs) : R := rnd (rnd (1 - i_bsf i) * rnd (rnd (ffactor i * fabsorbed i) * i_p i)).
(** rt1.py 718-720 *)
Definition ftotal (i : inputs) : R := rnd (fsurface i + fvolume i).
End Flt.
