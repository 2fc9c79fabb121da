(** Model of the Bondi accretion problem generator src/pgen/bondi.cpp, of the velocity transformation of
    src/geometry/mckinney_gammie_ryan.hpp and of ucon_norm of src/pgen/torus.cpp (the same formula is inlined in bondi.cpp).

    Simplifications.  Arithmetic is exact; std::pow(T, n) with T > 0 is [Rpower].  The two loops take a bound on the
    number of passes ([fuel]); the theorems say when a bound suffices.  The equation of state is the ideal gas the setup
    demands.  The electron fraction 0.5 and the call of PrimitiveToConserved are left out. *)
From Coq Require Import Reals Arith.
From Flocq Require Import Core.
From Verif.Model Require Import Num Robust LinearAlgebra Geometry Modified BoyerLindquist.
From Verif.Spec Require Import Tensor.
Local Open Scope R_scope.

(** torus.cpp:829-841 ucon_norm; bondi.cpp:189-200 and 207-216 *)
Definition ucon_AA (gcov : mat) : R := gcov 0%nat 0%nat.
Definition ucon_BB (ucon : vec) (gcov : mat) : R :=
  2 * (gcov 0%nat 1%nat * ucon 1%nat + gcov 0%nat 2%nat * ucon 2%nat + gcov 0%nat 3%nat * ucon 3%nat).
Definition ucon_CC (ucon : vec) (gcov : mat) : R :=
  1 + gcov 1%nat 1%nat * ucon 1%nat * ucon 1%nat + gcov 2%nat 2%nat * ucon 2%nat * ucon 2%nat
  + gcov 3%nat 3%nat * ucon 3%nat * ucon 3%nat
  + 2 * (gcov 1%nat 2%nat * ucon 1%nat * ucon 2%nat + gcov 1%nat 3%nat * ucon 1%nat * ucon 3%nat
         + gcov 2%nat 3%nat * ucon 2%nat * ucon 3%nat).
Definition ucon_discr (ucon : vec) (gcov : mat) : R :=
  ucon_BB ucon gcov * ucon_BB ucon gcov - 4 * ucon_AA gcov * ucon_CC ucon gcov.
Definition ucon_norm (ucon : vec) (gcov : mat) : R :=
  (- ucon_BB ucon gcov - sqrt (ucon_discr ucon gcov)) / (2 * ucon_AA gcov).
(** ucon[0] = ... *)
Definition set_u0 (ucon : vec) (u0 : R) : vec := fun mu => match mu with O => u0 | _ => ucon mu end.

(** mckinney_gammie_ryan.hpp:136-151 *)
Definition bl_to_fmks (m : MGR) (x1 x2 x3 a : R) (ucon_bl : vec) : vec :=
  let ucon_ks := bl_to_ks a (mgr_r m x1) ucon_bl in
  let Jcon := tr_Jcon (McKinneyGammieRyan m) x1 x2 x3 in
  fun mu => sum4 (fun nu => S2ST Jcon mu nu * ucon_ks nu).

(** bondi.cpp:126-132, the solution constants; n = 1 / (gam - 1) *)
Definition bondi_uc (rs : R) : R := sqrt (1 / (2 * rs)).
Definition bondi_Vc (rs : R) : R := - sqrt (bondi_uc rs ^ 2 / (1 - 3 * bondi_uc rs ^ 2)).
Definition bondi_Tc (n rs : R) : R := - n * bondi_Vc rs ^ 2 / ((n + 1) * (n * bondi_Vc rs ^ 2 - 1)).
Definition bondi_C1 (n rs : R) : R := bondi_uc rs * rs ^ 2 * Rpower (bondi_Tc n rs) n.
Definition bondi_C2 (n rs : R) : R :=
  (1 + (1 + n) * bondi_Tc n rs) ^ 2
  * (1 - 2 / rs + bondi_C1 n rs ^ 2 / (rs ^ 4 * Rpower (bondi_Tc n rs) (2 * n))).

(** bondi.cpp:36-40 get_Tfunc *)
Definition get_Tfunc (r n C1 C2 T : R) : R :=
  (1 + (1 + n) * T) ^ 2 * (1 - 2 / r + (C1 / (r * r * Rpower T n)) ^ 2) - C2.

(** what get_bondi_temp does: return, abort ("Bondi setup failed"), or go on past the bound *)
Inductive Outcome := Found (T : R) | Aborts | Unfinished.
Definition temp_rtol : R := / 10 ^ 12.
Definition temp_ftol : R := / 10 ^ 14.
(** bondi.cpp:52-67; T1's function value is not used by the loop *)
Fixpoint temp_loop (fuel : nat) (f : R -> R) (T0 f0 T1 : R) : Outcome :=
  let Th := / 2 * (T0 + T1) in
  let fh := f Th in
  if (Rlt_bool temp_rtol ((T1 - T0) / Th) && Rlt_bool temp_ftol (Rabs fh))%bool then
    match fuel with
    | O => Unfinished
    | S fuel => if Rlt_bool (fh * f0) 0 then temp_loop fuel f T0 f0 Th else temp_loop fuel f Th fh T1
    end
  else Found Th.
(** bondi.cpp:30-32 *)
Definition temp_guess (r Tc rc : R) : R := Tc * Rpower (rc / r) (8 / 10).
Definition temp_min (r Tc rc : R) : R := if Rlt_bool r rc then 1 / 10 * temp_guess r Tc rc else temp_guess r Tc rc.
Definition temp_max (r Tc rc : R) : R := if Rlt_bool r rc then temp_guess r Tc rc else 10 * temp_guess r Tc rc.
(** bondi.cpp:24-68 *)
Definition get_bondi_temp (fuel : nat) (r n C1 C2 Tc rc : R) : Outcome :=
  let f := get_Tfunc r n C1 C2 in
  let T0 := temp_min r Tc rc in
  let T1 := temp_max r Tc rc in
  if Rlt_bool 0 (f T0 * f T1) then Aborts else temp_loop fuel f T0 (f T0) T1.

(** bondi.cpp:163-167: x1 after the loop that moves it out of the excised region *)
Fixpoint bondi_x1 (fuel : nat) (m : MGR) (dx1 Rhor x1 : R) : R :=
  match fuel with
  | O => x1
  | S fuel => if Rlt_bool (mgr_r m x1) Rhor then bondi_x1 fuel m dx1 Rhor (x1 + dx1) else x1
  end.

(** what is written into a cell *)
Record BondiCell := { bc_T : R; bc_rho : R; bc_u : R; bc_P : R; bc_gam1 : R; bc_v : vec }.
(** bondi.cpp:183-184: the radial Boyer-Lindquist velocity *)
Definition bondi_ucon_bl (n C1 T r : R) : vec := row4 0 (- C1 / (Rpower T n * r ^ 2)) 0 0.
(** bondi.cpp:186-200: normalised in the Boyer-Lindquist metric at the shifted point *)
Definition bondi_ucon_full_bl (a n C1 T r th x3 : R) : vec :=
  let ucon_bl := bondi_ucon_bl n C1 T r in
  set_u0 ucon_bl (ucon_norm ucon_bl (BL_SpacetimeMetric a (row4 0 r th x3))).
Definition FMKS (a : R) (m : MGR) : System := Modified (SphericalKerrSchild a) (McKinneyGammieRyan m) false.
(** bondi.cpp:202-216: renormalised in the metric of the cell; the setup aborts unless discr > 0 *)
Definition bondi_ucon (a : R) (m : MGR) (n C1 T x1 x2 x3 : R) (X : point) : vec :=
  let ucon := bl_to_fmks m x1 x2 x3 a (bondi_ucon_full_bl a n C1 T (mgr_r m x1) (mgr_th m x1 x2) x3) in
  set_u0 ucon (ucon_norm ucon (SpacetimeMetric (FMKS a m) X)).
(** bondi.cpp:175-182 with P = (gam - 1) rho eps and bulk modulus gam (gam - 1) rho Cv T, and 218-225 *)
Definition bondi_cell (a : R) (m : MGR) (gam Cv n C1 T x1 x2 x3 : R) (X : point) : BondiCell :=
  let rho := Rpower T n in
  let u := rho * T / (gam - 1) in
  let P := (gam - 1) * rho * (u / rho) in
  let ucon := bondi_ucon a m n C1 T x1 x2 x3 X in
  let lapse := Lapse (FMKS a m) X in
  let beta := ContravariantShift (FMKS a m) X in
  let W := lapse * ucon 0%nat in
  {| bc_T := T; bc_rho := rho; bc_u := u; bc_P := P; bc_gam1 := gam * (gam - 1) * rho * Cv * T / P;
     bc_v := fun d => ucon (d + 1)%nat + W * beta d / lapse |}.
