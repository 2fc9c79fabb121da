(** A static, spherically symmetric star of a perfect fluid.  Nothing here refers to the code.

    m(r) is the gravitational mass inside the areal radius r, Phi = ln alpha.  The metric is
    ds^2 = -e^(2 Phi) dt^2 + dr^2/(1 - 2 m/r) + r^2 dOmega^2. *)
From Coq Require Import Reals.
From Coquelicot Require Import Coquelicot.
From Verif.Spec Require Import Tensor GeomSpec Hypersurface.
Local Open Scope R_scope.

Definition radial_stretch (m : R -> R) (r : R) : R := / sqrt (1 - 2 * m r / r).
Definition lapse_of (Phi : R -> R) (r : R) : R := exp (Phi r).

(** energy density e and pressure p at the point Y solve Einstein's equations for the static star:
    both constraints, and neither the 3-metric nor the extrinsic curvature changes *)
Definition static_einstein (m Phi : R -> R) (e p : R) (Y : vec) : Prop :=
  let gam := areal_metric (radial_stretch m) in let gaminv := areal_inverse (radial_stretch m) in
  let K := areal_K (fun _ => 0) in let alpha := radial (lapse_of Phi) in let beta := radial_vector (fun _ => 0) in
  hamiltonian_constraint gam gaminv K e Y /\
  momentum_constraint gam gaminv K (along_r 0) Y /\
  maximal_slicing gam gaminv alpha K e (3 * p) Y /\
  forall i j, (i < 3)%nat -> (j < 3)%nat ->
    metric_rate gam alpha beta K Y i j = 0 /\
    curvature_rate gam gaminv alpha beta K e (stress_diag p p) Y i j = 0.

(** the isentropic ideal gas: pressure of rest density rho and specific energy eps, the polytropic relation,
    and the first law d eps = p / rho^2 d rho along the curve parametrised by p *)
Definition ideal_pressure (Gamma rho eps : R) : R := (Gamma - 1) * rho * eps.
Definition first_law (rho eps : R -> R) (p : R) : Prop :=
  exists drho deps, is_derive rho p drho /\ is_derive eps p deps /\ deps = p / (rho p * rho p) * drho.
