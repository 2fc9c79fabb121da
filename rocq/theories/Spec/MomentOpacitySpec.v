(** What the moment method must find in every zone, independent of the code. *)
From Coq Require Import Reals.
Local Open Scope R_scope.

(** kJ, kH, B are the absorption coefficient, the total (absorption plus scattering) coefficient
    and the thermal energy density of a species, at a density, temperature and electron fraction *)
Definition zone_opacities (absorption scattering : R -> R -> R -> nat -> R) (thermal : R -> nat -> R)
    (rho T Ye : R) (s : nat) (kJ kH B : R) : Prop :=
  kJ = absorption rho T Ye s /\ kH = absorption rho T Ye s + scattering rho T Ye s /\ B = thermal T s.
(** the fraction of interactions that are scatterings *)
Definition albedo (kJ kH : R) : R := (kH - kJ) / kH.
