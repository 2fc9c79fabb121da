(** Circular equatorial geodesics of a Kerr black hole of mass 1 and spin a, in Boyer-Lindquist
    coordinates, and the innermost stable one. *)
From Coq Require Import Reals.
From Coquelicot Require Import Coquelicot.
Local Open Scope R_scope.

(** the outer horizon: the largest zero of Delta = r^2 - 2 r + a^2 *)
Definition outer_horizon (a r : R) : Prop :=
  r ^ 2 - 2 * r + a ^ 2 = 0 /\ forall r', r' ^ 2 - 2 * r' + a ^ 2 = 0 -> r' <= r.

(** metric coefficients on the equator *)
Definition g_tt (r : R) : R := - (1 - 2 / r).
Definition g_tp (a r : R) : R := - (2 * a / r).
Definition g_pp (a r : R) : R := r ^ 2 + a ^ 2 + 2 * a ^ 2 / r.
(** an orbit at constant r with angular velocity Om is a geodesic *)
Definition circular_geodesic (a r Om : R) : Prop :=
  Derive g_tt r + 2 * Om * Derive (g_tp a) r + Om ^ 2 * Derive (g_pp a) r = 0.
(** it is a particle orbit *)
Definition timelike (a r Om : R) : Prop := g_tt r + 2 * Om * g_tp a r + Om ^ 2 * g_pp a r < 0.
(** energy at infinity per rest mass, - u_t *)
Definition orbit_energy (a r Om : R) : R :=
  - (g_tt r + Om * g_tp a r) / sqrt (- (g_tt r + 2 * Om * g_tp a r + Om ^ 2 * g_pp a r)).
(** r is a marginally stable circular orbit in the sense of rotation of phi: along the family of
    circular orbits around r the energy is stationary.  For a > 0 the orbit is prograde, for
    a < 0 retrograde. *)
Definition marginally_stable (a r : R) : Prop :=
  exists Om : R -> R,
    (exists d, 0 < d /\ forall s, Rabs (s - r) < d -> 0 < s /\ 0 < Om s /\ circular_geodesic a s (Om s) /\ timelike a s (Om s)) /\
    is_derive (fun s => orbit_energy a s (Om s)) r 0.
