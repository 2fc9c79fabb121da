(** Vocabulary for C60: what the derived fields of an output file mean. *)
From Coq Require Import Reals.
From Verif.Spec Require Import Tensor.
Local Open Scope R_scope.

(** a zone's volume flux density alpha sqrt(gamma) v^d for stored velocity u = W v *)
Definition volume_flux (lapse sdet : R) (gamma : mat) (u : vec) (d : nat) : R := lapse * sdet * (u d / sqrt (1 + dot3 gamma u u)).
(** specific enthalpy and the relativistic sound speed: cs^2 rho h = bulk modulus *)
Definition enthalpy (rho sie p : R) : R := 1 + sie + p / rho.
Definition is_sound_speed (cs rho sie p bmod : R) : Prop := 0 <= cs /\ cs * cs * (rho * enthalpy rho sie p) = bmod.
(** the normalised Gaussian of width sigma *)
Definition gauss (sigma z : R) : R := exp (- (z / sigma) ^ 2) / (sqrt PI * sigma).
