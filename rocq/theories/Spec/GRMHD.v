(** Ideal general-relativistic magnetohydrodynamics, in covariant form: the stress-energy
    tensor of a perfect fluid with a frozen-in magnetic field, and the densitised
    conserved densities and fluxes built from it.  Nothing here refers to the code. *)
From Coq Require Import Reals Arith.
From Verif.Spec Require Import Tensor GeomSpec Relativity.
Local Open Scope R_scope.

Section MHD.
Variables (g ginv : mat) (rho u p : R) (ucon bcon : vec).

Definition bsquared : R := dot4 g bcon bcon.

(** T^{mu nu} = (rho + u + p + b^2) u^mu u^nu + (p + b^2/2) g^{mu nu} - b^mu b^nu *)
Definition Tcon (mu nu : nat) : R :=
  (rho + u + p + bsquared) * ucon mu * ucon nu + (p + bsquared / 2) * ginv mu nu - bcon mu * bcon nu.

(** T^mu_nu *)
Definition Tmixed (mu nu : nat) : R :=
  (rho + u + p + bsquared) * ucon mu * lower4 g ucon nu + (p + bsquared / 2) * delta mu nu
  - bcon mu * lower4 g bcon nu.

(** dual of the Faraday tensor, *F^{i mu} = b^i u^mu - b^mu u^i *)
Definition dualF (mu nu : nat) : R := bcon mu * ucon nu - bcon nu * ucon mu.
End MHD.

(** ** Waves *)
(** the covector dx^d - x dt, normal to a front x^d = x t *)
Definition front (d : nat) (x : R) : vec := fun mu => match mu with O => - x | S i => delta i d end.
(** squared frequency in the frame of u, and k.k *)
Definition omega2 (u : vec) (k : vec) : R := sum4 (fun mu => u mu * k mu) * sum4 (fun mu => u mu * k mu).
Definition norm2 (ginv : mat) (k : vec) : R := sum4 (fun mu => sum4 (fun nu => ginv mu nu * k mu * k nu)).
(** the front moves through the fluid with squared speed c, measured in the frame of the
    fluid: omega^2 = c |k_perp|^2, where |k_perp|^2 = k.k + omega^2 *)
Definition wave (ginv : mat) (u : vec) (c : R) (d : nat) (x : R) : Prop :=
  omega2 u (front d x) = c * (norm2 ginv (front d x) + omega2 u (front d x)).
(** the front is not faster than light: its normal is not timelike *)
Definition causal_front (ginv : mat) (d : nat) (x : R) : Prop := 0 <= norm2 ginv (front d x).
(** squared sound speed, Alfven speed and fast magnetosonic speed estimate *)
Definition sound2 (rho u p gam1 : R) : R := gam1 * p / (rho + u + p).
Definition alfven2 (rho u p b2 : R) : R := b2 / (rho + u + p + b2).
Definition fast2 (rho u p gam1 b2 : R) : R :=
  sound2 rho u p gam1 + alfven2 rho u p b2 - sound2 rho u p gam1 * alfven2 rho u p b2.
