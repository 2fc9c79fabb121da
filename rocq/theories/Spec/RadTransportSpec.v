(** Transport of radiation as seen by the Eulerian observers.  Nothing here refers to the code. *)
From Coq Require Import Reals Arith.
From Verif.Spec Require Import Tensor GeomSpec RadSpec.
Local Open Scope R_scope.

(** flux of energy and of momentum component l through a surface of constant x^d, per unit
    coordinate area and divided by sqrt(gamma): alpha F^d - beta^d E,  alpha P^d_l - beta^d F_l *)
Definition energy_flux (alpha : R) (beta : vec) (g gi M : mat) (d : nat) : R :=
  alpha * sum3 (fun j => gi d j * eulerian_momentum alpha g M j) - beta d * eulerian_energy alpha M.
Definition momentum_flux (alpha : R) (beta : vec) (g gamma M : mat) (d l : nat) : R :=
  alpha * sum3 (fun k => eulerian_pressure alpha beta M d k * gamma k l) - beta d * eulerian_momentum alpha g M l.
(** length of a covariant spatial vector *)
Definition norm_cov (gi : mat) (F : vec) : R := sqrt (dot3 gi F F).
(** speeds along x^d of the two light rays leaving in the directions +-d *)
Definition light_plus (alpha : R) (beta : vec) (gi : mat) (d : nat) : R := - beta d + alpha * sqrt (gi d d).
Definition light_minus (alpha : R) (beta : vec) (gi : mat) (d : nat) : R := - beta d - alpha * sqrt (gi d d).
