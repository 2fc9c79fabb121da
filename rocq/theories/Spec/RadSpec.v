(** Moments of a radiation field, in four dimensions. *)
From Coq Require Import Reals Arith.
From Verif.Spec Require Import Tensor GeomSpec.
Local Open Scope R_scope.

(** the metric split used here: x^0 + 3 coordinates, unit normal n_mu = (-alpha, 0, 0, 0) *)
Definition normal_cov (alpha : R) : vec := fun m => match m with O => - alpha | _ => 0 end.
(** indices lowered with the four-metric *)
Definition low (g : mat) (X : vec) : vec := lower4 g X.
(** stress-energy of radiation with comoving energy density J, flux H and anisotropic
    pressure J Pi, for an observer u:  J u u + H u + u H + J/3 (g^-1 + u u) + J Pi *)
Definition radiation_tensor (ginv : mat) (u : vec) (J : R) (H : vec) (Pi : mat) : mat :=
  fun m n => J * u m * u n + H m * u n + u m * H n + J / 3 * (ginv m n + u m * u n) + J * Pi m n.
(** orthogonality to the observer *)
Definition transverse (g : mat) (u H : vec) : Prop := dot4 g u H = 0.
Definition transverse2 (g : mat) (u : vec) (Pi : mat) : Prop :=
  (forall m, (m < 4)%nat -> dot4 g u (Pi m) = 0) /\ symmetric4 Pi.
Definition traceless (g : mat) (Pi : mat) : Prop := sum4 (fun m => sum4 (fun n => g m n * Pi m n)) = 0.
(** what the Eulerian (normal) observer measures: energy, momentum (covariant), pressure;
    the projector is gamma^i_m = delta^i_m + n^i n_m, with n^i = - beta^i / alpha *)
Definition eulerian_energy (alpha : R) (M : mat) : R := sum4 (fun m => sum4 (fun n => normal_cov alpha m * normal_cov alpha n * M m n)).
Definition eulerian_momentum (alpha : R) (g M : mat) (i : nat) : R :=
  - sum4 (fun m => sum4 (fun n => normal_cov alpha m * M m n * g n (S i))).
Definition proj (alpha : R) (beta : vec) (i m : nat) : R := delta (S i) m + (- beta i / alpha) * normal_cov alpha m.
Definition eulerian_pressure (alpha : R) (beta : vec) (M : mat) (i j : nat) : R :=
  sum4 (fun m => sum4 (fun n => proj alpha beta i m * proj alpha beta j n * M m n)).
(** four-velocity of matter with Lorentz factor W and Eulerian velocity v^i *)
Definition moving (alpha : R) (beta : vec) (W : R) (v : vec) : vec :=
  fun m => match m with O => W / alpha | S i => W * (v i - beta i / alpha) end.
(** v and W belong together *)
Definition lorentz_of (gamma : mat) (v : vec) (W : R) : Prop := 0 < W /\ W * W * (1 - dot3 gamma v v) = 1.
