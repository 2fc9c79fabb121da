(** Exchange of four-momentum between radiation and matter, and one backward-Euler step. *)
From Coq Require Import Reals Arith.
From Verif.Spec Require Import Tensor GeomSpec RadSpec.
Local Open Scope R_scope.

(** four-force per volume on the radiation: absorption coefficient kJ, flux opacity kH,
    equilibrium (blackbody) energy density JBB, all in the frame of matter moving with u *)
Definition four_force (kJ kH JBB J : R) (u H : vec) : vec := fun m => kJ * (JBB - J) * u m - kH * H m.
(** the Eulerian rates per coordinate time: alpha * (-n_mu S^mu) and alpha * S_i *)
Definition energy_rate (alpha : R) (S : vec) : R := alpha * - sum4 (fun m => normal_cov alpha m * S m).
Definition momentum_rate (alpha : R) (g : mat) (S : vec) (i : nat) : R := alpha * low g S (Datatypes.S i).
