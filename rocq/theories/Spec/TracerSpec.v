(** Particle paths and the order of a time integrator. *)
From Coq Require Import Reals.
From Coquelicot Require Import Coquelicot.
From Verif.Spec Require Import Tensor.
Local Open Scope R_scope.

Definition dist1 (x y : vec) : R := Rabs (x 0%nat - y 0%nat) + Rabs (x 1%nat - y 1%nat) + Rabs (x 2%nat - y 2%nat).
(** X is the path of a particle carried by the velocity field f, from x, for times in [0,T] *)
Definition path (f : vec -> vec) (x : vec) (T : R) (X : R -> vec) : Prop :=
  (forall i, (i < 3)%nat -> X 0 i = x i) /\
  forall t i, 0 <= t <= T -> (i < 3)%nat -> is_derive (fun s => X s i) t (f (X t) i).
(** on the region D, which contains x, f is bounded by M, and differs from its linearisation
    at x, with gradient bounded by g, by at most K times the squared distance *)
Definition smooth_at (f : vec -> vec) (x : vec) (D : vec -> Prop) (M g K : R) : Prop :=
  D x /\ (forall y i, D y -> (i < 3)%nat -> Rabs (f y i) <= M) /\
  exists G : mat, (forall i j, (i < 3)%nat -> (j < 3)%nat -> Rabs (G i j) <= g) /\
    forall y i, D y -> (i < 3)%nat -> Rabs (f y i - f x i - sum3 (fun j => G i j * (y j - x j))) <= K * (dist1 y x * dist1 y x).
(** specific enthalpy and the relativistic Bernoulli parameter - h u_t - 1 *)
Definition enthalpy (rho u p : R) : R := 1 + (u + p) / rho.
Definition bernoulli (g : mat) (u : vec) (h : R) : R := - h * lower4 g u 0%nat - 1.
