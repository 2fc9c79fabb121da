(** Directions on the unit sphere in the coordinates xi = 1 - n_1 and the azimuth phi of (n_2, n_3), and integrals over
    coordinate boxes. *)
From Coq Require Import Reals.
From Coquelicot Require Import Coquelicot.
Local Open Scope R_scope.

(** the unit vector at (xi, phi) *)
Definition ray (xi phi : R) (i : nat) : R :=
  let s := sqrt (1 - (1 - xi) * (1 - xi)) in
  match i with O => 1 - xi | S O => cos phi * s | _ => sin phi * s end.
(** the integral of n_i n_j over the box [xi0, xi1] x [phi0, phi1]; the solid angle element is dxi dphi *)
Definition second_moment (xi0 xi1 phi0 phi1 : R) (i j : nat) : R :=
  RInt (fun phi => RInt (fun xi => ray xi phi i * ray xi phi j) xi0 xi1) phi0 phi1.
Definition kron (i j : nat) : R := if Nat.eqb i j then 1 else 0.
(** a pressure tensor divided by the energy density, p_ij = int I n_i n_j / int I, is realizable when it is symmetric, of
    unit trace and positive *)
Definition realizable (p : nat -> nat -> R) : Prop :=
  (forall i j, (i < 3)%nat -> (j < 3)%nat -> p i j = p j i) /\ p 0%nat 0%nat + p 1%nat 1%nat + p 2%nat 2%nat = 1 /\
  forall a b c, 0 <= a * a * p 0%nat 0%nat + b * b * p 1%nat 1%nat + c * c * p 2%nat 2%nat
                    + 2 * a * b * p 0%nat 1%nat + 2 * a * c * p 0%nat 2%nat + 2 * b * c * p 1%nat 2%nat.
