(** Exact cooling of a transparent gas, and sums over a mesh. *)
From Coq Require Import Reals List.
From Verif.Spec Require Import Tensor.
Import ListNotations.
Local Open Scope R_scope.

(** d Ye / dt = - k Ye from Ye0 *)
Definition exact_decay (k y0 t : R) : R := y0 * exp (- (k * t)).
Definition elapsed (dts : list R) : R := fold_right Rplus 0 dts.
Definition squares (dts : list R) : R := fold_right (fun d s => d * d + s) 0 dts.
(** centre of cell i of n equal cells on [-l, l] *)
Definition centre (l : R) (n i : nat) : R := - l + (INR i + 1 / 2) * (2 * l / INR n).
Fixpoint add_up (n : nat) (f : nat -> R) : R := match n with O => 0 | S n => add_up n f + f n end.
(** distance from the origin of the point with spherical coordinates (r, theta, phi) *)
Definition ball_distance (r theta phi : R) : R :=
  sqrt ((r * sin theta * cos phi) ^ 2 + (r * sin theta * sin phi) ^ 2 + (r * cos theta) ^ 2).
