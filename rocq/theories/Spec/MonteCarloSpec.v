(** Vocabulary for Monte Carlo radiation: quadrature, expected values over uniform random
    numbers, exchange of momentum between matter and packets, optical depth. *)
From Coq Require Import Reals List.
From Coquelicot Require Import Coquelicot.
From Verif.Spec Require Import Tensor.
Import ListNotations.
Local Open Scope R_scope.

(** E[f(r)] = m for r uniform on [0,1] *)
Definition expected (f : R -> R) (m : R) : Prop := is_RInt f 0 1 m.
(** E[f(r1,r2)] = m for independent uniform r1, r2 *)
Definition expected2 (f : R -> R -> R) (m : R) : Prop :=
  exists g, (forall r1, 0 < r1 < 1 -> expected (f r1) (g r1)) /\ expected g m.
Definition indicator (b : bool) : R := if b then 1 else 0.

(** composite trapezoidal rule with n panels on [a, b] *)
Fixpoint sum_first (n : nat) (f : nat -> R) : R := match n with O => 0 | S k => sum_first k f + f k end.
Definition trapezoidal (f : R -> R) (a b : R) (n : nat) : R :=
  let h := (b - a) / INR n in
  sum_first n (fun i => h * (f (a + INR i * h) + f (a + INR (S i) * h)) / 2).

(** optical depth of a light ray of covariant momentum k over coordinate time dt through
    matter of four-velocity u with absorption coefficient alpha(nu) in its rest frame:
    dtau = alpha(nu) (-k.u) dlambda, dt = k^0 dlambda, h nu = -k.u *)
Definition optical_depth (h : R) (alpha : R -> R) (ginv : mat) (u k : vec) (dt : R) : R :=
  let e := - sum4 (fun mu => k mu * u mu) in
  alpha (e / h) * e / sum4 (fun mu => ginv 0%nat mu * k mu) * dt.

Definition sum_list (l : list R) : R := fold_right Rplus 0 l.

(** totals over the zones 0..n-1 of volume d3x *)
Definition zone_total (n : nat) (d3x : R) (f : nat -> R) : R := sum_first n (fun z => d3x * f z).
