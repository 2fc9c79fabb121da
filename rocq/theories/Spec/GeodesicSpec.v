(** Light rays parametrised by coordinate time. *)
From Coq Require Import Reals List.
From Coquelicot Require Import Coquelicot.
From Verif.Spec Require Import Tensor GeomSpec.
Local Open Scope R_scope.

(** k^mu = g^{mu nu} k_nu *)
Definition raised (ginv : mat) (k : vec) : vec := fun mu => sum4 (fun nu => ginv mu nu * k nu).
Definition null (ginv : mat) (k : vec) : Prop := sum4 (fun mu => sum4 (fun nu => ginv mu nu * k mu * k nu)) = 0.
(** dk_mu/dt along a geodesic: (1/2) d_mu g_ab k^a k^b / k^0 *)
Definition geodesic_force (dg : nat -> nat -> nat -> R) (kcon : vec) (mu : nat) : R :=
  sum4 (fun a => sum4 (fun b => dg a b mu * kcon a * kcon b)) / (2 * kcon 0%nat).
(** x(t), k(t) is a geodesic of the metric g with inverse ginv for coordinate times in [0,T] *)
Definition light_ray (g ginv : vec -> mat) (T : R) (x k : R -> vec) : Prop := forall t, 0 <= t <= T ->
  let kcon := raised (ginv (x t)) (k t) in
  exists dg, is_metric_derivative g (x t) dg /\ forall mu, (mu < 4)%nat ->
    is_derive (fun s => x s mu) t (kcon mu / kcon 0%nat) /\ is_derive (fun s => k s mu) t (geodesic_force dg kcon mu).
(** the inverse metric does not depend on coordinate mu *)
Definition symmetry (ginv : vec -> mat) (mu : nat) : Prop :=
  forall X h a b, (a < 4)%nat -> (b < 4)%nat -> ginv (moved X mu h) a b = ginv X a b.
Definition dist4 (x y : vec) : R := Rabs (x 0%nat - y 0%nat) + Rabs (x 1%nat - y 1%nat) + Rabs (x 2%nat - y 2%nat) + Rabs (x 3%nat - y 3%nat).
Definition total (l : list R) : R := fold_right Rplus 0 l.
