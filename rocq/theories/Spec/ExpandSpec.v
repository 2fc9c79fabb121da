(** A freely expanding ball of hot gas: every fluid element moves on a straight line from the
    origin, u^mu = x^mu / tau with tau^2 = t^2 - x^2; density falls as 1/tau^3 and pressure as
    1/tau^4, with u = 3 P. *)
From Coq Require Import Reals.
From Verif.Spec Require Import Tensor WaveSpec.
Local Open Scope R_scope.

Definition interval2 (X : vec) : R := X 0%nat * X 0%nat - (X 1%nat * X 1%nat + X 2%nat * X 2%nat + X 3%nat * X 3%nat).
Definition inside_cone (X : vec) : Prop := 0 < X 0%nat /\ 0 < interval2 X.
Definition expanding (A C : R) (X : vec) : Gas :=
  let tau := sqrt (interval2 X) in
  mkGas (A / tau ^ 3) (3 * (C / tau ^ 4)) (fun i => X (S i) / tau) (row3 0 0 0).
