(** Model of the parameters that Geometry::Initialize<FMKSMeshBlock> derives from the input
    (src/geometry/fmks.cpp).  Arithmetic is exact. *)
From Coq Require Import Reals.
From Flocq Require Import Core.
Local Open Scope R_scope.

(** std::cbrt *)
Definition cbrt (x : R) : R :=
  if Rlt_bool x 0 then - Rpower (- x) (/ 3) else if Rlt_bool 0 x then Rpower x (/ 3) else 0.
(** fmks.cpp:56-57 *)
Definition fmks_Rh (a : R) : R := 1 + sqrt (1 - a * a).
Definition fmks_xh (a : R) : R := ln (fmks_Rh a).
(** fmks.cpp:58-59 *)
Definition fmks_Z1 (a : R) : R := 1 + cbrt (1 - a * a) * (cbrt (1 + a) + cbrt (1 - a)).
Definition fmks_Z2 (a : R) : R := sqrt (3 * a * a + fmks_Z1 a).
(** fmks.cpp:60-61 *)
Definition fmks_r_isco_p (a : R) : R :=
  3 + fmks_Z2 a - sqrt ((3 - fmks_Z1 a) * (3 + fmks_Z1 a + 2 * fmks_Z2 a)).
Definition fmks_r_isco_r (a : R) : R :=
  3 + fmks_Z2 a + sqrt ((3 - fmks_Z1 a) * (3 + fmks_Z1 a + 2 * fmks_Z2 a)).
(** fmks.cpp:48, 73-78: the radial coordinate at which the derefinement of the poles starts *)
Definition fmks_x0 (x1min x1max : R) (nx1 nghost : nat) : R :=
  let x0 := x1min in
  let dx1 := (x1max - x1min) / INR nx1 in
  Rmin x0 (Rmax 0 (x1min - INR nghost * dx1)).
