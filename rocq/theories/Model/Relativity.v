(** src/phoebus_utils/relativity_utils.hpp over the reals (robust::ratio as in
    Model/Geometry.v).  A coordinate system queried at a cell is represented by the
    answers it gives there: spatial metric, lapse, shift. *)
From Coq Require Import Reals Arith.
From Verif.Model Require Import Num Robust Geometry.
From Verif.Spec Require Import Tensor.
Local Open Scope R_scope.

(** relativity_utils.hpp:38-44 *)
Definition GetLorentzFactor (vcon : vec) (gammacov : mat) : R :=
  sqrt (1 + sum3 (fun ii => sum3 (fun jj => gammacov ii jj * vcon ii * vcon jj))).
(** relativity_utils.hpp:54-60 *)
Definition GetLorentzFactor4 (vcon : vec) (gcov : mat) : R :=
  sqrt (1 + sum3 (fun ii => sum3 (fun jj => gcov (ii + 1)%nat (jj + 1)%nat * vcon ii * vcon jj))).
(** relativity_utils.hpp:105-117; gamma, alpha, beta are what system.Metric, Lapse and
    ContravariantShift return at the cell *)
Definition GetFourVelocity (v : vec) (gamma : mat) (alpha : R) (beta : vec) : vec :=
  let W := GetLorentzFactor v gamma in
  let u0 := gratio W (Rabs alpha) in
  fun l => match l with O => u0 | S l' => v l' - u0 * beta l' end.
(** relativity_utils.hpp:135-145 *)
Definition GetMagneticFieldSquared (gcov : mat) (vp Bp : vec) (W : R) : R :=
  let Bdotv := sum3 (fun m => sum3 (fun n => gcov m n * gratio (vp m) W * Bp n)) in
  let Bsq := sum3 (fun m => sum3 (fun n => gcov m n * Bp m * Bp n)) in
  gratio Bsq (W * W) + Bdotv * Bdotv.
(** relativity_utils.hpp:158-168, the same from a cell *)
Definition GetMagneticFieldSquared_cell (gcov : mat) (vp Bp : vec) : R :=
  GetMagneticFieldSquared gcov vp Bp (GetLorentzFactor vp gcov).
