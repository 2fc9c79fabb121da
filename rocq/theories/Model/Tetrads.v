(** src/geometry/tetrads.hpp over the reals.  Division by a zero norm, which yields NaN
    in the code, gives 0 here (Coq's x / 0); statements about orthonormality are false
    in both cases. *)
From Coq Require Import Reals Arith.
From Flocq Require Import Core.
From Verif.Model Require Import Num Robust Geometry.
From Verif.Spec Require Import Tensor.
Local Open Scope R_scope.

(** geometry_utils.hpp:122-128 *)
Definition Lower (Vcon : vec) (Gcov : mat) : vec := fun mu => sum4 (fun nu => Gcov mu nu * Vcon nu).
(** geometry_utils.hpp:130-137 *)
Definition Raise (Vcov : vec) (Gcon : mat) : vec := fun mu => sum4 (fun nu => Gcon mu nu * Vcov nu).
(** geometry_utils.hpp:139-146 *)
Definition KroneckerDelta (a b : nat) : R := if Nat.eqb a b then 1 else 0.

(** the double SPACETIMELOOP of tetrads.hpp:86, 131, 142-147 *)
Definition contract (Gcov : mat) (a b : vec) : R :=
  sum4 (fun mu => sum4 (fun nu => a mu * b nu * Gcov mu nu)).

(** tetrads.hpp:127-135 *)
Definition Normalize_ (Vcon : vec) (Gcov : mat) : vec :=
  let norm := sqrt (Rabs (contract Gcov Vcon Vcon)) in fun mu => Vcon mu / norm.
(** tetrads.hpp:137-149 *)
Definition ProjectOut_ (Vcona Vconb : vec) (Gcov : mat) : vec :=
  let Vconb_sq := contract Gcov Vconb Vconb in
  let adotb := contract Gcov Vcona Vconb in
  fun mu => Vcona mu - Vconb mu * adotb / Vconb_sq.

(** tetrads.hpp:73-83 *)
Definition Xness (k : nat) (Trial : vec) (Gcov : mat) : R :=
  Rabs (sum4 (fun mu => Gcov k mu * Trial mu / sqrt (Rabs (Gcov k k)))).

(** tetrads.hpp:88-111: the four vectors handed to Gram-Schmidt *)
Definition candidates (Ucon Trial : vec) (Gcov : mat) : mat :=
  let X1ness := Xness 1 Trial Gcov in
  let X2ness := Xness 2 Trial Gcov in
  let X3ness := Xness 3 Trial Gcov in
  let norm := contract Gcov Trial Trial in
  let E1 : vec := fun mu => KroneckerDelta mu 1 in
  let E2 : vec := fun mu => KroneckerDelta mu 2 in
  let E3 : vec := fun mu => KroneckerDelta mu 3 in
  if Rlt_bool (EPS : R) norm then
    if andb (Rlt_bool X2ness X1ness) (Rlt_bool X3ness X1ness) then rows4 Ucon Trial E2 E3
    else if andb (Rle_bool X1ness X2ness) (Rlt_bool X3ness X2ness) then rows4 Ucon E1 Trial E3
    else rows4 Ucon E1 E2 Trial
  else rows4 Ucon E1 E2 E3.

(** tetrads.hpp:113-123 Gram-Schmidt *)
Definition gram_schmidt (C Gcov : mat) : mat :=
  let E0 := Normalize_ (C 0%nat) Gcov in
  let E1 := Normalize_ (ProjectOut_ (C 1%nat) E0 Gcov) Gcov in
  let E2 := Normalize_ (ProjectOut_ (ProjectOut_ (C 2%nat) E0 Gcov) E1 Gcov) Gcov in
  let E3 := Normalize_ (ProjectOut_ (ProjectOut_ (ProjectOut_ (C 3%nat) E0 Gcov) E1 Gcov) E2 Gcov) Gcov in
  rows4 E0 E1 E2 E3.

(** Econ_ and Ecov_ after construction, tetrads.hpp:67-124 *)
Definition Econ (Ucon Trial : vec) (Gcov : mat) : mat :=
  gram_schmidt (candidates Ucon Trial Gcov) Gcov.
(** tetrads.hpp:126-127 *)
Definition Ecov_of (E Gcov : mat) : mat :=
  fun mu nu => if Nat.eqb mu 0 then Lower (E 0%nat) Gcov nu * -1 else Lower (E mu) Gcov nu.
Definition Ecov (Ucon Trial : vec) (Gcov : mat) : mat := Ecov_of (Econ Ucon Trial Gcov) Gcov.

(** tetrads.hpp:29-33, the constructor without a trial vector *)
Definition default_trial : vec := row4 0 1 0 0.

(** tetrads.hpp:35-41, 43-49, 51-57, 59-65 *)
Definition CoordToTetradCon (U T : vec) (G : mat) (V : vec) : vec :=
  fun mu => sum4 (fun nu => Ecov U T G mu nu * V nu).
Definition CoordToTetradCov (U T : vec) (G : mat) (V : vec) : vec :=
  fun mu => sum4 (fun nu => Econ U T G mu nu * V nu).
Definition TetradToCoordCon (U T : vec) (G : mat) (V : vec) : vec :=
  fun mu => sum4 (fun nu => Econ U T G nu mu * V nu).
Definition TetradToCoordCov (U T : vec) (G : mat) (V : vec) : vec :=
  fun mu => sum4 (fun nu => Ecov U T G nu mu * V nu).
