(** src/phoebus_utils/phoebus_interpolation.hpp over the reals.  The uniform grid of a
    block is given by the first cell centre [min] and the width [dx] in each direction
    (Parthenon's UniformCartesian: Xc(i) = min + i * dx); a variable of a pack is a
    function of (k, j, i).  static_cast<int> truncates towards zero (Ztrunc); ints are
    mathematical integers. *)
From Coq Require Import Reals ZArith.
From Flocq Require Import Core.
From Verif.Model Require Import Num Robust Geometry.
Local Open Scope R_scope.

(** phoebus_interpolation.hpp:126-135 GetWeights: returns (ix, w[0], w[1]) *)
Definition GetWeights (x min dx : R) (nx : Z) : Z * R * R :=
  let ix := Z.min (Z.max 0 (Ztrunc (gratio (x - min) dx))) (nx - 2) in
  let floor := min + IZR ix * dx in
  let w1 := gratio (x - floor) dx in
  (ix, 1 - w1, w1).

Record Axis := mkAxis { ax_min : R; ax_dx : R; ax_n : Z }.
Definition weights (a : Axis) (x : R) : Z * R * R := GetWeights x (ax_min a) (ax_dx a) (ax_n a).
(** Coordinates::GetXv (grid_utils.hpp:28-41) on a uniform grid *)
Definition node (a : Axis) (i : Z) : R := ax_min a + IZR i * ax_dx a.

Definition field := Z -> Z -> Z -> R.   (* p(b, v, k, j, i) for fixed b, v *)

(** :187-195 *)
Definition Do1D (a1 : Axis) (X1 : R) (p : field) : R :=
  let '(ix, w0, w1) := weights a1 X1 in
  w0 * p 0%Z 0%Z ix + w1 * p 0%Z 0%Z (ix + 1)%Z.
(** :166-179 *)
Definition Do2D (a1 a2 : Axis) (X1 X2 : R) (p : field) : R :=
  let '(ix1, w10, w11) := weights a1 X1 in
  let '(ix2, w20, w21) := weights a2 X2 in
  w20 * (w10 * p 0%Z ix2 ix1 + w11 * p 0%Z ix2 (ix1 + 1)%Z)
  + w21 * (w10 * p 0%Z (ix2 + 1)%Z ix1 + w11 * p 0%Z (ix2 + 1)%Z (ix1 + 1)%Z).
(** :140-158 *)
Definition Do3D (a1 a2 a3 : Axis) (X1 X2 X3 : R) (p : field) : R :=
  let '(ix1, w10, w11) := weights a1 X1 in
  let '(ix2, w20, w21) := weights a2 X2 in
  let '(ix3, w30, w31) := weights a3 X3 in
  w30 * (w20 * (w10 * p ix3 ix2 ix1 + w11 * p ix3 ix2 (ix1 + 1)%Z)
         + w21 * (w10 * p ix3 (ix2 + 1)%Z ix1 + w11 * p ix3 (ix2 + 1)%Z (ix1 + 1)%Z))
  + w31 * (w20 * (w10 * p (ix3 + 1)%Z ix2 ix1 + w11 * p (ix3 + 1)%Z ix2 (ix1 + 1)%Z)
           + w21 * (w10 * p (ix3 + 1)%Z (ix2 + 1)%Z ix1
                    + w11 * p (ix3 + 1)%Z (ix2 + 1)%Z (ix1 + 1)%Z)).
(** :210-220 Do: dispatch on the extents *)
Definition Do (a1 a2 a3 : Axis) (X1 X2 X3 : R) (p : field) : R :=
  if (1 <? ax_n a3)%Z then Do3D a1 a2 a3 X1 X2 X3 p
  else if (1 <? ax_n a2)%Z then Do2D a1 a2 X1 X2 p
  else Do1D a1 X1 p.

(** :60-78 PiecewiseConstant::GetIndicesAndWeights (ishift_ = round(shift), :42);
    returns (idx[0], wgt[0]) *)
Definition pc_indices (nSupport ishift i : Z) : Z * R :=
  let idx := (i + ishift)%Z in
  if (orb (idx <? 0) (nSupport <=? idx))%Z then (0%Z, 0) else (idx, 1).
