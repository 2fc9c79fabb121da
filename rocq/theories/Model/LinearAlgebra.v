(** Model of src/phoebus_utils/linear_algebra.hpp over R.  C arrays are functions of
    the indices; std::fma(x,y,z) is x*y+z (class Num).  [T[n][m]] output arrays
    become returned functions. *)
From Coq Require Import Reals Arith ZArith.
From Verif.Model Require Import Num.
From Verif.Spec Require Import Tensor.
Local Open Scope R_scope.

(** linear_algebra.hpp:49-54 *)
Definition Determinant (A : mat) : R :=
  A.[0,0] * A.[1,1] * A.[2,2] + A.[0,1] * A.[1,2] * A.[2,0] + A.[0,2] * A.[1,0] * A.[2,1]
  - A.[0,2] * A.[1,1] * A.[2,0] - A.[0,1] * A.[1,0] * A.[2,2] - A.[0,0] * A.[1,2] * A.[2,1].

(** linear_algebra.hpp:59-65, generic in the number system *)
Definition DifferenceOfProducts {T} `{Num T} (a b c d : T) : T :=
  let cd := nmul c d in
  let err := nfma (nopp c) d cd in
  let dop := nfma a b (nopp cd) in
  nadd dop err.

(** linear_algebra.hpp:67-91; returns (Ainv, det) *)
Definition matrixInverse3x3 (A : mat) : mat * R :=
  let D (a b c d : R) := DifferenceOfProducts a b c d in
  let i00 := D (A.[1,1]) (A.[2,2]) (A.[1,2]) (A.[2,1]) in
  let i10 := - D (A.[1,0]) (A.[2,2]) (A.[1,2]) (A.[2,0]) in
  let i20 := D (A.[1,0]) (A.[2,1]) (A.[1,1]) (A.[2,0]) in
  let i01 := - D (A.[0,1]) (A.[2,2]) (A.[0,2]) (A.[2,1]) in
  let i11 := D (A.[0,0]) (A.[2,2]) (A.[0,2]) (A.[2,0]) in
  let i21 := - D (A.[0,0]) (A.[2,1]) (A.[0,1]) (A.[2,0]) in
  let i02 := D (A.[0,1]) (A.[1,2]) (A.[0,2]) (A.[1,1]) in
  let i12 := - D (A.[0,0]) (A.[1,2]) (A.[0,2]) (A.[1,0]) in
  let i22 := D (A.[0,0]) (A.[1,1]) (A.[0,1]) (A.[1,0]) in
  let det := nfma (A.[0,0]) i00 (D (A.[2,0]) i20 (A.[1,0]) (- i10)) in
  let invDet := 1 / det in
  (rows3 (row3 (i00 * invDet) (i01 * invDet) (i02 * invDet))
         (row3 (i10 * invDet) (i11 * invDet) (i12 * invDet))
         (row3 (i20 * invDet) (i21 * invDet) (i22 * invDet)), det).

(** linear_algebra.hpp:93-98; A[2][2], b[2] -> x[2] *)
Definition SolveAxb2x2 (A : mat) (b : vec) : vec :=
  let D (a b c d : R) := DifferenceOfProducts a b c d in
  let invDet := 1 / D (A.[0,0]) (A.[1,1]) (A.[0,1]) (A.[1,0]) in
  fun i => match i with
  | O => invDet * D (A.[1,1]) (b.[0]) (A.[0,1]) (b.[1])
  | _ => invDet * D (A.[0,0]) (b.[1]) (A.[1,0]) (b.[0])
  end.

(** linear_algebra.hpp:100-108; m is the flat array m[16] *)
Definition MINOR (m : nat -> R) (r0 r1 r2 c0 c1 c2 : nat) : R :=
  m (4 * r0 + c0)%nat *
    (m (4 * r1 + c1)%nat * m (4 * r2 + c2)%nat - m (4 * r2 + c1)%nat * m (4 * r1 + c2)%nat)
  - m (4 * r0 + c1)%nat *
    (m (4 * r1 + c0)%nat * m (4 * r2 + c2)%nat - m (4 * r2 + c0)%nat * m (4 * r1 + c2)%nat)
  + m (4 * r0 + c2)%nat *
    (m (4 * r1 + c0)%nat * m (4 * r2 + c1)%nat - m (4 * r2 + c0)%nat * m (4 * r1 + c1)%nat).

(** linear_algebra.hpp:110-131 *)
Definition adjoint (m : nat -> R) : nat -> R := fun k =>
  match k with
  | 0 => MINOR m 1 2 3 1 2 3 | 1 => - MINOR m 0 2 3 1 2 3
  | 2 => MINOR m 0 1 3 1 2 3 | 3 => - MINOR m 0 1 2 1 2 3
  | 4 => - MINOR m 1 2 3 0 2 3 | 5 => MINOR m 0 2 3 0 2 3
  | 6 => - MINOR m 0 1 3 0 2 3 | 7 => MINOR m 0 1 2 0 2 3
  | 8 => MINOR m 1 2 3 0 1 3 | 9 => - MINOR m 0 2 3 0 1 3
  | 10 => MINOR m 0 1 3 0 1 3 | 11 => - MINOR m 0 1 2 0 1 3
  | 12 => - MINOR m 1 2 3 0 1 2 | 13 => MINOR m 0 2 3 0 1 2
  | 14 => - MINOR m 0 1 3 0 1 2 | _ => MINOR m 0 1 2 0 1 2
  end%nat.

(** linear_algebra.hpp:133-137 *)
Definition determinant (m : nat -> R) : R :=
  m 0%nat * MINOR m 1 2 3 1 2 3 - m 1%nat * MINOR m 1 2 3 0 2 3
  + m 2%nat * MINOR m 1 2 3 0 1 3 - m 3%nat * MINOR m 1 2 3 0 1 2.

(** &(mat[0][0]) for Real mat[4][4]: row-major *)
Definition flatten (A : mat) : nat -> R := fun k => A (k / 4)%nat (k mod 4)%nat.

(** linear_algebra.hpp:139-149 *)
Definition matrixInverse4x4 (A : mat) : mat :=
  let adj := adjoint (flatten A) in
  let det := determinant (flatten A) in
  fun i j => adj (4 * i + j)%nat / det.
