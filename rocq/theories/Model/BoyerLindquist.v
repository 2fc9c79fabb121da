(** Boyer-Lindquist coordinates (src/geometry/boyer_lindquist.hpp).  GradLnAlpha, which is
    a finite difference of Lapse, is not modelled. *)
From Coq Require Import Reals Arith.
From Verif.Model Require Import Num Robust LinearAlgebra Geometry.
From Verif.Spec Require Import Tensor.
Local Open Scope R_scope.

(** boyer_lindquist.hpp:257-276 ComputeDeltaMu_ *)
Definition bl_DD (a2_ r : R) : R := 1 - gratio 2 r + gratio a2_ (r * r).
Definition bl_mu (a2_ r cth : R) : R := 1 + gratio (a2_ * cth * cth) (r * r).

(** boyer_lindquist.hpp:47-61 *)
Definition BL_Lapse (a_ : R) (X : point) : R :=
  let a2_ := a_ * a_ in
  let r := Rabs X.[1] in let sth := sin X.[2] in let cth := cos X.[2] in
  let r2 := r * r in let r3 := r2 * r in
  let DD := bl_DD a2_ r in let mu := bl_mu a2_ r cth in
  let rm2 := r * mu - 2 in
  let num := a2_ * (2 * r * mu - 4) + r2 * (-4 + r * mu * (2 - 2 * DD + r * DD * mu))
             + 4 * a2_ * sth * sth in
  let den := r3 * DD * mu * rm2 in
  sqrt (gratio num den).

(** boyer_lindquist.hpp:62-73 *)
Definition BL_ContravariantShift (a_ : R) (X : point) : vec :=
  let a2_ := a_ * a_ in
  let r := Rabs X.[1] in let sth := sin X.[2] in let cth := cos X.[2] in
  let num := -2 * a_ * r * sth * sth in
  let den := (r - 2) * r + a2_ * cth * cth in
  row3 0 0 (gratio num den).

(** boyer_lindquist.hpp:75-92 *)
Definition BL_SpacetimeMetric (a_ : R) (X : point) : mat :=
  let a2_ := a_ * a_ in
  let r := Rabs X.[1] in let sth := sin X.[2] in let cth := cos X.[2] in
  let r2 := r * r in let r3 := r2 * r in
  let DD := bl_DD a2_ r in let mu := bl_mu a2_ r cth in
  let sth2 := sth * sth in
  let g03 := - gratio (2 * a_ * sth2) (r * mu) in
  rows4 (row4 (- (1 - gratio 2 (r * mu))) 0 0 g03)
        (row4 0 (mu / DD) 0 0)
        (row4 0 0 (r2 * mu) 0)
        (row4 g03 0 0 (r2 * sth2 * (1 + gratio a2_ r2 + gratio (2 * a2_ * sth2) (r3 * mu)))).

(** boyer_lindquist.hpp:93-118 *)
Definition BL_SpacetimeMetricInverse (a_ : R) (X : point) : mat :=
  let a2_ := a_ * a_ in
  let r := Rabs X.[1] in let sth := sin X.[2] in let cth := cos X.[2] in
  let r2 := r * r in let r3 := r2 * r in
  let DD := bl_DD a2_ r in let mu := bl_mu a2_ r cth in
  let r3dm := r3 * DD * mu in let rm := r * mu in let rm2 := rm - 2 in
  let sth2 := sth * sth in
  let common_denom := 2 * a2_ * rm2 + r2 * (-4 + rm * (2 + DD * rm2)) + 4 * a2_ * sth2 in
  let g03 := - gratio (a_ * r3dm * sth2)
               (a2_ * rm2 + r2 * (-2 + rm * (1 - DD + / 2 * DD * rm)) + 2 * a2_ * sth2) in
  rows4 (row4 (gratio (- r3dm * rm2) common_denom) 0 0 g03)
        (row4 0 (gratio mu DD) 0 0)
        (row4 0 0 (r2 * mu) 0)
        (row4 g03 0 0 (gratio (r3dm * (2 * a2_ + r2 * (2 + DD * rm)) * sth2) common_denom)).

(** boyer_lindquist.hpp:119-132 *)
Definition BL_Metric (a_ : R) (X : point) : mat :=
  let a2_ := a_ * a_ in
  let r := Rabs X.[1] in let sth := sin X.[2] in let cth := cos X.[2] in
  let r2 := r * r in let r3 := r2 * r in
  let DD := bl_DD a2_ r in let mu := bl_mu a2_ r cth in
  let r3dm := r3 * DD * mu in
  rows3 (row3 (gratio DD mu) 0 0)
        (row3 0 (gratio 1 (r2 * mu)) 0)
        (row3 0 0 (gratio ((r * mu - 2) * sth * sth) r3dm)).

(** boyer_lindquist.hpp:184-236 MetricDerivative *)
Definition BL_MetricDerivative (a_ : R) (X : point) : nat -> nat -> nat -> R :=
  let a2_ := a_ * a_ in
  let r := Rabs X.[1] in let th := X.[2] in let sth := sin th in let cth := cos th in
  let r2 := r * r in let r3 := r2 * r in
  let c2th := cos (2 * th) in let s2th := sin (2 * th) in
  let cth2 := cth * cth in let cth4 := cth2 * cth2 in let sth2 := sth * sth in
  let a3 := a2_ * a_ in let a4 := a3 * a_ in let a6 := a4 * a2_ in let r6 := r3 * r3 in
  let rm2 := r - 2 in let r3m4 := 3 * r - 4 in
  let common_denom := r2 + a2_ * cth2 in
  let denom1 := common_denom * common_denom in
  let denom2' := (a2_ + r * (r - 2)) * common_denom in
  let denom2 := denom2' * denom2' in
  let d001 := gratio (- a6 + 2 * r6 + a2_ * r3 * r3m4 + a2_ * (- a4 - 2 * a2_ * r2 + (4 - r) * r3) * c2th) denom2 in
  let d031 := 2 * a_ * gratio (r2 * (a2_ + r * r3m4) + a2_ * (r - a_) * (r + a_) * cth2) denom2 in
  let d111 := 2 * gratio (r * (r - a2_) + a2_ * (r - 1) * cth2) denom1 in
  let d221 := - gratio (2 * r) denom1 in
  let d331 := gratio (2 * r2 * (a2_ - rm2 * rm2 * r) - 2 * a2_ * (a2_ + r2 * (2 * r - 3)) * cth2
                      - 2 * a4 * (r - 1) * cth4) (denom2 * sth2) in
  let d002 := - gratio (4 * a2_ * r * (a2_ + r2) * cth * sth) denom2 in
  let d032 := - gratio (4 * a3 * r * cth * sth) denom2 in
  let d112 := gratio (a2_ * (a2_ + r * (r - 2)) * s2th) denom1 in
  let d222 := gratio (a2_ * s2th) denom1 in
  let a2pr2 := a2_ + r2 in
  let num := - a2pr2 * cth * (3 * a4 + 8 * a2_ * r2 + 8 * rm2 * r3
               + 4 * a2_ * (a2_ + 2 * rm2 * r) * c2th + a4 * cos (4 * th)) * sth in
  let den0 := (a2_ + 2 * r2 + a2_ * c2th) * sth2 in
  let den := den0 * den0 * ((a2_ + rm2 * r) * a2pr2) in
  let d332 := gratio num den in
  fun mu nu s => match s with
    | 1%nat => rows4 (row4 d001 0 0 d031) (row4 0 d111 0 0) (row4 0 0 d221 0) (row4 d031 0 0 d331) mu nu
    | 2%nat => rows4 (row4 d002 0 0 d032) (row4 0 d112 0 0) (row4 0 0 d222 0) (row4 d032 0 0 d332) mu nu
    | _ => 0
    end.

(** mckinney_gammie_ryan.hpp:117-132 bl_to_ks, the matrix dX_KS/dX_BL *)
Definition bl_to_ks_trans (a r : R) : mat :=
  let idenom := 1 / (r * r - 2 * r + a * a) in
  rows4 (row4 1 (2 * r * idenom) 0 0)
        (row4 0 1 0 0)
        (row4 0 0 1 0)
        (row4 0 (a * idenom) 0 1).
Definition bl_to_ks (a r : R) (ucon_bl : vec) : vec :=
  fun mu => sum4 (fun nu => bl_to_ks_trans a r mu nu * ucon_bl nu).
