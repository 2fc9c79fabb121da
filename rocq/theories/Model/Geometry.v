(** Analytic coordinate systems (src/geometry/*.hpp), over the reals.

    Every system answers the same queries at a coordinate point X = (X0,X1,X2,X3);
    the class interface is duck-typed in C++ and a record here.  Arrays g[4][4],
    beta[3], dg[4][4][4] are functions of natural-number indices; the assignments
    of one routine are listed in the order of the code.

    Simplification: arithmetic is exact.  [gratio] below is robust::ratio with
    its guard active only at a zero denominator, which is how the C++ function
    behaves in binary64 whenever the denominator is zero or at least 2^-960 in
    magnitude (theorem C01_ratio_exact_b64); the R-level perturbation by SMALL of
    Model/Robust.v is not carried into the geometry. *)
From Coq Require Import Reals Arith.
From Flocq Require Import Core.
From Verif.Model Require Import Num Robust LinearAlgebra.
From Verif.Spec Require Import Tensor.
Local Open Scope R_scope.

(** robust.hpp:36-40 ratio (see above) *)
Definition gratio (a b : R) : R := if Req_bool b 0 then a / (SMALL : R) else a / b.

Definition point := vec.
Definition tensor3 := nat -> nat -> nat -> R.

(** the interface shared by all systems, analytic_system.hpp:40-330 forwards to it *)
Record System := mkSystem {
  Lapse : point -> R;
  ContravariantShift : point -> vec;
  SpacetimeMetric : point -> mat;
  SpacetimeMetricInverse : point -> mat;
  Metric : point -> mat;
  MetricInverse : point -> mat;
  DetGamma : point -> R;
  DetG : point -> R;
  ConnectionCoefficient : point -> tensor3;
  MetricDerivative : point -> tensor3;
  GradLnAlpha : point -> vec;
  Coords : point -> vec
}.

(** geometry_utils.hpp:75-81 *)
Definition SetConnectionCoeffFromMetricDerivs (dg : tensor3) : tensor3 :=
  fun a b c => / 2 * (dg b a c + dg c a b - dg b c a).

Definition zero4 : vec := fun _ => 0.

(** minkowski.hpp:35-121 *)
Definition Minkowski : System := {|
  Lapse := fun X => 1;
  ContravariantShift := fun X i => 0;
  SpacetimeMetric := fun X mu nu =>
    if Nat.eqb mu nu then (if Nat.eqb mu 0 then -1 else 1) else 0;
  SpacetimeMetricInverse := fun X mu nu =>
    if Nat.eqb mu nu then (if Nat.eqb mu 0 then -1 else 1) else 0;
  Metric := fun X i j => if Nat.eqb i j then 1 else 0;
  MetricInverse := fun X i j => if Nat.eqb i j then 1 else 0;
  DetGamma := fun X => 1;
  DetG := fun X => 1;
  ConnectionCoefficient := fun X a b c => 0;
  MetricDerivative := fun X a b c => 0;
  GradLnAlpha := fun X mu => 0;
  Coords := fun X => row4 X.[0] X.[1] X.[2] X.[3]
|}.

(** boosted_minkowski.hpp:42-117 *)
Definition BoostedMinkowski (vx vy vz : R) : System := {|
  Lapse := fun X => 1;
  ContravariantShift := fun X => row3 vx vy vz;
  SpacetimeMetric := fun X => rows4
    (row4 (-1 + vx * vx + vy * vy + vz * vz) vx vy vz)
    (row4 vx 1 0 0)
    (row4 vy 0 1 0)
    (row4 vz 0 0 1);
  SpacetimeMetricInverse := fun X => rows4
    (row4 (-1) vx vy vz)
    (row4 vx (1 - vx * vx) (- vx * vy) (- vx * vz))
    (row4 vy (- vx * vy) (1 - vy * vy) (- vy * vz))
    (row4 vz (- vx * vz) (- vy * vz) (1 - vz * vz));
  Metric := fun X => rows3 (row3 1 0 0) (row3 0 1 0) (row3 0 0 1);
  MetricInverse := fun X => rows3 (row3 1 0 0) (row3 0 1 0) (row3 0 0 1);
  DetGamma := fun X => 1;
  DetG := fun X => 1;
  ConnectionCoefficient := fun X a b c => 0;
  MetricDerivative := fun X a b c => 0;
  GradLnAlpha := fun X mu => 0;
  Coords := fun X => row4 X.[0] (X.[1] + vx * X.[0]) (X.[2] + vy * X.[0]) (X.[3] + vz * X.[0])
|}.

(** spherical_minkowski.hpp:104-114 *)
Definition SphMink_MetricDerivative (X : point) : tensor3 :=
  let r := Rabs X.[1] in let sth := sin X.[2] in let s2th := sin (2 * X.[2]) in
  fun mu nu sig => match mu, nu, sig with
  | 2%nat, 2%nat, 1%nat => 2 * r
  | 3%nat, 3%nat, 1%nat => 2 * r * sth * sth
  | 3%nat, 3%nat, 2%nat => r * r * s2th
  | _, _, _ => 0
  end.

(** spherical_minkowski.hpp:120-132, spherical coordinates to Cartesian *)
Definition sph_Coords (X : point) : vec :=
  let r := Rabs X.[1] in
  let sth := sin X.[2] in let cth := cos X.[2] in
  let sph := sin X.[3] in let cph := cos X.[3] in
  row4 X.[0] (r * sth * cph) (r * sth * sph) (r * cth).

(** spherical_minkowski.hpp:36-133 *)
Definition SphericalMinkowski : System := {|
  Lapse := fun X => 1;
  ContravariantShift := fun X i => 0;
  SpacetimeMetric := fun X =>
    let r2 := X.[1] * X.[1] in let sth := sin X.[2] in let sth2 := sth * sth in
    rows4 (row4 (-1) 0 0 0) (row4 0 1 0 0) (row4 0 0 r2 0) (row4 0 0 0 (r2 * sth2));
  SpacetimeMetricInverse := fun X =>
    let sth := sin X.[2] in
    rows4 (row4 (-1) 0 0 0) (row4 0 1 0 0) (row4 0 0 (gratio 1 (X.[1] * X.[1])) 0)
      (row4 0 0 0 (gratio 1 (X.[1] * X.[1] * sth * sth)));
  Metric := fun X =>
    let g22 := X.[1] * sin X.[2] in
    rows3 (row3 1 0 0) (row3 0 (X.[1] * X.[1]) 0) (row3 0 0 (g22 * g22));
  MetricInverse := fun X =>
    let sth := sin X.[2] in
    rows3 (row3 1 0 0) (row3 0 (gratio 1 (X.[1] * X.[1])) 0)
      (row3 0 0 (gratio 1 (X.[1] * X.[1] * sth * sth)));
  DetGamma := fun X => X.[1] * X.[1] * Rabs (sin X.[2]);
  DetG := fun X => X.[1] * X.[1] * Rabs (sin X.[2]);
  ConnectionCoefficient := fun X => SetConnectionCoeffFromMetricDerivs (SphMink_MetricDerivative X);
  MetricDerivative := SphMink_MetricDerivative;
  GradLnAlpha := fun X mu => 0;
  Coords := sph_Coords
|}.

(** flrw.hpp:41-128; a_(t) is the scale factor *)
Definition flrw_a (a0 dadt t : R) : R := a0 + dadt * t.

Definition FLRW (a0 dadt : R) : System := {|
  Lapse := fun X => 1;
  ContravariantShift := fun X => row3 0 0 0;
  SpacetimeMetric := fun X =>
    let a := flrw_a a0 dadt X.[0] in
    rows4 (row4 (-1) 0 0 0) (row4 0 (a * a) 0 0) (row4 0 0 (a * a) 0) (row4 0 0 0 (a * a));
  SpacetimeMetricInverse := fun X =>
    let a := flrw_a a0 dadt X.[0] in
    rows4 (row4 (-1) 0 0 0) (row4 0 (gratio 1 (a * a)) 0 0) (row4 0 0 (gratio 1 (a * a)) 0)
      (row4 0 0 0 (gratio 1 (a * a)));
  Metric := fun X =>
    let a := flrw_a a0 dadt X.[0] in
    rows3 (row3 (a * a) 0 0) (row3 0 (a * a) 0) (row3 0 0 (a * a));
  MetricInverse := fun X =>
    let a := flrw_a a0 dadt X.[0] in
    rows3 (row3 (gratio 1 (a * a)) 0 0) (row3 0 (gratio 1 (a * a)) 0) (row3 0 0 (gratio 1 (a * a)));
  DetGamma := fun X => let a := flrw_a a0 dadt X.[0] in a * a * a;
  DetG := fun X => let a := flrw_a a0 dadt X.[0] in a * a * a;
  ConnectionCoefficient := fun X =>
    let a := flrw_a a0 dadt X.[0] in let aadot := a * dadt in
    fun mu nu sig => match mu, nu, sig with
    | 0%nat, 1%nat, 1%nat | 0%nat, 2%nat, 2%nat | 0%nat, 3%nat, 3%nat => - aadot
    | 1%nat, 0%nat, 1%nat | 1%nat, 1%nat, 0%nat => aadot
    | 2%nat, 0%nat, 2%nat | 2%nat, 2%nat, 0%nat => aadot
    | 3%nat, 0%nat, 3%nat | 3%nat, 3%nat, 0%nat => aadot
    | _, _, _ => 0
    end;
  MetricDerivative := fun X =>
    let a := flrw_a a0 dadt X.[0] in
    fun mu nu sig => match mu, nu, sig with
    | 1%nat, 1%nat, 0%nat | 2%nat, 2%nat, 0%nat | 3%nat, 3%nat, 0%nat => 2 * a * dadt
    | _, _, _ => 0
    end;
  GradLnAlpha := fun X mu => 0;
  Coords := fun X => row4 X.[0] X.[1] X.[2] X.[3]
|}.

(** snake.hpp:153 and inchworm.hpp:158 GetDelta *)
Definition GetDelta (a k X1 : R) : R := a * k * cos (k * X1).

(** snake.hpp:35-154 *)
Definition Snake (a k alpha vy : R) : System := {|
  Lapse := fun X => alpha;
  ContravariantShift := fun X => row3 0 vy 0;
  SpacetimeMetric := fun X =>
    let d := GetDelta a k X.[1] in
    rows4 (row4 ((vy - alpha) * (vy + alpha)) (- d * vy) vy 0)
          (row4 (- d * vy) (1 + d * d) (- d) 0)
          (row4 vy (- d) 1 0)
          (row4 0 0 0 1);
  SpacetimeMetricInverse := fun X =>
    let d := GetDelta a k X.[1] in
    let alpha2 := alpha * alpha in let ialpha2 := 1 / alpha2 in
    rows4 (row4 (- ialpha2) 0 (vy * ialpha2) 0)
          (row4 0 1 d 0)
          (row4 (vy * ialpha2) d (1 - vy * vy * ialpha2 + d * d) 0)
          (row4 0 0 0 1);
  Metric := fun X =>
    let d := GetDelta a k X.[1] in
    rows3 (row3 (d * d + 1) (- d) 0) (row3 (- d) 1 0) (row3 0 0 1);
  MetricInverse := fun X =>
    let d := GetDelta a k X.[1] in
    rows3 (row3 1 d 0) (row3 d (d * d + 1) 0) (row3 0 0 1);
  DetGamma := fun X => 1;
  DetG := fun X => alpha;
  ConnectionCoefficient := fun X =>
    let a2 := a * a in let k2 := k * k in let k3 := k * k * k in
    fun mu nu sig => match mu, nu, sig with
    | 0%nat, 1%nat, 1%nat => a * k2 * vy * sin (k * X.[1])
    | 1%nat, 1%nat, 1%nat => - a2 * k3 * sin (2 * k * X.[1]) / 2
    | 2%nat, 1%nat, 1%nat => a * k2 * sin (k * X.[1])
    | _, _, _ => 0
    end;
  MetricDerivative := fun X =>
    let a2 := a * a in let k2 := k * k in let k3 := k * k * k in
    fun mu nu sig => match mu, nu, sig with
    | 0%nat, 1%nat, 1%nat | 1%nat, 0%nat, 1%nat => a * k2 * vy * sin (k * X.[1])
    | 1%nat, 1%nat, 1%nat => - a2 * k3 * sin (2 * k * X.[1])
    | 2%nat, 1%nat, 1%nat | 1%nat, 2%nat, 1%nat => a * k2 * sin (k * X.[1])
    | _, _, _ => 0
    end;
  GradLnAlpha := fun X mu => 0;
  Coords := fun X => row4 X.[0] X.[1] X.[2] X.[3]
|}.

(** inchworm.hpp:35-160; pow(d - 1, -2) is the inverse square *)
Definition Inchworm (a k : R) : System := {|
  Lapse := fun X => 1;
  ContravariantShift := fun X i => 0;
  SpacetimeMetric := fun X =>
    let d := GetDelta a k X.[1] in
    rows4 (row4 (-1) 0 0 0) (row4 0 ((d - 1) ^ 2) 0 0) (row4 0 0 1 0) (row4 0 0 0 1);
  SpacetimeMetricInverse := fun X =>
    let d := GetDelta a k X.[1] in
    rows4 (row4 (-1) 0 0 0) (row4 0 (/ (d - 1) ^ 2) 0 0) (row4 0 0 1 0) (row4 0 0 0 1);
  Metric := fun X =>
    let d := GetDelta a k X.[1] in
    rows3 (row3 ((d - 1) ^ 2) 0 0) (row3 0 1 0) (row3 0 0 1);
  MetricInverse := fun X =>
    let d := GetDelta a k X.[1] in
    rows3 (row3 (/ (d - 1) ^ 2) 0 0) (row3 0 1 0) (row3 0 0 1);
  DetGamma := fun X => let d := GetDelta a k X.[1] in sqrt (d ^ 2 - 2 * d + 1);
  DetG := fun X => let d := GetDelta a k X.[1] in sqrt (d ^ 2 - 2 * d + 1);
  ConnectionCoefficient := fun X =>
    let d := GetDelta a k X.[1] in let k2 := k * k in
    fun mu nu sig => match mu, nu, sig with
    | 1%nat, 1%nat, 1%nat => a * k2 * (- d + 1) * sin (k * X.[1])
    | _, _, _ => 0
    end;
  MetricDerivative := fun X =>
    let d := GetDelta a k X.[1] in let k2 := k * k in
    fun mu nu sig => match mu, nu, sig with
    | 1%nat, 1%nat, 1%nat => 2 * a * k2 * (- d + 1) * sin (k * X.[1])
    | _, _, _ => 0
    end;
  GradLnAlpha := fun X mu => 0;
  Coords := fun X => row4 X.[0] X.[1] X.[2] X.[3]
|}.

(** spherical_kerr_schild.hpp:229-233 rho2_ *)
Definition sks_rho2 (a2 r cth : R) : R := r * r + a2 * cth * cth.

(** spherical_kerr_schild.hpp:146-191 *)
Definition SKS_MetricDerivative (a_ : R) (X : point) : tensor3 :=
  let a2_ := a_ * a_ in
  let r := Rabs X.[1] in let th := X.[2] in
  let cth := cos th in let sth := sin th in
  let sth2 := sth * sth in let rho2 := sks_rho2 a2_ r cth in
  let r2 := r * r in let r3 := r2 * r in let r4 := r2 * r2 in let r5 := r4 * r in
  let a4 := a2_ * a2_ in let rho4 := rho2 * rho2 in let cth2 := cth * cth in
  let s2th := sin (2 * th) in let c2th := cos (2 * th) in
  let dg001 := 2 * gratio (rho2 - 2 * r2) rho4 in
  let dg031 := gratio (2 * a_ * (r2 - a2_ * cth2) * sth2) rho4 in
  let dg002 := gratio (4 * r * (rho2 - r2) * sth) (rho4 * cth) in
  fun mu nu sig => match mu, nu, sig with
  | 0%nat, 0%nat, 1%nat => dg001
  | 0%nat, 1%nat, 1%nat | 1%nat, 0%nat, 1%nat => dg001
  | 0%nat, 3%nat, 1%nat | 3%nat, 0%nat, 1%nat => dg031
  | 1%nat, 1%nat, 1%nat => dg001
  | 1%nat, 3%nat, 1%nat | 3%nat, 1%nat, 1%nat => dg031
  | 2%nat, 2%nat, 1%nat => 2 * r
  | 3%nat, 3%nat, 1%nat =>
      gratio (2 * sth2 * (r5 + a4 * r * cth2 * cth2 - a2_ * r2 * sth2
                          + cth2 * (2 * a2_ * r3 + a4 * sth2))) rho4
  | 0%nat, 0%nat, 2%nat => dg002
  | 0%nat, 1%nat, 2%nat | 1%nat, 0%nat, 2%nat => dg002
  | 0%nat, 3%nat, 2%nat | 3%nat, 0%nat, 2%nat => - gratio (2 * a_ * r * (a2_ + r2) * s2th) rho4
  | 1%nat, 1%nat, 2%nat => dg002
  | 1%nat, 3%nat, 2%nat | 3%nat, 1%nat, 2%nat =>
      - gratio (2 * a_ * cth * (r3 * (2 + r) + a4 * cth2 * cth2
                                + a2_ * r * (2 + r + r * c2th)) * sth) rho4
  | 2%nat, 2%nat, 2%nat => - a2_ * s2th
  | 3%nat, 3%nat, 2%nat =>
      (a2_ + r * (r - 2) + gratio (2 * r * (a2_ + r2) * (a2_ + r2)) rho4) * s2th
  | _, _, _ => 0
  end.

(** spherical_kerr_schild.hpp:42-238; the loop at 140-143 fills Gamma[c][b][a] *)
Definition SphericalKerrSchild (a_ : R) : System :=
  let a2_ := a_ * a_ in {|
  Lapse := fun X =>
    let r := Rabs X.[1] in let rho2 := sks_rho2 a2_ r (cos X.[2]) in
    sqrt (gratio rho2 (2 * r + rho2));
  ContravariantShift := fun X =>
    let r := Rabs X.[1] in let rho2 := sks_rho2 a2_ r (cos X.[2]) in
    row3 (gratio (2 * r) (2 * r + rho2)) 0 0;
  SpacetimeMetric := fun X =>
    let r := Rabs X.[1] in let sth := sin X.[2] in let sth2 := sth * sth in
    let rho2 := sks_rho2 a2_ r (cos X.[2]) in
    let g01 := gratio (2 * r) rho2 in
    let g03 := - gratio (2 * a_ * r * sth2) rho2 in
    let g13 := - a_ * (1 + g01) * sth2 in
    rows4 (row4 (-1 + g01) g01 0 g03)
          (row4 g01 (1 + g01) 0 g13)
          (row4 0 0 rho2 0)
          (row4 g03 g13 0 ((rho2 + a2_ * (1 + g01) * sth2) * sth2));
  SpacetimeMetricInverse := fun X =>
    let r := Rabs X.[1] in let sth := sin X.[2] in let sth2 := sth * sth in
    let rho2 := sks_rho2 a2_ r (cos X.[2]) in
    let g01 := gratio (2 * r) rho2 in
    let g13 := gratio a_ rho2 in
    rows4 (row4 (-1 - g01) g01 0 0)
          (row4 g01 (gratio (-2 * r + rho2 + a2_ * sth2) rho2) 0 g13)
          (row4 0 0 (gratio 1 rho2) 0)
          (row4 0 g13 0 (gratio 1 (rho2 * sth2)));
  Metric := fun X =>
    let r := Rabs X.[1] in let sth := sin X.[2] in let sth2 := sth * sth in
    let rho2 := sks_rho2 a2_ r (cos X.[2]) in
    let br := gratio (2 * r) rho2 in
    let g02 := - a_ * (1 + br) * sth2 in
    rows3 (row3 (1 + br) 0 g02)
          (row3 0 rho2 0)
          (row3 g02 0 ((rho2 + a2_ * (1 + br) * sth2) * sth2));
  MetricInverse := fun X =>
    let r := Rabs X.[1] in let sth := sin X.[2] in let sth2 := sth * sth in
    let rho2 := sks_rho2 a2_ r (cos X.[2]) in
    let g02 := gratio a_ rho2 in
    rows3 (row3 (gratio rho2 (2 * r + rho2) + gratio (a2_ * sth2) rho2) 0 g02)
          (row3 0 (gratio 1 rho2) 0)
          (row3 g02 0 (gratio 1 (rho2 * sth2)));
  DetGamma := fun X =>
    let r := Rabs X.[1] in let sth := sin X.[2] in let sth2 := sth * sth in
    let rho2 := sks_rho2 a2_ r (cos X.[2]) in
    sqrt (Rabs (rho2 * (2 * r + rho2) * sth2));
  DetG := fun X =>
    let r := Rabs X.[1] in let sth := sin X.[2] in let sth2 := sth * sth in
    let rho2 := sks_rho2 a2_ r (cos X.[2]) in
    sqrt (Rabs (rho2 * rho2 * sth2));
  ConnectionCoefficient := fun X =>
    let dg := SKS_MetricDerivative a_ X in
    fun c b a => / 2 * (dg c a b + dg c b a - dg a b c);
  MetricDerivative := SKS_MetricDerivative a_;
  GradLnAlpha := fun X =>
    let r := Rabs X.[1] in let sth := sin X.[2] in let cth := cos X.[2] in
    let rho2 := sks_rho2 a2_ r cth in let rho4 := rho2 * rho2 in
    row4 0 (gratio r rho2 - gratio (1 + r) (2 * r + rho2))
         (- gratio (2 * a2_ * r * cth * sth) (2 * r * rho2 + rho4)) 0;
  Coords := fun X =>
    let r := Rabs X.[1] in
    let sth := sin X.[2] in let cth := cos X.[2] in
    let sph := sin X.[3] in let cph := cos X.[3] in
    let r2a2 := sqrt (r * r + a2_) in
    row4 X.[0] (r2a2 * sth * cph) (r2a2 * sth * sph) (r * cth)
|}.

(** monopole.hpp:45-228.  The interpolated profiles MonopoleGR::Interpolate(r, .., rgrid)
    (monopole_gr_utils.hpp, modelled in Model/MonopoleGR.v) are arbitrary functions here:
    at a fixed time the tables are fixed, and the time dependence of the tables is
    made explicit by letting each profile depend on X0 as well. *)
Record MonopoleProfiles := {
  mp_alpha : R -> R -> R;      (* time, radius *)
  mp_beta : R -> R -> R;
  mp_a : R -> R -> R;
  mp_dadr : R -> R -> R;
  mp_dalphadr : R -> R -> R;
  mp_dbetadr : R -> R -> R;
  mp_dadt : R -> R -> R;
  mp_dalphadt : R -> R -> R;
  mp_dbetadt : R -> R -> R
}.

(** monopole.hpp:156-195 *)
Definition Mono_MetricDerivative (P : MonopoleProfiles) (X : point) : tensor3 :=
  let r := Rabs X.[1] in let th := X.[2] in let sth := sin th in
  let alpha := mp_alpha P X.[0] r in let beta := mp_beta P X.[0] r in let a := mp_a P X.[0] r in
  let dadr := mp_dadr P X.[0] r in let dalphadr := mp_dalphadr P X.[0] r in
  let dbetadr := mp_dbetadr P X.[0] r in let dadt := mp_dadt P X.[0] r in
  let dalphadt := mp_dalphadt P X.[0] r in let dbetadt := mp_dbetadt P X.[0] r in
  fun mu nu sig => match mu, nu, sig with
  | 0%nat, 0%nat, 0%nat =>
      2 * a * beta * beta * dadt - 2 * alpha * dalphadt + 2 * a * a * beta * dbetadt
  | 1%nat, 0%nat, 0%nat | 0%nat, 1%nat, 0%nat => 2 * a * beta * dadt + a * a * dbetadt
  | 1%nat, 1%nat, 0%nat => 2 * a * dadt
  | 0%nat, 0%nat, 1%nat => - 2 * alpha * dalphadr + 2 * a * beta * (beta * dadr + a * dbetadr)
  | 1%nat, 0%nat, 1%nat | 0%nat, 1%nat, 1%nat => a * (2 * beta * dadr + a * dbetadr)
  | 1%nat, 1%nat, 1%nat => 2 * a * dadr
  | 2%nat, 2%nat, 1%nat => 2 * r
  | 3%nat, 3%nat, 1%nat => 2 * r * sth * sth
  | 3%nat, 3%nat, 2%nat => r * r * sin (2 * th)
  | _, _, _ => 0
  end.

Definition MonopoleSph (P : MonopoleProfiles) : System := {|
  Lapse := fun X => mp_alpha P X.[0] (Rabs X.[1]);
  ContravariantShift := fun X => row3 (mp_beta P X.[0] (Rabs X.[1])) 0 0;
  SpacetimeMetric := fun X =>
    let r := Rabs X.[1] in let r2 := r * r in let sth := sin X.[2] in
    let alpha := mp_alpha P X.[0] r in let beta := mp_beta P X.[0] r in
    let a := mp_a P X.[0] r in let a2 := a * a in
    rows4 (row4 (- alpha * alpha + a2 * beta * beta) (a2 * beta) 0 0)
          (row4 (a2 * beta) a2 0 0)
          (row4 0 0 r2 0)
          (row4 0 0 0 (r2 * sth * sth));
  SpacetimeMetricInverse := fun X =>
    let r := Rabs X.[1] in let ir2 := gratio 1 (r * r) in let sth := sin X.[2] in
    let alpha := mp_alpha P X.[0] r in let ialpha2 := gratio 1 (alpha * alpha) in
    let beta := mp_beta P X.[0] r in let a := mp_a P X.[0] r in
    rows4 (row4 (- ialpha2) (beta * ialpha2) 0 0)
          (row4 (beta * ialpha2) (gratio 1 (a * a) - beta * beta * ialpha2) 0 0)
          (row4 0 0 ir2 0)
          (row4 0 0 0 (ir2 * gratio 1 (sth * sth)));
  Metric := fun X =>
    let r := Rabs X.[1] in let r2 := r * r in let sth := sin X.[2] in
    let a := mp_a P X.[0] r in
    rows3 (row3 (a * a) 0 0) (row3 0 r2 0) (row3 0 0 (r2 * sth * sth));
  MetricInverse := fun X =>
    let r := Rabs X.[1] in let ir2 := gratio 1 (r * r) in let sth := sin X.[2] in
    let a := mp_a P X.[0] r in
    rows3 (row3 (gratio 1 (a * a)) 0 0) (row3 0 ir2 0) (row3 0 0 (ir2 * gratio 1 (sth * sth)));
  DetGamma := fun X =>
    let r := Rabs X.[1] in let sth := sin X.[2] in mp_a P X.[0] r * r * r * Rabs sth;
  DetG := fun X =>
    let r := Rabs X.[1] in let sth := sin X.[2] in
    mp_alpha P X.[0] r * (mp_a P X.[0] r * r * r * Rabs sth);
  ConnectionCoefficient := fun X => SetConnectionCoeffFromMetricDerivs (Mono_MetricDerivative P X);
  MetricDerivative := Mono_MetricDerivative P;
  GradLnAlpha := fun X =>
    let r := Rabs X.[1] in
    row4 (mp_dalphadt P X.[0] r / mp_alpha P X.[0] r) (mp_dalphadr P X.[0] r / mp_alpha P X.[0] r) 0 0;
  Coords := sph_Coords
|}.
