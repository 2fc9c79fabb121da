(** Coordinate modifications: src/geometry/modified_system.hpp, mckinney_gammie_ryan.hpp,
    sph2cart.hpp, and the finite differences of geometry_utils.hpp.  Over the reals. *)
From Coq Require Import Reals Arith Bool.
From Flocq Require Import Core.
From Verif.Model Require Import Num Robust LinearAlgebra Geometry.
From Verif.Spec Require Import Tensor.
Local Open Scope R_scope.

(** GetTransformation_(X1, X2, X3, C, Jcov, Jcon), modified_system.hpp:38-47: the new
    coordinates X are mapped to the coordinates C of the underlying system;
    Jcov[i][j] = dC_i/dX_j, Jcon[i][j] = dX_i/dC_j *)
Record Transformation := mkTransformation {
  tr_C : R -> R -> R -> vec;
  tr_Jcov : R -> R -> R -> mat;
  tr_Jcon : R -> R -> R -> mat
}.

(** the point (X0, C[0], C[1], C[2]) passed to the underlying system *)
Definition mapped (T : Transformation) (X : point) : point :=
  let C := tr_C T X.[1] X.[2] X.[3] in row4 X.[0] C.[0] C.[1] C.[2].

(** modified_system.hpp:234-241 S2ST_ *)
Definition S2ST (A : mat) (mu nu : nat) : R :=
  if (Nat.eqb mu 0 || Nat.eqb nu 0)%bool then (if Nat.eqb mu nu then 1 else 0)
  else A (mu - 1)%nat (nu - 1)%nat.

(** geometry_utils.hpp:93,160  EPS = pow(epsilon, 1/3), epsilon = 2^-52 *)
Definition fd_EPS : R := Rpower (/ 2 ^ 52) (1 / 3).
(** geometry_utils.hpp:104,173  dx = max(|X|, 1) * EPS *)
Definition fd_dx (x : R) : R := Rmax (Rabs x) 1 * fd_EPS.

(** X with the d-th coordinate shifted by h *)
Definition shifted (X : point) (d : nat) (h : R) : point :=
  fun i => if Nat.eqb i d then X i + h else X i.

(** geometry_utils.hpp:156-194 SetMetricGradientByFD: d = 1..3 only, the time derivative
    stays zero *)
Definition SetMetricGradientByFD (g : point -> mat) (X : point) : tensor3 :=
  fun mu nu d =>
    if Nat.eqb d 0 then 0 else
    let dx := fd_dx (X d) in
    gratio (g (shifted X d dx) mu nu - g (shifted X d (- dx)) mu nu) (2 * dx).

(** geometry_utils.hpp:90-122 SetGradLnAlphaByFD *)
Definition SetGradLnAlphaByFD (lapse : point -> R) (X : point) : vec :=
  fun d =>
    if Nat.eqb d 0 then 0 else
    let dx := fd_dx (X d) in
    let alpham := lapse (shifted X d (- dx)) in
    let alphap := lapse (shifted X d dx) in
    gratio (alphap - alpham) (dx * (alpham + alphap)).

(** modified_system.hpp:52-246 *)
Section Modified.
  Variable s_ : System.
  Variable T : Transformation.
  Variable TIME_DEPENDENT : bool.

  Let Jcov (X : point) : mat := tr_Jcov T X.[1] X.[2] X.[3].
  Let Jcon (X : point) : mat := tr_Jcon T X.[1] X.[2] X.[3].

  (** :86-104 *)
  Definition mod_SpacetimeMetric (X : point) : mat :=
    let g0 := SpacetimeMetric s_ (mapped T X) in
    fun mu nu => sum4 (fun lam => sum4 (fun kap =>
      g0 lam kap * S2ST (Jcov X) lam mu * S2ST (Jcov X) kap nu)).
  (** :105-124 *)
  Definition mod_SpacetimeMetricInverse (X : point) : mat :=
    let g0 := SpacetimeMetricInverse s_ (mapped T X) in
    fun mu nu => sum4 (fun lam => sum4 (fun kap =>
      g0 lam kap * S2ST (Jcon X) mu lam * S2ST (Jcon X) nu kap)).
  (** :126-143 *)
  Definition mod_Metric (X : point) : mat :=
    let g0 := Metric s_ (mapped T X) in
    fun i j => sum3 (fun k => sum3 (fun l => g0 k l * Jcov X k i * Jcov X l j)).
  (** :144-161 *)
  Definition mod_MetricInverse (X : point) : mat :=
    let g0 := MetricInverse s_ (mapped T X) in
    fun i j => sum3 (fun k => sum3 (fun l => g0 k l * Jcon X i k * Jcon X j l)).
  (** :188-211; line 202 passes X1,X2,X3 (not C) and line 206 uses Jcon *)
  Definition mod_MetricDerivative (X : point) : tensor3 :=
    let dg := SetMetricGradientByFD mod_SpacetimeMetric X in
    if TIME_DEPENDENT then
      let dg0 := MetricDerivative s_ X in
      fun mu nu sig =>
        if Nat.eqb sig 0 then
          sum4 (fun lam => sum4 (fun kap =>
            dg0 lam kap 0%nat * S2ST (Jcon X) mu lam * S2ST (Jcon X) nu kap))
        else dg mu nu sig
    else dg.
  (** :65-71 *)
  Definition mod_Lapse (X : point) : R := Lapse s_ (mapped T X).

  Definition Modified : System := {|
    Lapse := mod_Lapse;
    (** :73-84 *)
    ContravariantShift := fun X =>
      let beta0 := ContravariantShift s_ (mapped T X) in
      fun i => sum3 (fun j => Jcon X i j * beta0 j);
    SpacetimeMetric := mod_SpacetimeMetric;
    SpacetimeMetricInverse := mod_SpacetimeMetricInverse;
    Metric := mod_Metric;
    MetricInverse := mod_MetricInverse;
    (** :163-172 *)
    DetGamma := fun X => Rabs (DetGamma s_ (mapped T X) * Determinant (Jcov X));
    (** :173-181 *)
    DetG := fun X => Rabs (DetG s_ (mapped T X) * Determinant (Jcov X));
    (** :183-187 *)
    ConnectionCoefficient := fun X => SetConnectionCoeffFromMetricDerivs (mod_MetricDerivative X);
    MetricDerivative := mod_MetricDerivative;
    (** :212-226; line 222 passes X1,X2,X3 (not C) *)
    GradLnAlpha := fun X =>
      let da := SetGradLnAlphaByFD mod_Lapse X in
      if TIME_DEPENDENT then
        fun d => if Nat.eqb d 0 then GradLnAlpha s_ X 0%nat else da d
      else da;
    (** :228-234 *)
    Coords := fun X => Coords s_ (mapped T X)
  |}.
End Modified.

(** ** McKinneyGammieRyan.  The exponents alpha_ and hexp_nsq_ are natural numbers here
    (14 and 4 by default; std::pow of a negative base needs an integer exponent). *)
Record MGR := mkMGR {
  mgr_derefine_poles : bool;
  mgr_h : R; mgr_xt : R; mgr_alpha : nat; mgr_x0 : R; mgr_smooth : R;
  mgr_hexp_br : R; mgr_hexp_nsq : nat; mgr_hexp_csq : R
}.
(** mckinney_gammie_ryan.hpp:193-195 GetNorm_ *)
Definition mgr_norm (m : MGR) : R :=
  / 2 * PI * 1 / (1 + 1 / (INR (mgr_alpha m) + 1) * 1 / mgr_xt m ^ mgr_alpha m).
(** :152-155 r_ *)
Definition mgr_r (m : MGR) (X1 : R) : R :=
  let hexp_dr := X1 - mgr_hexp_br m in
  exp (X1 + (if Rlt_bool 0 hexp_dr then 1 else 0) * mgr_hexp_csq m * hexp_dr ^ mgr_hexp_nsq m).
(** :184-186 thG_ *)
Definition mgr_thG (m : MGR) (X2 : R) : R := PI * X2 + (1 - mgr_h m) / 2 * sin (2 * PI * X2).
(** :188-191 thJ_ *)
Definition mgr_y (X2 : R) : R := 2 * X2 - 1.
Definition mgr_thJ (m : MGR) (X2 : R) : R :=
  let y := mgr_y X2 in
  mgr_norm m * y * (1 + (y / mgr_xt m) ^ mgr_alpha m / (INR (mgr_alpha m) + 1)) + / 2 * PI.
(** :158-168 th_ before the pole fix *)
Definition mgr_th_raw (m : MGR) (X1 X2 : R) : R :=
  let thG := mgr_thG m X2 in
  if mgr_derefine_poles m then
    let fac := mgr_x0 m - X1 in
    thG + exp (mgr_smooth m * fac) * (mgr_thJ m X2 - thG)
  else thG.
(** :169-182 the pole fix *)
Definition SINGSMALL : R := / 10 ^ 20.
Definition mgr_fix (th : R) : R :=
  let th := if Rlt_bool (Rabs th) SINGSMALL
            then (if Rle_bool 0 th then SINGSMALL else if Rlt_bool th 0 then - SINGSMALL else th)
            else th in
  if Rlt_bool (Rabs (PI - th)) SINGSMALL
  then (if Rle_bool PI th then PI + SINGSMALL else if Rlt_bool th PI then PI - SINGSMALL else th)
  else th.
Definition mgr_th (m : MGR) (X1 X2 : R) : R := mgr_fix (mgr_th_raw m X1 X2).

(** :75-79 *)
Definition mgr_drdX1 (m : MGR) (X1 : R) : R :=
  let hexp_dr := X1 - mgr_hexp_br m in
  let on := if Rlt_bool 0 hexp_dr then 1 else 0 in
  exp (X1 + on * mgr_hexp_csq m * hexp_dr ^ mgr_hexp_nsq m)
  * (1 + on * mgr_hexp_csq m * INR (mgr_hexp_nsq m) * hexp_dr ^ (mgr_hexp_nsq m - 1)).
(** :80 *)
Definition mgr_dthGdX2 (m : MGR) (X2 : R) : R := PI + PI * (1 - mgr_h m) * cos (2 * PI * X2).
(** :82-94 *)
Definition mgr_dthdX1 (m : MGR) (X1 X2 : R) : R :=
  if mgr_derefine_poles m then
    let fac := mgr_x0 m - X1 in
    - mgr_smooth m * (mgr_thJ m X2 - mgr_thG m X2) * exp (mgr_smooth m * fac)
  else 0.
Definition mgr_dthdX2 (m : MGR) (X1 X2 : R) : R :=
  if mgr_derefine_poles m then
    let y := mgr_y X2 in
    let dydX2 := 2 in
    let dthJdy := mgr_norm m * (1 + (y / mgr_xt m) ^ mgr_alpha m) in
    let dthJdX2 := dthJdy * dydX2 in
    let fac := mgr_x0 m - X1 in
    mgr_dthGdX2 m X2 + exp (mgr_smooth m * fac) * (dthJdX2 - mgr_dthGdX2 m X2)
  else mgr_dthGdX2 m X2.

(** :63-108 operator() *)
Definition McKinneyGammieRyan (m : MGR) : Transformation := {|
  tr_C := fun X1 X2 X3 => row3 (mgr_r m X1) (mgr_th m X1 X2) X3;
  tr_Jcov := fun X1 X2 X3 =>
    rows3 (row3 (mgr_drdX1 m X1) 0 0)
          (row3 (mgr_dthdX1 m X1 X2) (mgr_dthdX2 m X1 X2) 0)
          (row3 0 0 1);
  tr_Jcon := fun X1 X2 X3 =>
    rows3 (row3 (gratio 1 (mgr_drdX1 m X1)) 0 0)
          (row3 (- gratio (mgr_dthdX1 m X1 X2) (mgr_drdX1 m X1 * mgr_dthdX2 m X1 X2))
                (gratio 1 (mgr_dthdX2 m X1 X2)) 0)
          (row3 0 0 1)
|}.

(** ** SphericalToCartesian.  The guards make_positive (maximum with 10 * 2^-52) are taken
    as the identity, which they are away from the origin and the polar axis. *)
(** C atan2 *)
Definition atan2 (y x : R) : R :=
  if Rlt_bool 0 x then atan (y / x)
  else if Rlt_bool x 0 then (if Rle_bool 0 y then atan (y / x) + PI else atan (y / x) - PI)
  else if Rlt_bool 0 y then PI / 2
  else if Rlt_bool y 0 then - PI / 2 else 0.

(** sph2cart.hpp:108-120 *)
Definition s2c_r (x y z : R) : R := sqrt (x * x + y * y + z * z).
Definition s2c_th (x y z : R) : R := acos (gratio z (s2c_r x y z)).
Definition s2c_ph (x y : R) : R := atan2 y x.

(** sph2cart.hpp:47-106 *)
Definition SphericalToCartesian : Transformation := {|
  tr_C := fun x y z => row3 (s2c_r x y z) (s2c_th x y z) (s2c_ph x y);
  tr_Jcov := fun x y z =>
    let r := s2c_r x y z in let th := s2c_th x y z in let ph := s2c_ph x y in
    let sth := sin th in let cth := cos th in let sph := sin ph in let cph := cos ph in
    rows3 (row3 (sth * cph) (sth * sph) cth)
          (row3 (gratio (cth * cph) r) (gratio (cth * sph) r) (- gratio sth r))
          (row3 (- gratio sph (r * sth)) (gratio cph (r * sth)) 0);
  tr_Jcon := fun x y z =>
    let r := s2c_r x y z in let th := s2c_th x y z in let ph := s2c_ph x y in
    let sth := sin th in let cth := cos th in let sph := sin ph in let cph := cos ph in
    rows3 (row3 (sth * cph) (r * cth * cph) (- r * sth * sph))
          (row3 (sth * sph) (r * cth * sph) (r * sth * cph))
          (row3 cth (- r * sth) 0)
|}.

(** sph2cart.hpp:122-131 GetCoordsAndDerivatives: (dr, dth, dph) of a Cartesian vector *)
Definition s2c_derivatives (x y z dx dy dz : R) : vec :=
  let r := s2c_r x y z in let th := s2c_th x y z in let ph := s2c_ph x y in
  let sth := sin th in let cth := cos th in let sph := sin ph in let cph := cos ph in
  row3 (dz * cth + sth * (dx * cph + dy * sph))
       (r * (- dz * sth + cth * (dx * cph + dy * sph)))
       (r * sth * (dy * cph - dx * sph)).
