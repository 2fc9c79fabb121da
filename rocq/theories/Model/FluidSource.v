(** Geometric source terms of the fluid: src/fluid/tmunu.hpp and
    src/fluid/fluid.cpp CalculateFluidSourceTerms, over the reals.  A coordinate system
    queried at a cell is Model/Geometry.v's System at the coordinates X of the cell centre. *)
From Coq Require Import Reals Arith.
From Verif.Model Require Import Num Robust Geometry Relativity.
From Verif.Spec Require Import Tensor.
Local Open Scope R_scope.

(** tmunu.hpp:97-126, GetTmunuTerms_: (u, b, bsq).  [bf] is the primitive magnetic field,
    zero when there is none (b_). *)
Definition GetTmunuTerms (S : System) (X : point) (vp bf : vec) : vec * vec * R :=
  let gammacov := Metric S X in
  let W := GetLorentzFactor vp gammacov in
  let Bdotv := sum3 (fun ii => sum3 (fun jj => bf ii * (vp jj / W) * gammacov ii jj)) in
  let Bsq := sum3 (fun ii => sum3 (fun jj => bf ii * bf jj * gammacov ii jj)) in
  let iW := gratio 1 W in
  let alpha := Lapse S X in
  let beta := ContravariantShift S X in
  let u0 := gratio W (Rabs alpha) in
  let b0 := u0 * Bdotv in
  let u : vec := fun l => match l with O => u0 | S l' => vp l' - u0 * beta l' end in
  let b : vec := fun l => match l with O => b0 | S l' => iW * (bf l' + alpha * b0 * u l) end in
  (u, b, Bsq * iW * iW + Bdotv * Bdotv).

(** tmunu.hpp:61-75, operator() *)
Definition StressEnergyTensorCon (S : System) (X : point) (rho uu P : R) (vp bf : vec) : mat :=
  let '(u, b, bsq) := GetTmunuTerms S X vp bf in
  let g := SpacetimeMetricInverse S X in
  let A := rho + uu + P + bsq in
  let B := P + / 2 * bsq in
  fun mu nu => A * u mu * u nu + B * g mu nu - b mu * b nu.

(** fluid.cpp:598-644, the body of the loop for one zone.  [valencia] is the compile-time
    switch USE_VALENCIA.  The diagnostics copies (645-651) are not modelled. *)
Definition source_momentum (S : System) (X : point) (Tmunu : mat) (l : nat) : R :=
  let gdet := DetG S X in
  let dg := MetricDerivative S X in
  let gam := SetConnectionCoeffFromMetricDerivs dg in
  gdet * sum4 (fun m => sum4 (fun n => Tmunu m n * (dg n (l + 1)%nat m - gam (l + 1)%nat n m))).
Definition source_energy (valencia : bool) (S : System) (X : point) (Tmunu : mat) : R :=
  let gdet := DetG S X in
  let dg := MetricDerivative S X in
  let gam := SetConnectionCoeffFromMetricDerivs dg in
  if valencia then
    let alpha := Lapse S X in
    let inv_alpha2 := gratio 1 (alpha * alpha) in
    let shift := ContravariantShift S X in
    let gcon0 : vec := fun r => match r with O => - inv_alpha2 | S r' => inv_alpha2 * shift r' end in
    let TGam := sum4 (fun m => sum4 (fun n => Tmunu m n * sum4 (fun r => gcon0 r * gam r m n))) in
    let da := GradLnAlpha S X in
    let Ta := sum4 (fun m => Tmunu m 0%nat * da m) in
    gdet * alpha * (Ta - TGam)
  else
    gdet * sum4 (fun mu => sum4 (fun nu => Tmunu mu nu * gam nu 0%nat mu)).
(** the zone's sources from its primitive state *)
Definition CalculateFluidSourceTerms (valencia : bool) (S : System) (X : point) (rho uu P : R) (vp bf : vec) : vec * R :=
  let T := StressEnergyTensorCon S X rho uu P vp bf in
  (fun l => source_momentum S X T l, source_energy valencia S X T).
