(** src/radiation/moments.cpp: transport of the radiation moments, over the reals.
    Eddington and M1 closures differ in how the pressure tensor follows from the comoving moments;
    here that is a parameter ([pi_of]: zero for ClosureEdd, GetConTilPiFromPrim for ClosureM1).
    The MOCMC branches (tensor read from arrays) are not modelled. *)
From Coq Require Import Reals List Bool.
From Flocq Require Import Core.
From Verif.Model Require Import Num Robust Geometry LinearAlgebra Relativity RadClosure FluidSource.
From Verif.Spec Require Import Tensor.
Import ListNotations.
Local Open Scope R_scope.

Definition PiOf := Closure -> R -> vec -> mat.
Definition pi_eddington : PiOf := fun _ _ _ _ _ => 0.
Definition pi_m1 : PiOf := GetConTilPiFromPrim.

(** *** states at a face, moments.cpp:561-640 *)
(** 575-603: velocity of one side; [bounded] is ReconFixupStrategy::bounds *)
Definition side_velocity (bounded : bool) (W_ceiling : R) (gamma : mat) (vp : vec) : vec :=
  let W := GetLorentzFactor vp gamma in
  if bounded && Rlt_bool W_ceiling W
  then let rescale := sqrt (W_ceiling * W_ceiling - 1) / (W * W - 1) in fun i => vp i * rescale / W_ceiling
  else fun i => vp i / W.
(** 615-620 *)
Definition side_J (bounded : bool) (J_floor J : R) : R := if bounded then Rmax J J_floor else J.
(** 621-643; h is the reconstructed ratio H/J *)
Definition side_H (bounded : bool) (xi_ceiling : R) (c : Closure) (J : R) (h : vec) : vec :=
  let H := fun i => J * h i in
  if bounded then
    let xi := flux_xi c J H in
    if Rlt_bool xi_ceiling xi then fun i => H i * (xi_ceiling / xi) else H
  else H.

(** *** the numerical flux of one species through a face, 605-612 and 650-741 *)
Record Face := { f_gamma : mat; f_ginv : mat; f_alpha : R; f_beta : vec; f_sdetgam : R }.
Definition kappaH_min : R := 1 / 10 ^ 20.
(** 650-654: geometric mean of the opacities of the two zones and the mixing weight *)
Definition face_kappa (kl kr : R) : R := sqrt (kl * kr).
Definition mixing (kappa dx : R) : R := tanh (ratio (T:=R) 1 (Rabs (kappa * dx))).
(** 658-659 *)
Definition H_asym (dJ : vec) (kappa : R) : vec := fun i => - dJ i / (3 * kappa + 3 * kappaH_min).
(** 605-612, 706-709 *)
Definition signal_speed (g : Face) (d : nat) (vl vr : vec) (a : R) : R :=
  let sigp := f_alpha g * sqrt (f_ginv g d d) - f_beta g d in
  let sigm := - f_alpha g * sqrt (f_ginv g d d) - f_beta g d in
  let asym_l := f_alpha g * vl d - f_beta g d in
  let asym_r := f_alpha g * vr d - f_beta g d in
  a * Rmax (Rabs sigm) (Rabs sigp) + (1 - a) * Rmax (Rabs asym_l) (Rabs asym_r).
(** one side: mixed fluxes with the shift terms, and the conserved moments, 660-722.
    The result is (flux of E, flux of F_i, E, F_i) *)
Definition side_flux (pi_of : PiOf) (g : Face) (d : nat) (rs : Strategy) (a : R) (v : vec) (J : R) (H Has : vec) : R * vec * R * vec :=
  let c := mkClosure v (f_gamma g) (f_alpha g) rs in
  let '(conF_as, P_as) := getFluxesFromPrim c energy_conserve J Has (pi_of c J Has) in
  let '(conF, P) := getFluxesFromPrim c energy_conserve J H (pi_of c J H) in
  let '(E, covF) := Prim2Con c energy_conserve J H (pi_of c J H) in
  (a * conF d + (1 - a) * conF_as d - f_beta g d * E,
   fun i => a * P d i + (1 - a) * P_as d i - f_beta g d * covF i,
   E, covF).
(** 724-741 *)
Definition llf (sdetgam s fl fr ul ur : R) : R := / 2 * sdetgam * (fl + fr + s * (ul - ur)).
Definition face_flux (pi_of : PiOf) (g : Face) (d : nat) (rs : Strategy) (a : R)
    (vl vr : vec) (Jl Jr : R) (Hl Hr Has : vec) : R * vec :=
  let '(fEl, fFl, El, Fl) := side_flux pi_of g d rs a vl Jl Hl Has in
  let '(fEr, fFr, Er, Fr) := side_flux pi_of g d rs a vr Jr Hr Has in
  let s := signal_speed g d vl vr a in
  if Rlt_bool (f_sdetgam g) (SMALL (T:=R)) then (0, fun _ => 0)
  else (llf (f_sdetgam g) s fEl fEr El Er, fun i => llf (f_sdetgam g) s (fFl i) (fFr i) (Fl i) (Fr i)).
(** the whole face body for one species: width, opacity, gradient of J *)
Definition radiation_flux (pi_of : PiOf) (g : Face) (d : nat) (rs : Strategy) (bounded : bool) (W_ceiling J_floor xi_ceiling width kl kr : R)
    (dJ vpl vpr : vec) (Jl Jr : R) (hl hr : vec) : R * vec :=
  let dx := width * sqrt (f_gamma g d d) in
  let vl := side_velocity bounded W_ceiling (f_gamma g) vpl in
  let vr := side_velocity bounded W_ceiling (f_gamma g) vpr in
  let Jl := side_J bounded J_floor Jl in let Jr := side_J bounded J_floor Jr in
  let Hl := side_H bounded xi_ceiling (mkClosure vl (f_gamma g) (f_alpha g) rs) Jl hl in
  let Hr := side_H bounded xi_ceiling (mkClosure vr (f_gamma g) (f_alpha g) rs) Jr hr in
  let kappa := face_kappa kl kr in
  face_flux pi_of g d rs (mixing kappa dx) vl vr Jl Jr Hl Hr (H_asym dJ kappa).

(** *** gradient of J at faces, 412-484: J k j i at zone centres, ndim the number of active
    directions, dx the zone widths; component s at the lower d-face of zone (k,j,i) *)
Definition grad_J (ndim : nat) (dx : vec) (J : nat -> nat -> nat -> R) (s d k j i : nat) : R :=
  let dj := if Nat.ltb 1 ndim then 1%nat else 0%nat in
  let dk := if Nat.ltb 2 ndim then 1%nat else 0%nat in
  let i4 q := / 4 * (1 / dx q) in
  match d, s with
  | 0, 0 => (J k j i - J k j (i - 1)%nat) * (1 / dx 0%nat)
  | 0, 1 => (J k (j + dj)%nat i + J k (j + dj)%nat (i - 1)%nat - J k (j - dj)%nat i - J k (j - dj)%nat (i - 1)%nat) * i4 1%nat
  | 0, _ => (J (k + dk)%nat j i + J (k + dk)%nat j (i - 1)%nat - J (k - dk)%nat j i - J (k - dk)%nat j (i - 1)%nat) * i4 2%nat
  | 1, 0 => (J k j (i + 1)%nat + J k (j - dj)%nat (i + 1)%nat - J k j (i - 1)%nat - J k (j - dj)%nat (i - 1)%nat) * i4 0%nat
  | 1, 1 => (J k j i - J k (j - dj)%nat i) * (1 / dx 1%nat)
  | 1, _ => (J (k + dk)%nat j i + J (k + dk)%nat (j - dj)%nat i - J (k - dk)%nat j i - J (k - dk)%nat (j - dj)%nat i) * i4 2%nat
  | _, 0 => (J k j (i + 1)%nat + J (k - dk)%nat j (i + 1)%nat - J k j (i - 1)%nat - J (k - dk)%nat j (i - 1)%nat) * i4 0%nat
  | _, 1 => (J k (j + dj)%nat i + J (k - dk)%nat (j + dj)%nat i - J k (j - dj)%nat i - J (k - dk)%nat (j - dj)%nat i) * i4 1%nat
  | _, _ => (J k j i - J (k - dk)%nat j i) * (1 / dx 2%nat)
  end.

(** *** geometric source, 826-889, one species in one zone: the Eulerian moments E, F_i are the
    stored ones, P^{ij} is computed from the comoving moments *)
Definition assemble (alpha : R) (beta : vec) (E : R) (conF : vec) (conP : mat) : mat :=
  let n : vec := fun m => match m with O => 1 / alpha | S i => - beta i / alpha end in
  fun mu nu => n mu * n nu * E
    + match nu with O => 0 | S i => n mu * conF i end
    + match mu with O => 0 | S i => n nu * conF i end
    + match mu, nu with S i, S j => conP i j | _, _ => 0 end.
Definition radiation_source (S : System) (X : point) (T : mat) : R * vec :=
  let alp := Lapse S X in let sdetgam := DetGamma S X in
  let dg := MetricDerivative S X in let Gamma := SetConnectionCoeffFromMetricDerivs dg in
  let TGam := sum4 (fun m => sum4 (fun n => T m n * sum4 (fun r => SpacetimeMetricInverse S X 0%nat r * Gamma r m n))) in
  let Ta := sum4 (fun m => T m 0%nat * GradLnAlpha S X m) in
  (sdetgam * alp * alp * (Ta - TGam),
   fun l => alp * sdetgam * sum4 (fun m => sum4 (fun n => T m n * (dg n (l + 1)%nat m - Gamma (l + 1)%nat n m)))).
(** the whole zone: stored densities of E and F, comoving J and scaled h, fluid velocity vp *)
Definition CalculateGeometricSource (pi_of : PiOf) (S : System) (X : point) (rs : Strategy) (dE : R) (dF : vec) (J : R) (h vp : vec) : R * vec :=
  let sdetgam := DetGamma S X in
  let W := GetLorentzFactor vp (Metric S X) in
  let c := mkClosure (fun i => vp i / W) (Metric S X) (Lapse S X) rs in
  let E := dE / sdetgam in let covF := fun i => dF i / sdetgam in let covH := fun i => J * h i in
  let conP := getConPFromPrim c J covH (pi_of c J covH) in
  radiation_source S X (assemble (Lapse S X) (ContravariantShift S X) E (raise3Vector (con_gamma c) covF) conP).

(** *** conserved and primitive moments of a zone.  moments.cpp:240-273 (MomentPrim2ConImpl) *)
Definition MomentPrim2Con (pi_of : PiOf) (gamma : mat) (alpha sdetgam : R) (rs : Strategy) (vp : vec) (J : R) (h : vec) : R * vec :=
  let W := GetLorentzFactor vp gamma in
  let c := mkClosure (fun i => vp i / W) gamma alpha rs in
  let covH := fun i => J * h i in
  let '(E, covF) := Prim2Con c energy_conserve J covH (pi_of c J covH) in
  (sdetgam * E, fun i => sdetgam * covF i).
(** 96-157 (MomentCon2PrimImpl) with the tensor given; a repaired state is written back.  Result:
    (J, h, densities of E and F, flag), the flag being true for FailFlags::success *)
Definition MomentCon2Prim (tilPi : Closure -> R -> vec -> mat) (gamma : mat) (alpha sdetgam : R) (rs : Strategy) (vp : vec) (dE : R) (dF : vec) : R * vec * (R * vec) * bool :=
  let W := GetLorentzFactor vp gamma in
  let c := mkClosure (fun i => vp i / W) gamma alpha rs in
  let E := dE * (1 / sdetgam) in let covF := fun i => dF i * (1 / sdetgam) in
  let Pi := tilPi c E covF in
  let '(J, covH, st) := Con2Prim c energy_conserve E covF Pi in
  let h := fun i => ratio (T:=R) (covH i) J in
  match st with
  | Cmodified => let '(E', F') := Prim2Con c energy_conserve J covH Pi in
                 (J, h, (E' / (1 / sdetgam), fun i => F' i / (1 / sdetgam)), true)
  | Csuccess => (J, h, (dE, dF), true)
  | Cfailure => (J, h, (dE, dF), false)
  end.
(** 154-155: one flag per zone, written by every species; [order] is the order in which the
    iterations of the parallel loop over species happen to write *)
Definition species_flag (flag_of : nat -> bool) (order : list nat) (initial : bool) : bool :=
  fold_left (fun _ s => flag_of s) order initial.
