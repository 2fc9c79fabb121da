(** Three set-ups for neutrino transport, src/pgen/{leptoneq,thin_cooling,homogeneous_sphere}.cpp,
    and what the cooling function does to a zone of the second.  Arithmetic is exact; the equation
    of state and the emissivities (library singularity-opac) are parameters. *)
From Coq Require Import Reals ZArith List.
From Flocq Require Import Core.
From Verif.Model Require Import Num Units Prim2Con RadSource MonteCarlo.
From Verif.Spec Require Import Tensor.
Import ListNotations.
Local Open Scope R_scope.

(** an equation of state with electron fraction: PressureFromDensityTemperature,
    InternalEnergyFromDensityTemperature (per mass), BulkModulusFromDensityTemperature,
    TemperatureFromDensityInternalEnergy, PressureFromDensityInternalEnergy *)
Record EosYe := { y_P : R -> R -> R -> R; y_sie : R -> R -> R -> R; y_bulk : R -> R -> R -> R;
  y_T : R -> R -> R -> R; y_Pe : R -> R -> R -> R }.
(** density, temperature, energy per volume, pressure, adiabatic index, electron fraction, velocity *)
Record NuZone := mkNu { n_rho : R; n_T : R; n_u : R; n_P : R; n_gam : R; n_ye : R; n_v : vec }.

(** leptoneq.cpp:70-76 *)
Definition leptoneq_ye (x y : R) : R :=
  if (Rle_bool (- (75 / 100)) x && Rle_bool x (- (25 / 100)) && Rle_bool (- (75 / 100)) y && Rle_bool y (- (25 / 100)))%bool then 1 / 10
  else if (Rle_bool (25 / 100) x && Rle_bool x (75 / 100) && Rle_bool (25 / 100) y && Rle_bool y (75 / 100))%bool then 35 / 100
  else 225 / 1000.
(** leptoneq.cpp:59-60: eV in erg *)
Definition leptoneq_rho0 (u : Units R) : R := 10 ^ 10 * GetMassDensityCGSToCode u.
Definition leptoneq_T0 (pc : Constants R) (eV : R) (u : Units R) : R := 25 / 10 * 10 ^ 6 * eV / k_b pc * GetTemperatureCGSToCode u.
(** leptoneq.cpp:62-88, the zone at (x, y) *)
Definition leptoneq_zone (eos : EosYe) (pc : Constants R) (eV : R) (u : Units R) (x y : R) : NuZone :=
  let rho0 := leptoneq_rho0 u in let T0 := leptoneq_T0 pc eV u in
  let ye := leptoneq_ye x y in
  mkNu rho0 T0 (rho0 * y_sie eos rho0 T0 ye) (y_P eos rho0 T0 ye) (y_bulk eos rho0 T0 ye / y_P eos rho0 T0 ye) ye (fun _ => 0).

(** thin_cooling.cpp:65-71; None: PARTHENON_REQUIRE fails *)
Definition thin_ye0 (do_nu_e do_nu_ebar : bool) : option R :=
  if Bool.eqb do_nu_e do_nu_ebar then None else Some (if do_nu_e then 5 / 10 else 0).
(** thin_cooling.cpp:58-60, 77-101; the energy density factor is EnergyDensityInCode *)
Definition thin_zone (eos : EosYe) (u : Units R) (ye0 : R) : NuZone :=
  let rho0 := 10 ^ 6 * GetMassDensityCGSToCode u in
  let u0 := EnergyDensityInCode u (10 ^ 20) in
  let T := y_T eos rho0 (u0 / rho0) ye0 in let P := y_Pe eos rho0 (u0 / rho0) ye0 in
  mkNu rho0 T u0 P (y_bulk eos rho0 T ye0 / P) ye0 (fun _ => 0).

(** Opacities::Emissivity and NumberEmissivity of one species *)
Record Emits := { emissivity : R -> R -> R -> R; number_emissivity : R -> R -> R -> R }.
(** cooling_function.cpp:169-176, 296-330 and radiation.cpp:571-581 in a zone at rest in
    Minkowski space, one species s (0 electron neutrinos, 1 antineutrinos, 2 the others); the
    primitives are the exact inverse of the conserved state at rest. *)
Definition rest_u : vec := fun m => match m with O => 1 | _ => 0 end.
Definition flat_g : mat := fun m n => if Nat.eqb m n then (if Nat.eqb m 0 then -1 else 1) else 0.
Definition cool_zone (eos : EosYe) (em : Emits) (mp : R) (s : Z) (dt : R) (c : Cons) : Cons :=
  let rho := cD c in let ye := cye c / cD c in let T := y_T eos rho (ctau c / rho) ye in
  let J := emissivity em rho T ye in let Jye := mp * number_emissivity em rho T ye in
  let G := add_cooling rest_u flat_g 1 J Jye (LeptonSign s) (fun _ => 0, 0) in
  ApplyRadiationFourForce true dt (fst G) (snd G) c.
(** successive steps; a uniform gas at rest has no net fluxes (C46, C52) *)
Fixpoint cool_steps (eos : EosYe) (em : Emits) (mp : R) (s : Z) (dts : list R) (c : Cons) : Cons :=
  match dts with [] => c | dt :: r => cool_steps eos em mp s r (cool_zone eos em mp s dt c) end.
(** singularity-opac, TophatEmissivity: all species emit e per volume and time, a by number,
    times 2 Ye, 1 - 2 Ye, 0 *)
Definition ye_factor (s : Z) (ye : R) : R := match s with 0%Z => 2 * ye | 1%Z => 1 - 2 * ye | _ => 0 end.
Definition tophat_emits (e a : R) (s : Z) : Emits :=
  {| emissivity := fun rho T ye => e * ye_factor s ye; number_emissivity := fun rho T ye => a * ye_factor s ye |}.

(** homogeneous_sphere.cpp:72-81: density and velocity (the field of W v) at the coordinate x1 *)
Definition sphere_zone_rho (radius rho_min x1 : R) : R := if Rlt_bool x1 radius then 1 else rho_min.
Definition sphere_zone_v (vx : R) : vec := fun i => match i with O => vx | _ => 0 end.
