(** Model of src/microphysics/opac_phoebus/opac_phoebus.{hpp,cpp}: how the absorption, scattering
    and mean opacities used by the code are put together.

    Simplifications.  Arithmetic is exact.  The opacity classes are those of the library
    singularity-opac, which is not in this repository; they are modelled from its
    documentation: Gray, GrayS, ScaleFree, ScaleFreeS (coefficient proportional to the density),
    Tophat and SpinerOpac (an arbitrary coefficient in cgs units), NonCGSUnits (converts its
    arguments to cgs, and the coefficient, an inverse length, back), MeanOpacity (the Rosseland
    mean over the frequency grid; its table of logarithms is taken as exact at the tabulated
    points) and MeanNonCGSUnits.  One neutrino type. *)
From Coq Require Import Reals List.
From Verif.Model Require Import Num Units.
Import ListNotations.
Local Open Scope R_scope.

(** a coefficient [rho T Ye nu] and a mean coefficient [rho T Ye] *)
Definition Coefficient := R -> R -> R -> R -> R.
Definition MeanCoefficient := R -> R -> R -> R.
(** singularity-opac: Gray(kappa), ScaleFree(kappa) *)
Definition Gray (kappa : R) : Coefficient := fun rho T Ye nu => rho * kappa.
(** singularity-opac: GrayS(sigma, apm), ScaleFreeS(sigma, apm) *)
Definition GrayS (sigma apm : R) : Coefficient := fun rho T Ye nu => rho / apm * sigma.
(** singularity-opac: Tophat(C, numin, numax) *)
Definition Tophat (C numin numax : R) : Coefficient :=
  fun rho T Ye nu => if Rlt_dec numin nu then if Rlt_dec nu numax then rho * Ye * C * (4 * PI) else 0 else 0.
(** singularity-opac: NonCGSUnits, NonCGSUnitsS, MeanNonCGSUnits, MeanNonCGSUnitsS *)
Definition NonCGSUnits (o : Coefficient) (time_unit mass_unit length_unit temp_unit : R) : Coefficient :=
  fun rho T Ye nu => o (rho * (mass_unit / length_unit ^ 3)) (T * temp_unit) Ye (nu / time_unit) * length_unit.
Definition MeanNonCGSUnits (m : MeanCoefficient) (time_unit mass_unit length_unit temp_unit : R) : MeanCoefficient :=
  fun rho T Ye => m (rho * (mass_unit / length_unit ^ 3)) (T * temp_unit) Ye * length_unit.
(** singularity-opac: MeanOpacityBase, MeanSOpacity: Rosseland mean over the frequencies nus with
    the weights [w T nu] of the thermal distribution *)
Definition sum_over (nus : list R) (f : R -> R) : R := fold_right (fun nu s => f nu + s) 0 nus.
Definition MeanOpacityBase (w : R -> R -> R) (nus : list R) (o : Coefficient) : MeanCoefficient :=
  fun rho T Ye => rho * (sum_over nus (w T) / sum_over nus (fun nu => w T nu * (rho / o rho T Ye nu))).

(** the parameter opacity/type *)
Inductive OpacityType := OpacNone | OpacTophat (C numin numax : R) | OpacGray (kappa : R) | OpacTabular (table : Coefficient).
(** opac_phoebus.cpp:71-144: the pair h.opacity_baseunits, h.opacity; [None] = PARTHENON_REQUIRE fails *)
Definition absorption_opacity (u : Units R) (scale_free : bool) (t : OpacityType) : option (Coefficient * Coefficient) :=
  let time_unit := GetTimeCodeToCGS u in let mass_unit := GetMassCodeToCGS u in
  let length_unit := GetLengthCodeToCGS u in let temp_unit := GetTemperatureCodeToCGS u in
  let in_units o := NonCGSUnits o time_unit mass_unit length_unit temp_unit in
  match t with
  | OpacNone => if scale_free then Some (Gray 0, Gray 0) else Some (Gray 0, in_units (Gray 0))
  | OpacTophat C numin numax => if scale_free then None else Some (Tophat C numin numax, in_units (Tophat C numin numax))
  | OpacGray kappa => if scale_free then Some (Gray kappa, Gray kappa) else Some (Gray kappa, in_units (Gray kappa))
  | OpacTabular o => if scale_free then None else Some (o, in_units o)
  end.
(** opac_phoebus.cpp:146-188: the mean of the absorption opacity, built from h.opacity (line 147) *)
Definition mean_absorption (u : Units R) (scale_free : bool) (w : R -> R -> R) (nus : list R) (t : OpacityType) : option MeanCoefficient :=
  match absorption_opacity u scale_free t with
  | Some (base, opacity_host) =>
      let mean := MeanOpacityBase w nus opacity_host in
      Some (if scale_free then mean
            else MeanNonCGSUnits mean (GetTimeCodeToCGS u) (GetMassCodeToCGS u) (GetLengthCodeToCGS u) (GetTemperatureCodeToCGS u))
  | None => None
  end.
(** the parameter s_opacity/type *)
Inductive SOpacityType := SOpacNone | SOpacGray (kappa : R).
(** opac_phoebus.cpp:205-247: the pair h.s_opacity_baseunits, h.s_opacity; mp is the proton mass *)
Definition scattering_opacity (u : Units R) (scale_free : bool) (mp : R) (t : SOpacityType) : Coefficient * Coefficient :=
  let in_units o := NonCGSUnits o (GetTimeCodeToCGS u) (GetMassCodeToCGS u) (GetLengthCodeToCGS u) (GetTemperatureCodeToCGS u) in
  let kappa := match t with SOpacNone => 0 | SOpacGray kappa => kappa end in
  if scale_free then (GrayS kappa 1, GrayS kappa 1) else (GrayS (kappa * mp) mp, in_units (GrayS (kappa * mp) mp)).
(** opac_phoebus.cpp:249-284: the mean of the scattering opacity, built from h.s_opacity_baseunits *)
Definition mean_scattering (u : Units R) (scale_free : bool) (mp : R) (w : R -> R -> R) (nus : list R) (t : SOpacityType) : MeanCoefficient :=
  let mean := MeanOpacityBase w nus (fst (scattering_opacity u scale_free mp t)) in
  if scale_free then mean
  else MeanNonCGSUnits mean (GetTimeCodeToCGS u) (GetMassCodeToCGS u) (GetLengthCodeToCGS u) (GetTemperatureCodeToCGS u).
