(** src/phoebus_utils/unit_conversions.{hpp,cpp}: conversion between code and cgs units, and the
    places that build other factors from it. *)
From Coq Require Import ZArith List Bool.
From Verif.Model Require Import Num.

(** parthenon::constants::PhysicalConstants<CGS> (not in this repository): the constants used *)
Record Constants (T : Type) := { g_newt : T; c_light : T; k_b : T; h_planck : T; m_p : T }.
Arguments g_newt {T}. Arguments c_light {T}. Arguments k_b {T}. Arguments h_planck {T}. Arguments m_p {T}.
(** the block <units> of the input file; [None] = parameter absent *)
Record UnitsInput (T : Type) := { in_scale_free : option bool; geom_mass_g : option T; geom_mass_msun : option T;
  geom_length_cm : option T; fluid_density_cgs : option T; fluid_mass_g : option T }.
Arguments in_scale_free {T}. Arguments geom_mass_g {T}. Arguments geom_mass_msun {T}. Arguments geom_length_cm {T}.
Arguments fluid_density_cgs {T}. Arguments fluid_mass_g {T}.
(** unit_conversions.hpp:57-64, the members of UnitConversions *)
Record Units (T : Type) := { scale_free_ : bool; mass_ : T; length_ : T; time_ : T; energy_ : T; number_density_ : T; mass_density_ : T; temperature_ : T }.
Arguments scale_free_ {T}. Arguments mass_ {T}. Arguments length_ {T}. Arguments time_ {T}. Arguments energy_ {T}.
Arguments number_density_ {T}. Arguments mass_density_ {T}. Arguments temperature_ {T}.

Definition exists_ {A} (o : option A) : nat := match o with Some _ => 1 | None => 0 end.

Section UnitConversions.
Context {T : Type} `{Num T}.
Local Open Scope num_scope.
(** unit_conversions.hpp:99 *)
Definition solar_mass : T := nlit (1989 * 10 ^ 30) 1.
(** unit_conversions.cpp:51, pow(pc.c, 2), and :76, pow(length_, -3); the rounding of the library
    function pow is that of these products *)
Definition pow2 (x : T) : T := x * x.
Definition powm3 (x : T) : T := none / (x * x * x).
(** unit_conversions.cpp:22-81, the constructor; [None] = PARTHENON_REQUIRE fails.  [junk] is the
    value of members that no branch assigns (never used, by the two requirements). *)
Definition UnitConversions (pc : Constants T) (junk : T) (pin : UnitsInput T) : option (Units T) :=
  if match in_scale_free pin with Some b => b | None => true end then
    Some {| scale_free_ := true; mass_ := none; length_ := none; time_ := none; energy_ := none; number_density_ := none;
            mass_density_ := none; temperature_ := none |}
  else if Nat.eqb (exists_ (geom_mass_g pin) + exists_ (geom_mass_msun pin) + exists_ (geom_length_cm pin)) 1 then
    if Nat.eqb (exists_ (fluid_mass_g pin) + exists_ (fluid_density_cgs pin)) 1 then
      let length := junk in
      let length := match geom_mass_g pin with Some m => g_newt pc * m / pow2 (c_light pc) | None => length end in
      let length := match geom_mass_msun pin with Some m => g_newt pc * (m * solar_mass) / pow2 (c_light pc) | None => length end in
      let length := match geom_length_cm pin with Some l => l | None => length end in
      let mass := junk in
      let mass := match fluid_mass_g pin with Some m => m | None => mass end in
      let mass := match fluid_density_cgs pin with Some d => length * length * length * d | None => mass end in
      let number_density := powm3 length in
      Some {| scale_free_ := false; mass_ := mass; length_ := length; time_ := length / c_light pc; energy_ := mass * pow2 (c_light pc);
              number_density_ := number_density; mass_density_ := mass * number_density; temperature_ := none / k_b pc |}
    else None
  else None.

(** unit_conversions.hpp:30-54, the getters *)
Definition GetMassCodeToCGS (u : Units T) : T := mass_ u.
Definition GetMassCGSToCode (u : Units T) : T := none / mass_ u.
Definition GetLengthCodeToCGS (u : Units T) : T := length_ u.
Definition GetLengthCGSToCode (u : Units T) : T := none / length_ u.
Definition GetTimeCodeToCGS (u : Units T) : T := time_ u.
Definition GetTimeCGSToCode (u : Units T) : T := none / time_ u.
Definition GetEnergyCodeToCGS (u : Units T) : T := energy_ u.
Definition GetEnergyCGSToCode (u : Units T) : T := none / energy_ u.
Definition GetNumberDensityCodeToCGS (u : Units T) : T := number_density_ u.
Definition GetNumberDensityCGSToCode (u : Units T) : T := none / number_density_ u.
Definition GetMassDensityCodeToCGS (u : Units T) : T := mass_density_ u.
Definition GetMassDensityCGSToCode (u : Units T) : T := none / mass_density_ u.
Definition GetTemperatureCodeToCGS (u : Units T) : T := temperature_ u.
Definition GetTemperatureCGSToCode (u : Units T) : T := none / temperature_ u.
Definition GetEntropyCodeToCGS (u : Units T) : T := (energy_ u / mass_ u) / temperature_ u.
Definition GetEntropyCGSToCode (u : Units T) : T := mass_ u * temperature_ u / energy_ u.

(** unit_conversions.hpp:68-97 CodeConstants *)
Record CodeConstants_t := { cc_h : T; cc_c : T; cc_kb : T; cc_mp : T }.
Definition MakeCodeConstants (pc : Constants T) (u : Units T) : CodeConstants_t :=
  let TIME := GetTimeCGSToCode u in
  let MASS := GetMassCGSToCode u in
  let LENGTH := GetLengthCGSToCode u in
  let ENERGY := MASS * LENGTH * LENGTH / (TIME * TIME) in
  let TEMPERATURE := GetTemperatureCGSToCode u in
  {| cc_h := h_planck pc * MASS * LENGTH * LENGTH / TIME; cc_c := c_light pc * LENGTH / TIME;
     cc_kb := k_b pc * ENERGY / TEMPERATURE; cc_mp := m_p pc * MASS |}.

(** src/microphysics/eos_phoebus/eos_phoebus.cpp:140-154, the bounds of the tabulated equation of
    state in code units *)
Record EosBounds := { sie_lim : T; T_lim : T; rho_lim : T }.
Definition EosBoundsInCode (pc : Constants T) (u : Units T) (table : EosBounds) : EosBounds :=
  let M_unit := GetMassCodeToCGS u in
  let L_unit := GetLengthCodeToCGS u in
  let rho_unit := M_unit / (L_unit * L_unit * L_unit) in
  let T_unit := GetTemperatureCodeToCGS u in
  let sie_unit := pow2 (c_light pc) in
  {| sie_lim := sie_lim table / sie_unit; T_lim := T_lim table / T_unit; rho_lim := rho_lim table / rho_unit |}.
(** src/radiation/cooling_function.cpp:164-166, 271-272: heating rate per mass *)
Definition CGSToCodeFact (u : Units T) : T := GetEnergyCGSToCode u / GetMassCGSToCode u / GetTimeCGSToCode u.
(** src/radiation/radiation.cpp:86, 89: frequency bounds *)
Definition NuInCode (u : Units T) (nu : T) : T := nu / GetTimeCGSToCode u.
(** src/pgen/thin_cooling.cpp:60: energy density *)
Definition EnergyDensityInCode (u : Units T) (x : T) : T := x * GetEnergyCGSToCode u * GetNumberDensityCGSToCode u.
End UnitConversions.
Arguments CodeConstants_t : clear implicits.
Arguments EosBounds : clear implicits.
