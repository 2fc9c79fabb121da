(** src/fixup/fixup.hpp: floors and ceilings, over the reals. *)
From Coq Require Import Reals.
From Verif.Model Require Import Num Robust.
Local Open Scope R_scope.

(** fixup.hpp:70 *)
Inductive FloorFlag := ConstantRhoSie | ExpX1RhoSie | ExpX1RhoU | X1RhoSie | RRhoSie.

(** fixup.hpp:144-148, the members after SetEOSBnds (136-142) has run.  That eos_bnds_set_
    has no initialiser (the "not set" abort can be skipped) is not modelled. *)
Record Floors := mkFloors {
  r0_ : R; s0_ : R; ralpha_ : R; salpha_ : R; rho_min_eos_ : R; sie_min_eos_ : R;
  floor_flag_ : FloorFlag }.

(** fixup.hpp:91-134.  rflr is an in-out parameter: [rin] is its value at the call, which
    the ExpX1RhoU floor reads.  std::pow(x, a) is Rpower, right for x > 0. *)
Definition GetFloors (F : Floors) (x1 x2 x3 rin : R) : R * R :=
  match floor_flag_ F with
  | ConstantRhoSie =>
    (std_max (r0_ F) (rho_min_eos_ F), std_max (s0_ F) (sie_min_eos_ F))
  | ExpX1RhoSie =>
    (std_max (r0_ F * exp (ralpha_ F * x1)) (rho_min_eos_ F),
     std_max (s0_ F * exp (salpha_ F * x1)) (sie_min_eos_ F))
  | ExpX1RhoU =>
    let scratch := r0_ F * exp (ralpha_ F * x1) in
    let sflr := s0_ F * exp (salpha_ F * x1) / std_max rin scratch in
    (std_max scratch (rho_min_eos_ F), std_max sflr (sie_min_eos_ F))
  | X1RhoSie =>
    (std_max (r0_ F * std_min 1 (Rpower x1 (ralpha_ F))) (rho_min_eos_ F),
     std_max (s0_ F * std_min 1 (Rpower x1 (salpha_ F))) (sie_min_eos_ F))
  | RRhoSie =>
    let r := sqrt (x1 * x1 + x2 * x2 + x3 * x3) in
    (std_max (r0_ F * std_min 1 (Rpower r (ralpha_ F))) (rho_min_eos_ F),
     std_max (s0_ F * std_min 1 (Rpower r (salpha_ F))) (sie_min_eos_ F))
  end.

(** fixup.hpp:188-213 and 218-242: the ceilings are constants *)
Record Ceilings := mkCeilings { gam0_ : R; sie0_ : R }.
Definition GetCeilings (C : Ceilings) (x1 x2 x3 : R) : R * R := (gam0_ C, sie0_ C).
Record MHDCeilings := mkMHDCeilings { bsqorho0_ : R; bsqou0_ : R }.
Definition GetMHDCeilings (C : MHDCeilings) (x1 x2 x3 : R) : R * R := (bsqorho0_ C, bsqou0_ C).

(** fixup.hpp:155-183 *)
Inductive RadiationFloorFlag := ConstantJ | ExpX1J.
Record RadiationFloors := mkRadiationFloors { J0_ : R; Jalpha_ : R; rad_floor_flag_ : RadiationFloorFlag }.
Definition GetRadiationFloors (F : RadiationFloors) (x1 x2 x3 : R) : R :=
  match rad_floor_flag_ F with ConstantJ => J0_ F | ExpX1J => J0_ F * exp (Jalpha_ F * x1) end.
(** fixup.hpp:247-273 *)
Record RadiationCeilings := mkRadiationCeilings { xi0_ : R; tau0_ : R }.
Definition GetRadiationCeilings (C : RadiationCeilings) (x1 x2 x3 : R) : R * R := (xi0_ C, tau0_ C).
