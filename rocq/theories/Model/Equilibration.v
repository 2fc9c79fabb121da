(** src/pgen/radiation_equilibration.cpp: the set-up, and its use of the package parameters. *)
From Coq Require Import Reals List String Bool.
From Verif.Spec Require Import Tensor.
Import ListNotations.
Local Open Scope R_scope.

(** the equation of state at temperature T, called without the electron fraction (lines
    84-85, 92): PressureFromDensityTemperature, InternalEnergyFromDensityTemperature (per
    mass), BulkModulusFromDensityTemperature *)
Record GasT := { g_P : R -> R -> R; g_sie : R -> R -> R; g_bulk : R -> R -> R }.
Record EqZone := { ez_rho : R; ez_T : R; ez_P : R; ez_eng : R; ez_gm1 : R; ez_ye : R; ez_v : vec; ez_J : nat -> R; ez_H : nat -> vec }.
(** radiation_equilibration.cpp:82-104, every zone; [energy_density T s] is
    Opacities::EnergyDensityFromTemperature.  The parameter J of line 56 is read and not used. *)
Definition equilibration_zone (gas : GasT) (energy_density : R -> nat -> R) (rho0 Tg0 Tr0 Ye0 : R) : EqZone :=
  {| ez_rho := rho0; ez_T := Tg0; ez_P := g_P gas rho0 Tg0; ez_eng := rho0 * g_sie gas rho0 Tg0;
     ez_gm1 := g_bulk gas rho0 Tg0 / g_P gas rho0 Tg0; ez_ye := Ye0; ez_v := fun _ => 0;
     ez_J := fun s => energy_density Tr0 s; ez_H := fun _ _ => 0 |}.

(** parthenon Params::Add (not in /repo): throws when the key exists.  None is the throw. *)
Definition params_add (keys : list string) (k : string) : option (list string) :=
  if existsb (String.eqb k) keys then None else Some (k :: keys).
Fixpoint params_add_all (keys : list string) (ks : list string) : option (list string) :=
  match ks with [] => Some keys | k :: ks => match params_add keys k with None => None | Some keys => params_add_all keys ks end end.
(** radiation_equilibration.cpp:71-75 and radiation_advection.cpp:83-87: what one call of the
    problem generator adds *)
Definition equilibration_keys : list string :=
  ["radiation_equilibration/rho0"; "radiation_equilibration/Tg0"; "radiation_equilibration/Tr0"; "radiation_equilibration/Ye0"]%string.
Definition advection_keys : list string :=
  ["radiation_advection/J0"; "radiation_advection/Hx"; "radiation_advection/Hy"; "radiation_advection/Hz"]%string.
(** the problem generator is called once per block of the rank, all sharing one package *)
Fixpoint generate_blocks (ks : list string) (nblocks : nat) (keys : list string) : option (list string) :=
  match nblocks with
  | O => Some keys
  | S n => match params_add_all keys ks with None => None | Some keys => generate_blocks ks n keys end
  end.
