(** Opacities in different units, independent of the code. *)
From Coq Require Import Reals ZArith List.
From Verif.Spec Require Import UnitsSpec.
Import ListNotations.
Local Open Scope R_scope.

Definition d_inverse_length := dim 0 (-1) 0 0.
(** two functions of density, temperature, electron fraction and frequency are the same inverse
    length, one in cgs units, the other in code units *)
Definition same_coefficient (b : Base) (cgs code : R -> R -> R -> R -> R) : Prop :=
  forall rho T Ye nu, code rho T Ye nu =
    in_code b d_inverse_length (cgs (rho * one_code_unit b d_mass_density) (T * one_code_unit b d_temperature) Ye (nu * one_code_unit b d_frequency)).
Definition same_mean (b : Base) (cgs code : R -> R -> R -> R) : Prop :=
  forall rho T Ye, code rho T Ye =
    in_code b d_inverse_length (cgs (rho * one_code_unit b d_mass_density) (T * one_code_unit b d_temperature) Ye).
(** m is the Rosseland mean of o over the frequencies nus: the mean free path is the weighted
    arithmetic mean of the mean free paths *)
Definition rosseland_mean (w : R -> R -> R) (nus : list R) (o : R -> R -> R -> R -> R) (m : R -> R -> R -> R) : Prop :=
  forall rho T Ye, 0 < rho ->
    / m rho T Ye * fold_right Rplus 0 (map (w T) nus) = fold_right Rplus 0 (map (fun nu => w T nu * / o rho T Ye nu) nus).
