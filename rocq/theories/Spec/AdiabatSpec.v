(** Adiabats of a two-parameter equation of state. *)
From Coq Require Import Reals.
From Verif.Spec Require Import RootSpec.
Local Open Scope R_scope.

(** entropy per baryon is continuous, falls on compression and rises on heating, over the box
    [rho_min, rho_max] x [T_min, T_max] *)
Definition thermodynamic (entropy : R -> R -> R) (rho_min rho_max T_min T_max : R) : Prop :=
  (forall T, inside T_min T_max T ->
     continuous_on (fun rho => entropy rho T) rho_min rho_max /\
     forall r1 r2, rho_min <= r1 -> r1 < r2 -> r2 <= rho_max -> entropy r2 T < entropy r1 T) /\
  (forall rho, inside rho_min rho_max rho ->
     continuous_on (entropy rho) T_min T_max /\
     forall t1 t2, T_min <= t1 -> t1 < t2 -> t2 <= T_max -> entropy rho t1 < entropy rho t2).

(** (rho, T) is a state of the adiabat S0 within the box *)
Definition on_adiabat (entropy : R -> R -> R) (T_min T_max S0 rho T : R) : Prop :=
  inside T_min T_max T /\ entropy rho T = S0.

(** specific enthalpy per unit rest energy *)
Definition enthalpy (press sie : R -> R -> R) (rho T : R) : R := 1 + sie rho T + press rho T / rho.
