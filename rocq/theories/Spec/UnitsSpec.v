(** Dimensional analysis, independent of the code: a quantity of dimension
    mass^a length^b time^c temperature^d changes by the corresponding product of powers. *)
From Coq Require Import Reals ZArith.
Local Open Scope R_scope.

Record Dim := { dM : Z; dL : Z; dT : Z; dK : Z }.
Definition dim (m l t k : Z) : Dim := {| dM := m; dL := l; dT := t; dK := k |}.
(** the four independent units, in cgs *)
Record Base := { unit_M : R; unit_L : R; unit_T : R; unit_K : R }.
(** one code unit of dimension d, in cgs *)
Definition one_code_unit (b : Base) (d : Dim) : R :=
  powerRZ (unit_M b) (dM d) * powerRZ (unit_L b) (dL d) * powerRZ (unit_T b) (dT d) * powerRZ (unit_K b) (dK d).
(** the code value of a quantity whose cgs value is x *)
Definition in_code (b : Base) (d : Dim) (x : R) : R := x / one_code_unit b d.

Definition d_mass := dim 1 0 0 0.
Definition d_length := dim 0 1 0 0.
Definition d_time := dim 0 0 1 0.
Definition d_temperature := dim 0 0 0 1.
Definition d_speed := dim 0 1 (-1) 0.
Definition d_energy := dim 1 2 (-2) 0.
Definition d_number_density := dim 0 (-3) 0 0.
Definition d_mass_density := dim 1 (-3) 0 0.
Definition d_specific_entropy := dim 0 2 (-2) (-1).
Definition d_specific_energy := dim 0 2 (-2) 0.
Definition d_energy_density := dim 1 (-1) (-2) 0.
Definition d_heating_rate := dim 0 2 (-3) 0.
Definition d_frequency := dim 0 0 (-1) 0.
Definition d_action := dim 1 2 (-1) 0.
Definition d_boltzmann := dim 1 2 (-2) (-1).
Definition d_newton := dim (-1) 3 (-2) 0.
