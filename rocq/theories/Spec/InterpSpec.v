(** Vocabulary for interpolation on a uniform grid: which grids are admissible, when a
    point is inside the table and which nodes are its neighbours. *)
From Coq Require Import Reals ZArith.
From Verif.Model Require Import Interpolation.
Local Open Scope R_scope.

(** an axis that is interpolated along: positive spacing and at least two nodes *)
Definition good_axis (a : Axis) : Prop := 0 < ax_dx a /\ (2 <= ax_n a)%Z.
(** the three axes of a block: X1 is always resolved, X3 only if X2 is *)
Definition used_axes (a1 a2 a3 : Axis) : Prop :=
  good_axis a1 /\ 0 < ax_dx a2 /\ 0 < ax_dx a3 /\ (1 <= ax_n a2)%Z /\ (1 <= ax_n a3)%Z
  /\ ((1 < ax_n a3)%Z -> (1 < ax_n a2)%Z).
(** in range on every axis that is interpolated *)
Definition in_table (a : Axis) (x : R) : Prop := (1 < ax_n a)%Z -> node a 0 <= x <= node a (ax_n a - 1).
(** indices of the two neighbouring nodes on an axis (the single node if the axis is collapsed) *)
Definition neighbour (a : Axis) (x : R) (i : Z) : Prop :=
  (0 <= i < ax_n a)%Z /\ ((1 < ax_n a)%Z -> Rabs (x - node a i) <= ax_dx a).
