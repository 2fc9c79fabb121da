(** What a user expects of a reconstruction. *)
From Coq Require Import Reals.
Local Open Scope R_scope.

(** x lies in the closed interval with ends a and b, in whichever order *)
Definition between (a b x : R) : Prop := Rmin a b <= x <= Rmax a b.

(** p(x) = c0 + c1 x + c2 x^2 and its average over the unit cell centred at m *)
Definition quad (c0 c1 c2 x : R) : R := c0 + c1 * x + c2 * x ^ 2.
Definition quad_avg (c0 c1 c2 m : R) : R := c0 + c1 * m + c2 * (m ^ 2 + 1 / 12).

(** v is the value at x of the parabola whose averages over the unit cells
    centred at m, m+1, m+2 are u0, u1, u2 *)
Definition parabola_value (m u0 u1 u2 x v : R) : Prop :=
  exists c0 c1 c2, quad_avg c0 c1 c2 m = u0 /\ quad_avg c0 c1 c2 (m + 1) = u1 /\
    quad_avg c0 c1 c2 (m + 2) = u2 /\ v = quad c0 c1 c2 x.
