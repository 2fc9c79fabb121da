(** The floor profiles of the input file, as described in fixup.cpp:72-146. *)
From Coq Require Import Reals.
From Verif.Model Require Import Floors.
Local Open Scope R_scope.

Definition profile (flag : FloorFlag) (f0 a x1 x2 x3 : R) : R :=
  match flag with
  | ConstantRhoSie => f0
  | ExpX1RhoSie | ExpX1RhoU => f0 * exp (a * x1)
  | X1RhoSie => f0 * Rmin 1 (Rpower x1 a)
  | RRhoSie => f0 * Rmin 1 (Rpower (sqrt (x1 * x1 + x2 * x2 + x3 * x3)) a)
  end.
