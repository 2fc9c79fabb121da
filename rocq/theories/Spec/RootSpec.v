(** What a user expects of a bracketing root finder. *)
From Coq Require Import Reals ZArith List.
From Flocq Require Import Core BinarySingleNaN.
From Verif.Model Require Import Num.
Local Open Scope R_scope.

Definition inside (a b x : R) : Prop := a <= x <= b.

(** f is continuous at every point of [a,b] *)
Definition continuous_on (f : R -> R) (a b : R) : Prop :=
  forall x, inside a b x -> continuity_pt f x.

(** x is within eps of a zero of f that lies in [a,b] *)
Definition near_root (f : R -> R) (a b eps x : R) : Prop :=
  exists r, inside a b r /\ f r = 0 /\ Rabs (x - r) <= eps.

(** the values at the ends of the bracket do not have the same strict sign *)
Definition bracketed (f : R -> R) (a b : R) : Prop := f a * f b <= 0.

(** The same notions for IEEE doubles, through their exact real values. *)
Definition inside64 (a b x : B64) : Prop :=
  is_finite x = true /\ B2R a <= B2R x <= B2R b.

(** the residual has opposite (or zero) signs at the ends, as compared by the code *)
Definition brackets64 (f : B64 -> B64) (a b : B64) : Prop :=
  (nle (f a) nzero = true /\ nle nzero (f b) = true) \/
  (nle nzero (f a) = true /\ nle (f b) nzero = true).

(** strict sign change at the initial bracket *)
Definition straddles64 (f : B64 -> B64) (a b : B64) : Prop :=
  (nlt (f a) nzero = true /\ nle nzero (f b) = true) \/
  (nlt nzero (f a) = true /\ nle (f b) nzero = true).
