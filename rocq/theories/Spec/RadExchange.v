(** Totals over matter and radiation in one zone, and thermal balance. *)
From Coq Require Import Reals List.
Import ListNotations.
Local Open Scope R_scope.

Fixpoint species_sum (n : nat) (f : nat -> R) : R := match n with O => 0 | S n => species_sum n f + f n end.
(** matter plus n radiation species *)
Definition total (n : nat) (matter : R) (rad : nat -> R) : R := matter + species_sum n rad.

(** comoving energy density of a species after time dtau of absorption and emission with
    coefficient kappa towards the thermal value JBB, starting from J0 (one implicit step):
    J - J0 = dtau kappa (JBB - J) *)
Definition relaxed (dtau kappa JBB J0 J : R) : Prop := J - J0 = dtau * kappa * (JBB - J).
Definition list_sum (l : list R) : R := fold_right Rplus 0 l.
