(** Totals over a mesh and over a run. *)
From Coq Require Import Reals List.
Import ListNotations.
Local Open Scope R_scope.

(** sum of w i * v i over the first n indices: the total of a conserved quantity *)
Fixpoint total_of (w : nat -> R) (n : nat) (v : nat -> R) : R :=
  match n with O => 0 | S n => total_of w n v + w n * v n end.
(** the same vector *)
Definition same (u v : nat -> R) : Prop := forall i, u i = v i.
(** one step of Euler's method for du/dt = r(u) *)
Definition euler_step (r : (nat -> R) -> nat -> R) (dt : R) (u v : nat -> R) : Prop :=
  forall i, v i = u i + dt * r u i.
