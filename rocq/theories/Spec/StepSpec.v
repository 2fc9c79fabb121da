(** Explicit Runge-Kutta methods in Shu-Osher form and orders of tasks. *)
From Coq Require Import Reals List.
Import ListNotations.
Local Open Scope R_scope.

(** u_s = (1-beta_s) u + beta_s (u_{s-1} + dt R(u_{s-1})), componentwise, starting from v *)
Fixpoint shu_osher (rhs : (nat -> R) -> nat -> R) (dt : R) (u : nat -> R) (betas : list R) (v : nat -> R) : nat -> R :=
  match betas with
  | nil => v
  | b :: r => shu_osher rhs dt u r (fun i => (1 - b) * u i + b * (v i + dt * rhs v i))
  end.
Definition convex (A : (nat -> R) -> Prop) : Prop := forall u v w, 0 <= w <= 1 -> A u -> A v -> A (fun i => (1 - w) * u i + w * v i).

(** a comes before b in l *)
Definition before {T} (a b : T) (l : list T) : Prop := exists l1 l2 l3, l = l1 ++ a :: l2 ++ b :: l3.
(** l runs every task of [all] once, each after the tasks it depends on *)
Definition legal {T} (all : list T) (depends : T -> list T) (l : list T) : Prop :=
  NoDup l /\ (forall t, In t l <-> In t all) /\ forall t d, In t all -> In d (depends t) -> before d t l.

(** the time, in units of the step, whose solution a stage approximates: what the method gives
    for u' = 1 *)
Fixpoint abscissa (betas : list R) : R := match betas with nil => 0 | b :: r => b * (abscissa r + 1) end.
(** abscissa of the value entering stage s: the coefficients of the stages before it, last first *)
Definition stage_abscissa (betas : list R) (stage : nat) : R := abscissa (rev (firstn (stage - 1) betas)).
