(** Vocabulary for reductions over the zones of a mesh. *)
From Coq Require Import Reals ZArith List.
From Verif.Model Require Import ParFor History.
From Verif.Spec Require Import FluxSpec.
Import ListNotations.
Local Open Scope R_scope.

(** the zones a plan visits, with repetitions *)
Fixpoint visited (p : plan) : list Zone := match p with Run l => l | Join a b => visited a ++ visited b end.
(** the plan visits every interior zone of nb blocks exactly once, and nothing else *)
Definition covers (nb : nat) (B : Box) (p : plan) : Prop :=
  NoDup (visited p) /\ forall b c, In (b, c) (visited p) <-> (b < nb)%nat /\ in_box B c.
(** sum over the first n naturals *)
Fixpoint sum_blocks (n : nat) (f : nat -> R) : R := match n with O => 0 | S n => sum_blocks n f + f n end.
Definition mesh_total (nb : nat) (B : Box) (f : Zone -> R) : R := sum_blocks nb (fun b => total B (fun c => f (b, c))).
