(** The state of a run with cooling: conserved data, and the primitives derived from them.

    The primitives are Derived, OneCopy fields (fluid.cpp:141-145): one copy per block, shared by
    all containers, overwritten by the conversion at the end of every stage and by nothing else.
    A vector is indexed by zone and variable together.  Simplifications: the rates of a stage
    (fluxes, geometric sources) are one function of the primitives; the reduction of the tasks of
    a stage to the formula below is C45_step; conversion, repair, floors, boundary exchange and
    the second conversion of a stage are the one function [settle], giving the conserved data and
    the primitives that are left. *)
From Coq Require Import Reals List.
Import ListNotations.
Local Open Scope R_scope.

Definition Field := nat -> R.
(** the conserved data of container "base" between steps, and the primitives *)
Record RunState := mkRun { conserved : Field; primitive : Field }.

Section PostStep.
Variables (rate : Field -> Field) (settle : Field -> RunState) (force : R -> Field -> Field).

(** phoebus_driver.cpp:309-367, 558-597 (rates from the primitives, average, update) and 582-676
    (conversion), one stage with coefficient beta: s enters, base is the state at the
    beginning of the step *)
Definition stage_update (dt beta : R) (base : Field) (s : RunState) : RunState :=
  settle (fun i => (1 - beta) * base i + beta * (conserved s i + dt * rate (primitive s) i)).
(** phoebus_driver.cpp:135-139: the stages of one step *)
Fixpoint stage_updates (dt : R) (betas : list R) (base : Field) (s : RunState) : RunState :=
  match betas with [] => s | b :: r => stage_updates dt r base (stage_update dt b base s) end.
(** phoebus_driver.cpp:785-793: the four-force from the primitives of "base", times dt added to the
    conserved data of "base" (radiation.cpp:571-581); nothing converts afterwards *)
Definition post_step (dt : R) (s : RunState) : RunState :=
  mkRun (fun i => conserved s i + dt * force dt (primitive s) i) (primitive s).
(** phoebus_driver.cpp:121-146 *)
Definition full_step (betas : list R) (dt : R) (s : RunState) : RunState :=
  post_step dt (stage_updates dt betas (conserved s) s).
(** the run, one time step after the other *)
Fixpoint run_from (betas : list R) (s : RunState) (dts : list R) : RunState :=
  match dts with [] => s | dt :: r => run_from betas (full_step betas dt s) r end.
(** a start: the problem generator's, and a restart file's, conserved data; Parthenon converts
    them before the first step (phoebus_driver.cpp:189-198, and Mesh::Initialize, which is not
    in /repo) *)
Definition start (c : Field) : RunState := settle c.
End PostStep.
