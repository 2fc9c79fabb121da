(** The time step driver, src/phoebus_driver.cpp: choice of the step, Runge-Kutta stages, order
    of the tasks of a stage, time of the geometry.  Over the reals.

    From Parthenon (not in the repository, hence part of the environment that is assumed):
    AverageIndependentData(a, b, w) stores w a + (1-w) b in a; UpdateIndependentData(a, d, dt, b)
    stores a + dt d in b; FluxDivergence(a, d) stores minus the divergence of a's fluxes in d;
    SumData(names, a, b, c) stores a + b in c for the named variables; a task may run as soon as
    the tasks it was added with have completed, regions run one after the other; the tables of
    the low storage integrator are rk1 = 1; rk2 = 1, 1/2; rk3 = 1, 1/4, 2/3; vl2 = 1/2, 1;
    stage_name[0] and stage_name[nstages] are both "base". *)
From Coq Require Import Reals List Bool Arith.
From Flocq Require Import Core.
Import ListNotations.
Local Open Scope R_scope.

(** *** Step, phoebus_driver.cpp:121-146 *)
Inductive TaskListStatus := complete | running | fail.
Definition is_complete (s : TaskListStatus) : bool := match s with complete => true | _ => false end.

(** 122-133: [first_call] is a static that no line ever clears, so it is true in every call;
    returns the step and the new dt_init_fact *)
Definition step_dt (is_restart : bool) (dt_init fact time tlim est : R) : R * R :=
  let first_call := true in
  let dt_trial := est in
  let dt_trial := if (first_call : bool) then (if Rlt_bool dt_init dt_trial then dt_init else dt_trial) else dt_trial in
  let '(dt_trial, fact) := if is_restart then (dt_trial, fact) else (dt_trial * fact, 1) in
  let dt_trial := if Rlt_bool tlim (time + dt_trial) then tlim - time else dt_trial in
  (dt_trial, fact).
(** the run: [ests] are the estimates Parthenon hands to the successive steps; returns the list
    of steps taken *)
Fixpoint run_dt (is_restart : bool) (dt_init fact time tlim : R) (ests : list R) : list R :=
  match ests with
  | nil => nil
  | est :: r => let '(dt, fact') := step_dt is_restart dt_init fact time tlim est in
                dt :: run_dt is_restart dt_init fact' (time + dt) tlim r
  end.

(** 135-143: the stages (each with its status), then the radiation step; the status of the
    stages is overwritten *)
Fixpoint run_stages (stages : list TaskListStatus) (status : TaskListStatus) : TaskListStatus * nat :=
  match stages with
  | nil => (status, O)
  | s :: r => if is_complete s then let '(st, n) := run_stages r s in (st, S n) else (s, 1%nat)
  end.
Definition Step_status (stages : list TaskListStatus) (post : TaskListStatus) : TaskListStatus :=
  let '(status, _) := run_stages stages complete in
  let status := post in status.

(** *** one stage *)
(** a value of the independent (conserved) variables of all zones; the index stands for a zone
    and a variable *)
Definition Vars := nat -> R.
(** the containers of a stage: independent data of the containers by number (0 is "base"), dUdt,
    the geometric sources and minus the divergence of the fluxes; the last two are filled by the
    earlier regions of the stage (sync_region_1 and async_region_1, 309-367) from container
    stage-1 *)
Record Mem := mkMem { cont : nat -> Vars; dudt : Vars; gsrc : Vars; fluxdiv : Vars }.
Definition put (c : nat -> Vars) (n : nat) (v : Vars) : nat -> Vars := fun k => if Nat.eqb k n then v else c k.

(** sync_region_3, 558-597 *)
Inductive Task := SendFlux | RecvFlux | SetFlux | FluxDiv | AddRhs | Avg | Upd.
(** what each task was added with *)
Definition depends (t : Task) : list Task :=
  match t with SendFlux | RecvFlux => nil | SetFlux => [RecvFlux] | FluxDiv => [SetFlux] | AddRhs => [FluxDiv] | Avg => [FluxDiv] | Upd => [Avg] end.
Definition all_tasks : list Task := [SendFlux; RecvFlux; SetFlux; FluxDiv; AddRhs; Avg; Upd].
(** effect of a task of stage [inc -> outc]; [named] are the variables in src_names (247-256) *)
Definition exec (named : nat -> bool) (beta dt : R) (inc outc : nat) (t : Task) (m : Mem) : Mem :=
  match t with
  | SendFlux | RecvFlux | SetFlux => m
  | FluxDiv => mkMem (cont m) (fluxdiv m) (gsrc m) (fluxdiv m)
  | AddRhs => mkMem (cont m) (fun i => if named i then dudt m i + gsrc m i else dudt m i) (gsrc m) (fluxdiv m)
  | Avg => mkMem (put (cont m) inc (fun i => beta * cont m inc i + (1 - beta) * cont m 0%nat i)) (dudt m) (gsrc m) (fluxdiv m)
  | Upd => mkMem (put (cont m) outc (fun i => cont m inc i + beta * dt * dudt m i)) (dudt m) (gsrc m) (fluxdiv m)
  end.
Definition exec_all (named : nat -> bool) (beta dt : R) (inc outc : nat) (order : list Task) (m : Mem) : Mem :=
  fold_left (fun m t => exec named beta dt inc outc t m) order m.

(** 204-597: stage number [stage] of [n]: fluxes F and sources S are those of container stage-1,
    the tasks of sync_region_3 run in the given order *)
Definition container (n stage : nat) : nat := if Nat.eqb stage n then 0%nat else stage.
Definition rk_stage (named : nat -> bool) (F S : Vars -> Vars) (order : list Task) (n : nat) (dt : R) (stage : nat) (beta : R) (m : Mem) : Mem :=
  let inc := container n (stage - 1) in
  exec_all named beta dt inc (container n stage) order (mkMem (cont m) (dudt m) (S (cont m inc)) (F (cont m inc))).
(** the stages [stage], stage+1, ... with the coefficients [betas] *)
Fixpoint rk_stages (named : nat -> bool) (F S : Vars -> Vars) (order : list Task) (n : nat) (dt : R) (stage : nat) (betas : list R) (m : Mem) : Mem :=
  match betas with
  | nil => m
  | b :: r => rk_stages named F S order n dt (stage + 1) r (rk_stage named F S order n dt stage b m)
  end.
Definition rk_step (named : nat -> bool) (F S : Vars -> Vars) (order : list Task) (dt : R) (betas : list R) (m : Mem) : Mem :=
  rk_stages named F S order (length betas) dt 1 betas m.

Definition rk1 : list R := [1].
Definition rk2 : list R := [1; 1 / 2].
Definition rk3 : list R := [1; 1 / 4; 2 / 3].
Definition vl2 : list R := [1 / 2; 1].

(** 276-280: time given to a time-dependent geometry *)
Definition geometry_time (time dt : R) (betas : list R) (stage : nat) : R :=
  time + (if Nat.ltb 1 stage then nth (stage - 2) betas 0 else 0) * dt.
