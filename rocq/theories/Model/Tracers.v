(** src/tracers/tracers.hpp, tracers.cpp: tracer particles, over the reals.
    Positions have components 0,1,2 = x,y,z; the geometry is queried at time 0
    (tracers.hpp:58-62). *)
From Coq Require Import Reals ZArith Bool.
From Verif.Model Require Import Num Geometry Relativity Interpolation.
From Verif.Spec Require Import Tensor.
Local Open Scope R_scope.

(** the variables of a block that the tracers read *)
Inductive TVar := Tvel (i : nat) | Trho | Ttemp | Tenergy | Tpressure | TB (i : nat) | Tye.
Record Block := mkBlock { bl_a1 : Axis; bl_a2 : Axis; bl_a3 : Axis; bl_var : TVar -> field }.
(** LCInterp::Do(b, x, y, z, pack, v) on a pack of blocks *)
Definition interp (pack : nat -> Block) (b : nat) (x : vec) (v : TVar) : R :=
  Do (bl_a1 (pack b)) (bl_a2 (pack b)) (bl_a3 (pack b)) (x 0%nat) (x 1%nat) (x 2%nat) (bl_var (pack b) v).
(** the arguments (0.0, x, y, z) of the geometry queries *)
Definition at_time0 (x : vec) : point := fun m => match m with O => 0 | S i => x i end.

(** tracers.hpp:50-83; the block index passed to the interpolation is the literal 0
    (lines 66-68) *)
Definition tracers_rhs (G : System) (pack : nat -> Block) (ndim : nat) (x : vec) : vec :=
  let gcov4 := SpacetimeMetric G (at_time0 x) in
  let lapse := Lapse G (at_time0 x) in
  let shift := ContravariantShift G (at_time0 x) in
  let Wvel : vec := fun i => interp pack 0 x (Tvel i) in
  let W := GetLorentzFactor4 Wvel gcov4 in
  fun i => match i with
  | O => lapse * (Wvel 0%nat / W) - shift 0%nat
  | 1%nat => lapse * (Wvel 1%nat / W) - shift 1%nat
  | _ => if Nat.ltb 2 ndim then lapse * (Wvel 2%nat / W) - shift 2%nat else 0
  end.
(** tracers.cpp:116-152: predictor and corrector *)
Definition rk2 (rhs : vec -> vec) (dt : R) (x : vec) : vec :=
  let k : vec := fun i => x i + / 2 * dt * rhs x i in
  fun i => x i + rhs k i * dt.
(** tracers.cpp:118-155, tracer in block [b] of the pack: the new position, and the block it
    is sent to; [block_at b x] is GetNeighborBlockIndex (parthenon), which the code calls with
    the position before the update *)
Definition AdvectTracer (G : System) (pack : nat -> Block) (ndim : nat) (block_at : nat -> vec -> nat) (dt : R) (b : nat) (x : vec) : vec * nat :=
  (rk2 (tracers_rhs G pack ndim) dt x, block_at b x).

(** tracers.cpp:167-284: what is stored for a tracer.  The pack is that of one block, so
    block 0 is the tracer's own; p::ye is not among the packed variables, so imap[p::ye] is
    the pair (-1,-2) (parthenon) and the test pye > 0 at line 248 is false *)
Record TracerOut := {
  t_rho : R; t_temperature : R; t_ye : R; t_energy : R; t_entropy : R; t_vel : vec; t_shift : vec;
  t_lapse : R; t_lorentz : R; t_detgamma : R; t_pressure : R; t_bernoulli : R; t_B : vec }.
Definition pye : Z := (-2)%Z.
Definition FillTracer (mhd : bool) (entropy_of : R -> R -> R -> R) (G : System) (pack : nat -> Block) (x : vec) : TracerOut :=
  let gcov4 := SpacetimeMetric G (at_time0 x) in
  let lapse := Lapse G (at_time0 x) in
  let Wvel : vec := fun i => interp pack 0 x (Tvel i) in
  let rho := interp pack 0 x Trho in
  let temperature := interp pack 0 x Ttemp in
  let energy := interp pack 0 x Tenergy in
  let pressure := interp pack 0 x Tpressure in
  let W := GetLorentzFactor4 Wvel gcov4 in
  let ye := if (0 <? pye)%Z then interp pack 0 x Tye else 0 in
  let lambda1 := if (0 <? pye)%Z then ye else 0 in
  let h := 1 + energy + pressure / rho in
  {| t_rho := rho; t_temperature := temperature; t_ye := ye; t_energy := energy;
     t_entropy := entropy_of rho temperature lambda1;
     t_vel := fun i => Wvel i / W; t_shift := ContravariantShift G (at_time0 x); t_lapse := lapse; t_lorentz := W;
     t_detgamma := DetGamma G (at_time0 x); t_pressure := pressure; t_bernoulli := - (W / lapse) * h - 1;
     t_B := fun i => if mhd then interp pack 0 x (TB i) else 0 |}.
