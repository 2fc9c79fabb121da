(** The light-bulb neutrino scheme with Liebendoerfer deleptonisation: src/radiation/cooling_function.cpp,
    src/radiation/light_bulb_constants.hpp and its task lists in src/phoebus_driver.cpp, over the reals.
    Decimal literals stand for their exact values, std::log10, std::pow and std::exp for the real functions. *)
From Coq Require Import Reals List Bool.
From Flocq Require Import Core.
From Verif.Model Require Import Num Robust LinearAlgebra Geometry Prim2Con RadSource.
From Verif.Spec Require Import Tensor.
Import ListNotations.
Local Open Scope R_scope.

Definition log10 (x : R) : R := ln x / ln 10.
Definition pow10 (y : R) : R := Rpower 10 y.

(** light_bulb_constants.hpp:36-43 *)
Definition XL1 : R := 835 / 100.  Definition XL2 : R := 88 / 10.  Definition XL3 : R := 1415 / 100.  Definition XL4 : R := 145 / 10.
Definition YL1 : R := -4.         Definition YL2 : R := - 18 / 10. Definition YL3 : R := 24 / 10.    Definition YL4 : R := 34 / 10.
(** cooling_function.cpp:50-75 LightBulbCalcTau in one zone, rho in g/cm^3 *)
Definition calc_tau (rho : R) : R :=
  let lRho := log10 rho in
  if Rlt_bool lRho XL2 then pow10 ((YL2 - YL1) / (XL2 - XL1) * (lRho - XL1) + YL1)
  else if Rlt_bool XL3 lRho then pow10 ((YL4 - YL3) / (XL4 - XL3) * (lRho - XL3) + YL3)
  else pow10 ((YL3 - YL2) / (XL3 - XL2) * (lRho - XL2) + YL2).

(** light_bulb_constants.hpp:21-29 and cooling_function.cpp:230-231: the fit Ye(log10 rho) *)
Definition ye_fit (lRho : R) : R :=
  let lRho2 := lRho * lRho in let lRho3 := lRho2 * lRho in let lRho4 := lRho2 * lRho2 in
  let lRho5 := lRho4 * lRho in let lRho6 := lRho3 * lRho3 in
  2120282875020 / 10 ^ 10 + - 1279083733386 / 10 ^ 10 * lRho + 3199984467460 / 10 ^ 11 * lRho2 + - 4238440349145 / 10 ^ 12 * lRho3
  + 3133904196302 / 10 ^ 13 * lRho4 + - 1226365543366 / 10 ^ 14 * lRho5 + 1983947360151 / 10 ^ 16 * lRho6.
(** cooling_function.cpp:208 do_densityregion *)
Definition in_density_region (lRho : R) : bool := Rle_bool 8 lRho && Rle_bool lRho 13.
(** cooling_function.cpp:229-239: dYe inside the density region *)
Definition ye_change (rho Ye : R) : R :=
  let dYe := Rmax (- (5 / 100) * Ye) (Rmin 0 (ye_fit (log10 rho) - Ye)) in
  let dYe := if Rlt_bool rho (3 * 10 ^ 8) then dYe * (rho - 10 ^ 8) / (2 * 10 ^ 8) else dYe in
  if Rlt_bool Ye (27 / 100) then 0 else dYe.
(** cooling_function.cpp:203, 215-244: Jye, added to Gye *)
Definition ye_source (do_liebendorfer : bool) (rho Ye dt cdensity : R) : R :=
  if do_liebendorfer then
    if in_density_region (log10 rho) then ye_change rho Ye / dt * cdensity else 0
  else 0.

(** cooling_function.cpp:247-272: heating and cooling per mass in code units.  Xn, Xp come from the
    tabulated equation of state and are arguments here; T in K, r in cm; fact is CGSToCodeFact *)
Definition T_norm : R := 2 * (116040892301 / 10 ^ 11 * 10 ^ 10).
Definition heating (do_gain : bool) (Xn Xp lum tau r fact : R) : R :=
  (if do_gain then 1 else 0) * (Xn + Xp) * (1544 * 10 ^ 17 * lum) * exp (- tau) * (10 ^ 7 / r) ^ 2 * fact.
Definition cooling (Xn Xp tau T fact : R) : R := (Xn + Xp) * (1399 * 10 ^ 17) * exp (- tau) * (T / T_norm) ^ 6 * fact.

(** One zone of CoolingFunctionCalculateFourForce (light bulb) and then of ApplyRadiationFourForce:
    the forces start at zero (170-177), 269-286, radiation.cpp:571-581 *)
Definition lightbulb_zone (do_liebendorfer : bool) (u : vec) (gcov : mat) (rho Ye dt H C : R) (c : Cons) : Cons :=
  let G := add_lightbulb u gcov (cD c) H C (ye_source do_liebendorfer rho Ye dt (cD c)) (fun _ => 0, 0) in
  ApplyRadiationFourForce true dt (fst G) (snd G) c.

(** *** the task lists, phoebus_driver.cpp:762-793.  On each rank there is one list per partition:
    LightBulbCalcTau, CheckDoGain, (list 0 only) StartReduce, CheckReduce once for the whole region,
    then the four-force.  CheckReduce depends on StartReduce in list 0 and on nothing in the others. *)
Inductive Task :=
| Tau (r p : nat) | Check (r p : nat) | Start (r : nat) | Finish (r : nat) | Force (r p : nat).
(** A rank's memory: the latch do_gain_reducer.val; tau zone by zone in every partition.  [contrib]
    is what the rank handed to the reduction; [used] what the four-force of a partition read. *)
Record World := mkWorld { val : nat -> bool; taus : nat -> nat -> list R; contrib : nat -> bool; used : nat -> nat -> option (bool * list R) }.
Definition upd1 {A} (f : nat -> A) (n : nat) (x : A) : nat -> A := fun m => if Nat.eqb m n then x else f m.
Definition upd2 {A} (f : nat -> nat -> A) (n m : nat) (x : A) : nat -> nat -> A := fun a b => if Nat.eqb a n && Nat.eqb b m then x else f a b.
(** cooling_function.cpp:109-115: the sum of the flags  tau > 1.e2 , converted to bool *)
Definition any_thick (ts : list R) : bool := negb (Nat.eqb (fold_right (fun t n => ((if Rlt_bool 100 t then 1 else 0) + n)%nat) 0%nat ts) 0).
(** cooling_function.cpp:79-82, 116 *)
Definition check_do_gain (v : bool) (ts : list R) : bool := if v then v else orb (any_thick ts) v.
(** the effect of one task; [nranks] ranks take part in the MPI_LOR *)
Definition run_task (nranks : nat) (rho : nat -> nat -> list R) (t : Task) (w : World) : World :=
  match t with
  | Tau r p => mkWorld (val w) (upd2 (taus w) r p (map calc_tau (rho r p))) (contrib w) (used w)
  | Check r p => mkWorld (upd1 (val w) r (check_do_gain (val w r) (taus w r p))) (taus w) (contrib w) (used w)
  | Start r => mkWorld (val w) (taus w) (upd1 (contrib w) r (val w r)) (used w)
  | Finish r => mkWorld (upd1 (val w) r (existsb (contrib w) (seq 0 nranks))) (taus w) (contrib w) (used w)
  | Force r p => mkWorld (val w) (taus w) (contrib w) (upd2 (used w) r p (Some (val w r, taus w r p)))
  end.
Definition run (nranks : nat) (rho : nat -> nat -> list R) (l : list Task) (w : World) : World :=
  fold_left (fun w t => run_task nranks rho t w) l w.
(** The orders in which the task lists of one step may be executed: every task once, after those it
    depends on; a reduction completes only after every rank has started it. *)
Definition before (a b : Task) (l : list Task) : Prop := forall l1 l2, l = l1 ++ b :: l2 -> In a l1.
Record legal (nranks nparts : nat) (l : list Task) : Prop := {
  once : NoDup l;
  tasks : forall t, In t l <-> match t with
            | Tau r p | Check r p | Force r p => (r < nranks)%nat /\ (p < nparts)%nat
            | Start r | Finish r => (r < nranks)%nat end;
  tau_first : forall r p, before (Tau r p) (Check r p) l;
  check_first : forall r, before (Check r 0) (Start r) l;
  start_first : forall r r', (r' < nranks)%nat -> before (Start r') (Finish r) l;
  finish_first : forall r p, before (Finish r) (Force r p) l }.

(** radiation.cpp:138-141: the parameter is mutable, not a restart parameter *)
Definition fresh (always_gain : bool) (w : World) : World := mkWorld (fun _ => always_gain) (taus w) (contrib w) (used w).
