(** Initial data of the analytic test problems of src/pgen.

    Simplifications.  Arithmetic is exact (reals).  Temperature, Gamma_1 and Ye are left out
    (except where noted).  A zone is modelled by what it is given at its centre. *)
From Coq Require Import Reals ZArith List Bool.
From Flocq Require Import Core.
From Verif.Model Require Import Num RootFind Geometry Relativity Units LinearModes.
From Verif.Spec Require Import Tensor.
Local Open Scope R_scope.

(** pgen.hpp:141-151, with the default RootFind of root_find.hpp:23 (max_iter INT_MAX).
    [press rho e] is eos.PressureFromDensityInternalEnergy at the given Ye; None = abort *)
Definition energy_from_rho_P (press : R -> R -> R) (rho P emin emax : R) : option R :=
  if Rle_bool 0 P then
    match regula_falsi (fun e => press rho e - P) (new_RootFind 2147483647) emin emax
            (/ 10 ^ 10 * P) (emin - 10 ^ 10) false with
    | Returned e _ _ _ => Some (rho * e)
    | _ => None
    end
  else None.

(** blandford_mckee.cpp:52-53 *)
Definition bm_rescale (wshock : R) : R := sqrt (1 - 1 / (wshock * wshock)).
(** blandford_mckee.cpp:73-79, 99: density, pressure and radial W v at radius r *)
Definition bm_cell (wshock rho0 tshock P0 r : R) : R * R * R :=
  let rescale := bm_rescale wshock in
  let vel := if Rlt_bool (Rabs r) tshock then rescale * r / tshock else 0 in
  let W := 1 / sqrt (1 - vel * vel) in
  (rho0 * (W / tshock) ^ 3, rescale * rescale * P0 * (W / tshock) ^ 4, W * vel).

(** sedov.cpp:63-64, 95 *)
Definition sedov_u (Eexp rinner ua r : R) : R :=
  let v_inner := 4 / 3 * PI * rinner ^ 3 in
  let uinner := Eexp / v_inner in
  if Rle_bool r rinner then uinner else ua.
(** sedov.cpp:75-83 with spherical_coords = false: the radius uses the mesh dimensions only *)
Definition sedov_r (ndim : nat) (x y z : R) : R :=
  let y := if Nat.ltb 1 ndim then y else 0 in
  let z := if Nat.ltb 2 ndim then z else 0 in
  sqrt (x * x + y * y + z * z).

(** radiation_advection.cpp:93-96, 117-118: time and position in the comoving frame *)
Definition ra_W (vx : R) : R := 1 / sqrt (1 - vx * vx).
Definition ra_t0 (kappa width : R) : R := 15 / 10 * kappa * width * width.
Definition ra_tp (kappa width vx x : R) : R := ra_W vx * (ra_t0 kappa width - vx * x).
Definition ra_xp (kappa width vx x : R) : R := ra_W vx * (x - vx * ra_t0 kappa width).
Definition ra_x0p (kappa width vx : R) : R := (5 / 10 - vx * ra_t0 kappa width) * ra_W vx.
(** radiation_advection.cpp:123-131 *)
Definition ra_J (boost : bool) (J0 kappa width vx x : R) : R :=
  if boost then
    J0 * Rmax (sqrt (ra_t0 kappa width / ra_tp kappa width vx x)
               * exp (-3 * kappa * (ra_xp kappa width vx x - ra_x0p kappa width vx) ^ 2 / (4 * ra_tp kappa width vx x)))
              (/ 10 ^ 10)
  else J0 * Rmax (exp (- ((x - 5 / 10) / width) ^ 2 / 2)) (/ 10 ^ 10).
(** radiation_advection.cpp:150-165 ProblemModifier, and :66, the opacity in code units *)
Definition ra_kappa_cgs (u : Units R) (tau x1min x1max : R) : R :=
  let rho0 := 1 * GetMassDensityCodeToCGS u in
  let dx1 := (x1max - x1min) * GetLengthCodeToCGS u in
  tau / (rho0 * dx1).
Definition ra_kappa (u : Units R) (kappa_cgs : R) : R :=
  kappa_cgs * GetLengthCGSToCode u * GetLengthCGSToCode u / GetMassCGSToCode u.

(** friedmann.cpp:84: [SPACELOOP(i) v(ivlo + i, k, j, i) = 0] shadows the zone index i.
    [v d i] is velocity component d in zone i; one zone's share of the loop, then all n zones *)
Definition set2 (v : nat -> nat -> R) (d i : nat) (x : R) : nat -> nat -> R :=
  fun d' i' => if Nat.eqb d' d && Nat.eqb i' i then x else v d' i'.
Definition friedmann_zone (v : nat -> nat -> R) : nat -> nat -> R :=
  fold_left (fun v i => set2 v i i 0) (seq 0 3) v.
Definition friedmann_velocity (n : nat) (v : nat -> nat -> R) : nat -> nat -> R :=
  fold_left (fun v _ => friedmann_zone v) (seq 0 n) v.

(** shock_tube.cpp:102-109; progenitor.cpp:151-162 has the same three lines with all components *)
Definition shock_tube_velocity (gamma : mat) (vel : R) : vec :=
  let v : vec := row3 vel 0 0 in
  let Gamma := GetLorentzFactor v gamma in
  row3 (v 0%nat * Gamma) (v 1%nat) (v 2%nat).
Definition homologous_velocity (gamma : mat) (v : vec) : vec :=
  let Gamma := GetLorentzFactor v gamma in fun d => v d * Gamma.
(** shock_tube.cpp:85-89, 118: the electron fraction used for the energy, then the one stored *)
Definition shock_tube_ye (x : R) : R * R := (5 / 10, sin (2 * PI * x)).
(** kh.cpp:107-112 and advection.cpp:96-103, g the spatial part of gcov *)
Definition scaled_velocity (gamma : mat) (v : vec) : vec :=
  let vsq := dot3 gamma v v in
  let W := 1 / sqrt (1 - vsq) in fun d => v d * W.
(** kh.cpp:103-106: three random numbers in [0,1), and the bulk flow *)
Definition kh_velocity (gamma : mat) (v0 v1 v_pert y : R) (rnd : vec) : vec :=
  let vel := if Rlt_bool (Rabs y) (1 / 4) then v1 else v0 in
  scaled_velocity gamma (row3 (v_pert * 2 * (rnd 0%nat - 1 / 2) + vel) (v_pert * 2 * (rnd 1%nat - 1 / 2))
                              (v_pert * 2 * (rnd 2%nat - 1 / 2))).

(** rotor.cpp:88-101, 120-127: velocity and field in Minkowski space *)
Definition rotor_flat (omega r0 x y : R) : vec :=
  let r := sqrt (x * x + y * y) in
  let w := if Rlt_bool r r0 then omega else 0 in
  row3 (- y * w) (x * w) 0.
(** rotor.cpp:88-158: velocity and field in the chart; [to_chart], [lm_J] and [flat_bcon] are
    the same lines as in linear_modes.cpp *)
Definition rotor_cell (ch : Chart) (shift : vec) (omega r0 B0 x y : R) : vec * vec :=
  let v := rotor_flat omega r0 x (lm_y ch x y) in
  let Gamma := 1 / sqrt (1 - v 0%nat * v 0%nat - v 1%nat * v 1%nat) in
  let vp : vec := row3 (Gamma * v 0%nat) (Gamma * v 1%nat) 0 in
  to_chart (lm_alpha ch) shift (lm_J ch x) (flat_ucon Gamma vp) (flat_bcon Gamma vp (row3 B0 0 0)).
(** rotor.cpp:72-84 *)
Definition rotor_tlim (ch : Chart) (tlim : R) : R := match ch with ch_snake _ _ alpha _ => tlim / alpha | _ => tlim end.
(** rotor.cpp:72-84 runs once per mesh block, reading and storing the final time each time; the
    driver reads it after the last block *)
Definition rotor_run_tlim (ch : Chart) (nblocks : nat) (tlim : R) : R := Nat.iter nblocks (rotor_tlim ch) tlim.
