(** Model of the TOV package src/tov/tov.hpp, src/tov/tov.cpp and of the problem generator src/pgen/tov.cpp.

    Simplifications.  Arithmetic is exact.  [cpow] is std::pow on the arguments that occur: a base >= 0 and a positive exponent.
    The arrays tov_state_h(v, i) are functions of the grid index; the radial grid is the one of the metric solver
    (Model/MonopoleGR.v: [Grid], [grid_x]).  The equation of state of the problem generator is the ideal gas, the one
    case in which IntegrateTov can run (it reads the parameter "gm1").  The text output and the copies
    to the device are left out. *)
From Coq Require Import Reals Lia.
From Flocq Require Import Core.
From Verif.Model Require Import MonopoleGR.
Local Open Scope R_scope.

(** std::pow(x, y), x >= 0 and y > 0 *)
Definition cpow (x y : R) : R := if Req_bool x 0 then 0 else Rpower x y.

(** tov.hpp:40-44 PolytropeThermoFromP *)
Definition poly_rho (P K Gamma : R) : R := cpow (P / K) (1 / Gamma).
Definition poly_eps (P K Gamma : R) : R := K / (Gamma - 1) * cpow (P / K) ((Gamma - 1) / Gamma).
(** tov.hpp:46-47 *)
Definition PolytropeK (s Gamma : R) : R := exp (s * (Gamma - 1)).
(** tov.hpp:49-50 *)
Definition GetMRHS (r rho_adm : R) : R := 4 * PI * r * r * rho_adm.
(** tov.hpp:52-56 *)
Definition GetPhiRHS (r m P : R) : R :=
  if Req_bool r 0 then 0 else (m + 4 * PI * r * r * r * P) / (r * (r - 2 * m)).
(** tov.hpp:58-64 *)
Definition GetPRHS (r rho_adm m P Pmin : R) : R :=
  if Rlt_bool P Pmin then 0 else - (rho_adm + P) * GetPhiRHS r m P.

(** the vectors in[NTOV], out[NTOV]: components M, P, PHI (tov.hpp:29-31) *)
Record TovState := { t_m : R; t_p : R; t_phi : R }.
(** tov.hpp:66-83 TovRHS *)
Definition TovRHS (r : R) (s : TovState) (K Gamma Pmin : R) : TovState :=
  let P := if Rlt_bool (t_p s) Pmin then 0 else t_p s in
  let rho := poly_rho P K Gamma in
  let eps := poly_eps P K Gamma in
  let rho_adm := rho * (1 + eps) in
  {| t_m := GetMRHS r rho_adm; t_p := GetPRHS r rho_adm (t_m s) P Pmin; t_phi := GetPhiRHS r (t_m s) P |}.

(** state[v] + c * rhs[v] *)
Definition tov_axpy (s : TovState) (c : R) (d : TovState) : TovState :=
  {| t_m := t_m s + c * t_m d; t_p := t_p s + c * t_p d; t_phi := t_phi s + c * t_phi d |}.
(** tov.cpp:158-174, one pass through the first loop *)
Definition tov_step (r dr K Gamma Pmin : R) (s : TovState) : TovState :=
  let k1 := tov_axpy s (/ 2 * dr) (TovRHS r s K Gamma Pmin) in
  tov_axpy s dr (TovRHS r k1 K Gamma Pmin).
(** tov.cpp:148-174: tov_state_h(., i) *)
Fixpoint tov_state (G : Grid) (K Gamma Pmin pc alpha0 : R) (i : nat) : TovState :=
  match i with
  | O => {| t_m := 0; t_p := pc; t_phi := ln alpha0 |}
  | S i => tov_step (grid_x G i) (g_dx G) K Gamma Pmin (tov_state G K Gamma Pmin pc alpha0 i)
  end.

(** tov.cpp:183-192, the second loop: pressure, rest density, specific energy of a grid point *)
Definition tov_intrinsic (K Gamma Pmin press : R) : R * R * R :=
  if Rle_bool press (11 / 10 * Pmin) then (0, 0, 0) else (press, poly_rho press K Gamma, poly_eps press K Gamma).
(** tov.cpp:202-207: the sources handed to the metric solver *)
Definition tov_matter (G : Grid) (K Gamma Pmin pc alpha0 : R) : Matter :=
  let I i := tov_intrinsic K Gamma Pmin (t_p (tov_state G K Gamma Pmin pc alpha0 i)) in
  {| m_rho := fun i => let '(p, rho, eps) := I i in rho * (1 + eps);
     m_j := fun _ => 0;
     m_trcS := fun i => let '(p, rho, eps) := I i in 3 * p;
     m_Srr := fun i => let '(p, rho, eps) := I i in p |}.
Definition tov_rho0 (G : Grid) (K Gamma Pmin pc alpha0 : R) (i : nat) : R :=
  let '(p, rho, eps) := tov_intrinsic K Gamma Pmin (t_p (tov_state G K Gamma Pmin pc alpha0 i)) in rho.
Definition tov_eps (G : Grid) (K Gamma Pmin pc alpha0 : R) (i : nat) : R :=
  let '(p, rho, eps) := tov_intrinsic K Gamma Pmin (t_p (tov_state G K Gamma Pmin pc alpha0 i)) in eps.

(** what the problem generator writes into one cell: density, pressure, energy density, gamma_1, three velocities *)
Record TovCell := { tc_rho : R; tc_P : R; tc_u : R; tc_T : R; tc_gam1 : R; tc_v : nat -> R }.
(** pgen/tov.cpp:95-103 *)
Definition tov_radius (sph : bool) (x1 x2 x3 : R) : R := if sph then x1 else sqrt (x1 * x1 + x2 * x2 + x3 * x3).
(** pgen/tov.cpp:104-126 with the ideal gas P = gm1 rho eps, T = eps/cv, bulk modulus (gm1 + 1) gm1 rho cv T *)
Definition tov_cell (G : Grid) (rho0 eps0 : nat -> R) (gm1 cv pmin rhomin epsmin vpert_a vpert_r vpert_s : R)
           (sph : bool) (x1 x2 x3 : R) : TovCell :=
  let r := tov_radius sph x1 x2 x3 in
  let rho := Rmax rhomin (Interpolate G rho0 r) in
  let eps := Rmax epsmin (Interpolate G eps0 r) in
  let P := Rmax pmin (gm1 * rho * eps) in
  let T := eps / cv in
  {| tc_rho := rho; tc_P := P; tc_u := eps * rho; tc_T := T; tc_gam1 := (gm1 + 1) * gm1 * rho * cv * T / P;
     tc_v := fun d => if andb (Nat.eqb d 0) (Rlt_bool 0 vpert_a)
                      then vpert_a * r * exp (- (r - vpert_r) * (r - vpert_r) / (4 * vpert_s * vpert_s)) else 0 |}.
