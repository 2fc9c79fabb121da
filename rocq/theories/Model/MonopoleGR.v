(** Model of the spherically symmetric metric solver src/monopole_gr (monopole_gr_utils.hpp,
    monopole_gr_base.hpp, monopole_gr.cpp, interp_3d_to_1d.hpp) and of its place in the driver.

    Simplifications.  Arithmetic is exact and robust::ratio is [gratio] (the quotient; only a zero
    denominator is replaced by SMALL), except in the time step and in DivideVols, where the
    shifted denominator of robust.hpp is kept.  One-dimensional host arrays are functions of a natural-number
    index; an assignment to one entry is [upd].  The grid is Spiner::RegularGrid1D (not in the
    repository): x(i) = min + i dx, dx = (max - min)/(n - 1), and index(x) is the integer part of
    (x - min)/dx clamped to [0, n-2].  The nan checks, the text dumps and MPI are left out;
    the AllReduce of one rank is the identity. *)
From Coq Require Import Reals ZArith List Lia.
From Flocq Require Import Core.
From Verif.Model Require Import Num Robust Geometry Modified.
From Verif.Spec Require Import Tensor.
Import ListNotations.
Local Open Scope R_scope.

Definition upd (f : nat -> R) (i : nat) (v : R) : nat -> R := fun k => if Nat.eqb k i then v else f k.

(** Spiner::RegularGrid1D (see above) *)
Record Grid := { g_min : R; g_dx : R; g_n : nat }.
Definition grid_x (G : Grid) (i : nat) : R := INR i * g_dx G + g_min G.
Definition grid_index (G : Grid) (x : R) : nat :=
  Nat.min (Z.to_nat (Ztrunc ((x - g_min G) / g_dx G))) (g_n G - 2).

(** monopole_gr_utils.hpp:31-37 *)
Definition GetARHS (a K r rho : R) : R :=
  if Rlt_bool 0 r then gratio (a * (4 + a * a * (- 4 + r * r * (3 * K * K + 32 * PI * rho)))) (8 * r) else 0.
(** monopole_gr_utils.hpp:39-43 *)
Definition GetKRHS (a K r j : R) : R :=
  if Rlt_bool 0 r then 8 * PI * a * a * j - gratio (3 * K) r else 0.
(** monopole_gr_utils.hpp:45-54 HypersurfaceRHS: (da/dr, dK/dr) for state (a, K) and sources (rho, j) *)
Definition HypersurfaceRHS (r : R) (s : R * R) (m : R * R) : R * R :=
  (GetARHS (fst s) (snd s) r (fst m), GetKRHS (fst s) (snd s) r (snd m)).

(** matter on the grid: the components of matter(v, i), monopole_gr_base.hpp:38-43 *)
Record Matter := { m_rho : nat -> R; m_j : nat -> R; m_trcS : nat -> R; m_Srr : nat -> R }.

(** monopole_gr.cpp:312-336, one pass through the loop body: the state at i+1 from the state at i.
    The second evaluation uses the same r as the first. *)
Definition hyper_step (G : Grid) (M : Matter) (i : nat) (st : R * R) : R * R :=
  let r := grid_x G i in let dr := g_dx G in
  let rhs := HypersurfaceRHS r st (m_rho M i, m_j M i) in
  let k1 := (fst st + / 2 * dr * fst rhs, snd st + / 2 * dr * snd rhs) in
  let src_k := (/ 2 * (m_rho M i + m_rho M (S i)), / 2 * (m_j M i + m_j M (S i))) in
  let rhs_k := HypersurfaceRHS r k1 src_k in
  (fst st + dr * fst rhs_k, snd st + dr * snd rhs_k).
(** monopole_gr.cpp:279-336 IntegrateHypersurface: hypersurface_h(., i) *)
Fixpoint IntegrateHypersurface (G : Grid) (M : Matter) (i : nat) : R * R :=
  match i with
  | O => (1, 0)
  | S i => hyper_step G M i (IntegrateHypersurface G M i)
  end.

(** monopole_gr.cpp:432-464: the bands of the matrix and the right-hand side, for a state (a, K) *)
Definition row_l (G : Grid) (a K : nat -> R) (M : Matter) (i : nat) : R :=
  if Nat.eqb i (g_n G - 1) then grid_x G i
  else let dadr := GetARHS (a i) (K i) (grid_x G i) (m_rho M i) in
       - 1 + dadr * grid_x G i / (2 * a i) + grid_x G i * (1 / g_dx G).
Definition row_d (G : Grid) (a K : nat -> R) (M : Matter) (i : nat) : R :=
  if Nat.eqb i 0 then - 1
  else if Nat.eqb i (g_n G - 1) then - (grid_x G i + g_dx G)
  else - grid_x G i * (4 + a i * a i * g_dx G * g_dx G * (3 * K i * K i + 8 * PI * (m_trcS M i + m_rho M i))) / (2 * g_dx G).
Definition row_u (G : Grid) (a K : nat -> R) (M : Matter) (i : nat) : R :=
  if Nat.eqb i 0 then 1
  else let dadr := GetARHS (a i) (K i) (grid_x G i) (m_rho M i) in
       1 - dadr * grid_x G i / (2 * a i) + grid_x G i * (1 / g_dx G).
Definition row_b (G : Grid) (i : nat) : R :=
  if Nat.eqb i (g_n G - 1) then - g_dx G else 0.

(** monopole_gr.cpp:466-471: forward substitution from row i for n rows *)
Fixpoint forward (l u : nat -> R) (n i : nat) (d b : nat -> R) : (nat -> R) * (nat -> R) :=
  match n with
  | O => (d, b)
  | S n => let w := l i / d (i - 1)%nat in
           forward l u n (S i) (upd d i (d i - w * u (i - 1)%nat)) (upd b i (b i - w * b (i - 1)%nat))
  end.
(** monopole_gr.cpp:475-477: back substitution for rows k-1, ..., 0 *)
Fixpoint backward (u d b : nat -> R) (k : nat) (alpha : nat -> R) : nat -> R :=
  match k with
  | O => alpha
  | S k => backward u d b k (upd alpha k ((b k - u k * alpha (S k)) / d k))
  end.
(** monopole_gr.cpp:466-477 on an n by n tridiagonal system *)
Definition thomas (l d u b : nat -> R) (n : nat) (alpha0 : nat -> R) : nat -> R :=
  let '(d', b') := forward l u (n - 1) 1 d b in
  backward u d' b' (n - 1) (upd alpha0 (n - 1) (b' (n - 1)%nat / d' (n - 1)%nat)).
(** monopole_gr.cpp:400-480 LinearSolveForAlpha *)
Definition LinearSolveForAlpha (G : Grid) (a K : nat -> R) (M : Matter) (alpha0 : nat -> R) : nat -> R :=
  thomas (row_l G a K M) (row_d G a K M) (row_u G a K M) (row_b G) (g_n G) alpha0.

(** monopole_gr_base.hpp:61-72 and monopole_gr.cpp:562-571, what SpacetimeToDevice stores at one point *)
Record DevicePoint := { dp_K : R; dp_beta : R; dp_dadr : R; dp_dKdr : R; dp_dalphadr : R; dp_dbetadr : R;
                        dp_dadt : R; dp_dalphadt : R; dp_dKdt : R; dp_dbetadt : R }.

(** monopole_gr.cpp:538-549: first and second difference of the lapse *)
Definition lapse_differences (G : Grid) (alpha : nat -> R) (i : nat) : R * R :=
  let dr := g_dx G in let dr2 := dr * dr in
  if Nat.eqb i 0 then (0, (alpha i + alpha (i + 2)%nat - 2 * alpha (i + 1)%nat) / dr2)
  else if Nat.eqb i (g_n G - 1) then
    ((alpha i - alpha (i - 1)%nat) / dr, (alpha (i - 2)%nat + alpha i - 2 * alpha (i - 1)%nat) / dr2)
  else ((alpha (i + 1)%nat - alpha (i - 1)%nat) / (2 * dr), (alpha (i - 1)%nat + alpha (i + 1)%nat - 2 * alpha i) / dr2).

(** monopole_gr.cpp:551-577, the arithmetic of one point: r, a, the host's K, the lapse and its differences, the sources.
    [mask * v] with mask = !force_static is a conditional; [center] is i == 0. *)
Definition point_rates (force_static center : bool) (r a K0 alpha dalphadr d2alphadr2 rho j S Srr : R) : DevicePoint :=
  let masked (v : R) := if force_static then 0 else v in
  let K := masked K0 in
  let dadr := GetARHS a K r rho in
  let dKdr := masked (GetKRHS a K r j) in
  let a2 := a * a in let a3 := a2 * a in
  let beta := masked (- / 2 * alpha * r * K) in
  let dbetadr := masked (- / 2 * (r * K * dalphadr + alpha * K + alpha * r * dKdr)) in
  let beta2 := beta * beta in
  let dadt := if center then 0 else dadr * beta + a * dbetadr - alpha * a * K in
  let dalphadt := beta * (a * beta * dadt / alpha + a2 * K * beta + 2 * dadr * (1 - beta2)
                          - 2 * (a2 * beta / alpha) * dbetadr) in
  let dadror := if Rlt_bool (/ 100) r then dadr / r else 1 in
  let dKdt := if center then 0 else
    beta * dKdr - d2alphadr2 / a2 + dadr / a3 * dalphadr + alpha * (2 * dadror / a3 - 4 * K * K)
    + 4 * PI * alpha * (S - rho - 2 * Srr) in
  let dbetadt := - / 2 * r * (alpha * dKdt + K * dalphadt) in
  {| dp_K := K; dp_beta := beta; dp_dadr := dadr; dp_dKdr := dKdr; dp_dalphadr := dalphadr; dp_dbetadr := dbetadr;
     dp_dadt := masked dadt; dp_dalphadt := masked dalphadt; dp_dKdt := masked dKdt; dp_dbetadt := masked dbetadt |}.
(** monopole_gr.cpp:516-578 SpacetimeToDevice at grid point i *)
Definition SpacetimeToDevice (force_static : bool) (G : Grid) (a K alpha : nat -> R) (M : Matter) (i : nat) : DevicePoint :=
  let '(d1, d2) := lapse_differences G alpha i in
  point_rates force_static (Nat.eqb i 0) (grid_x G i) (a i) (K i) (alpha i) d1 d2 (m_rho M i) (m_j M i) (m_trcS M i) (m_Srr M i).

(** monopole_gr_base.hpp:77-99 Interpolate (100-123 is the same on a two-index array) *)
Definition Interpolate (G : Grid) (A : nat -> R) (r : R) : R :=
  let ix := grid_index G r in let dx := g_dx G in
  let floor := INR ix * dx + g_min G in
  let '(c1, c2) :=
    if Nat.eqb ix 0 then
      (- (3 * A ix - 4 * A (ix + 1)%nat + A (ix + 2)%nat) / (2 * dx), (A ix - 2 * A (ix + 1)%nat + A (ix + 2)%nat) / (2 * dx * dx))
    else if Nat.eqb ix (g_n G - 1) then
      ((3 * A (ix - 2)%nat - 4 * A (ix - 1)%nat + 3 * A ix) / (2 * dx), (A (ix - 2)%nat - 2 * A (ix - 1)%nat + A ix) / (2 * dx * dx))
    else
      ((A (ix + 1)%nat - A (ix - 1)%nat) / (2 * dx), (A (ix + 1)%nat - 2 * A ix + A (ix - 1)%nat) / (2 * dx * dx)) in
  let xoffset := r - floor in
  A ix + c1 * xoffset + c2 * xoffset * xoffset.

(** monopole_gr_utils.hpp:70-76 *)
Definition InBounds (x r dr : R) : bool := andb (Rle_bool (r - / 2 * dr) x) (Rlt_bool x (r + / 2 * dr)).
(** monopole_gr_utils.hpp:78-103; the debug-only check drsmall <= drbig is left to the statements *)
Definition GetVolIntersect (rsmall drsmall rbig drbig : R) : R :=
  let left_in := InBounds (rsmall - / 2 * drsmall) rbig drbig in
  let right_in := InBounds (rsmall + / 2 * drsmall) rbig drbig in
  (if andb left_in right_in then drsmall / drbig else 0)
  + (if andb right_in (negb left_in) then (rsmall + / 2 * drsmall - (rbig - / 2 * drbig)) / drbig else 0)
  + (if andb left_in (negb right_in) then (rbig + / 2 * drbig - (rsmall - / 2 * drsmall)) / drbig else 0).

(** one 3-D zone seen by InterpolateMatterTo1D: radius, radial width, volume, the four matter values *)
Record Zone := { z_r : R; z_dr : R; z_dv : R; z_m : nat -> R }.
(** interp_3d_to_1d.hpp:148-149 *)
Definition i1dleft (G : Grid) (z : Zone) : nat := (grid_index G (z_r z - z_dr z) - 1)%nat.
Definition i1dright (G : Grid) (z : Zone) : nat := Nat.min (grid_index G (z_r z + z_dr z) + 1) (g_n G - 1).
(** interp_3d_to_1d.hpp:155-156 *)
Definition zone_weight (G : Grid) (z : Zone) (i : nat) : R :=
  GetVolIntersect (grid_x G i) (g_dx G) (z_r z) (z_dr z) * z_dv z.

(** device arrays: vols(i) and matter(v, i) *)
Record Cells := { c_vols : nat -> R; c_matter : nat -> nat -> R }.
(** interp_3d_to_1d.hpp:89-96 *)
Definition cells_zero : Cells := {| c_vols := fun _ => 0; c_matter := fun _ _ => 0 |}.
(** interp_3d_to_1d.hpp:157-162: the atomic adds of one 1-D cell *)
Definition add_cell (G : Grid) (z : Zone) (c : Cells) (i : nat) : Cells :=
  let w := zone_weight G z i in
  {| c_vols := upd (c_vols c) i (c_vols c i + w);
     c_matter := fun v => upd (c_matter c v) i (c_matter c v i + z_m z v * w) |}.
(** interp_3d_to_1d.hpp:153-163: the loop of one 3-D zone over the 1-D cells *)
Definition add_zone (G : Grid) (c : Cells) (z : Zone) : Cells :=
  fold_left (add_cell G z) (seq (i1dleft G z) (i1dright G z + 1 - i1dleft G z)) c.
(** interp_3d_to_1d.hpp:64-167 InterpolateMatterTo1D on the zones of one partition, visited in the
    order of the list; the previous content of the arrays is discarded *)
Definition InterpolateMatterTo1D (G : Grid) (previous : Cells) (zones : list Zone) : Cells :=
  fold_left (add_zone G) zones cells_zero.
(** phoebus_driver.cpp:480-508: one task per partition on the same arrays; the copy to the host
    (list 0) sees some order of the partitions' tasks *)
Definition partitions_1d (G : Grid) (start : Cells) (parts : list (list Zone)) : Cells :=
  fold_left (InterpolateMatterTo1D G) parts start.

(** monopole_gr.cpp:634-648 DivideVols: matter_cells_h after the division (ratio with the shifted
    denominator of robust.hpp), then matter_h *)
Definition cell_mean (c : Cells) (v i : nat) : R := ratio (T:=R) (c_matter c v i) (Rabs (c_vols c i)).
Definition DivideVols (c : Cells) (v i : nat) : R :=
  match i with
  | O => if orb (Nat.eqb v 1) (Nat.eqb v 3) then 0 else cell_mean c v 0
  | S k => / 2 * (cell_mean c v (S k) + cell_mean c v k)
  end.

(** interp_3d_to_1d.hpp:204-219: what the helper computes before choosing coordinates:
    rho0, S^d and the mixed spatial stress T^l_m + beta^l T^0_m *)
Definition adm_rho (alpha : R) (T : mat) : R := alpha * alpha * T 0%nat 0%nat.
Definition adm_S (alpha : R) (beta : vec) (T : mat) (d : nat) : R :=
  alpha * T 0%nat (S d) + alpha * beta d * T 0%nat 0%nat.
Definition TConCov (g T : mat) (mu nu : nat) : R := 0 + sum4 (fun nup => g nu nup * T mu nup).
Definition adm_stress (g : mat) (beta : vec) (T : mat) (l m : nat) : R :=
  TConCov g T (S l) (S m) + beta l * TConCov g T 0 (S m).
(** interp_3d_to_1d.hpp:244-249 (spherical) *)
Definition vars_sph (g : mat) (alpha : R) (beta : vec) (T : mat) : R * R * R * R :=
  (adm_rho alpha T, adm_S alpha beta T 0, adm_stress g beta T 0 0, sum3 (fun d => adm_stress g beta T d d)).
(** interp_3d_to_1d.hpp:220-243 (Cartesian), with the Jacobians c2s = d(sph)/d(cart), s2c = d(cart)/d(sph) *)
Definition ssph (c2s s2c g : mat) (beta : vec) (T : mat) (ip jp : nat) : R :=
  sum3 (fun l => sum3 (fun m => c2s ip l * s2c m jp * adm_stress g beta T l m)).
Definition vars_cart (c2s s2c g : mat) (alpha : R) (beta : vec) (T : mat) : R * R * R * R :=
  (adm_rho alpha T, sum3 (fun d => c2s 0%nat d * adm_S alpha beta T d), ssph c2s s2c g beta T 0 0,
   sum3 (fun d => ssph c2s s2c g beta T d d)).

(** monopole_gr.cpp:216-241 EstimateTimeStep (not force_static): the minimum over the grid of
    |lapse / (d lapse/dt)|, starting from the reduction's identity [top] *)
Fixpoint min_timescale (top : R) (alpha dalphadt : nat -> R) (n : nat) : R :=
  match n with
  | O => top
  | S n => Rmin (min_timescale top alpha dalphadt n) (Rabs (ratio (T:=R) (alpha n) (dalphadt n)))
  end.
Definition EstimateTimeStep (top dtfac : R) (alpha dalphadt : nat -> R) (npoints : nat) : R :=
  dtfac * min_timescale top alpha dalphadt npoints.

(** phoebus_driver.cpp:228-247: whether the solver runs in this call, and the new call counter *)
Definition monopole_call (enabled force_static : bool) (run_n_times nth_call : Z) : bool * Z :=
  let active := andb (andb enabled (orb (run_n_times <? 0)%Z (nth_call <=? run_n_times)%Z)) (negb force_static) in
  (active, if active then (nth_call + 1)%Z else nth_call).
(** the calls in which the solver ran, out of n driver calls *)
Fixpoint monopole_runs (enabled force_static : bool) (run_n_times nth_call : Z) (n : nat) : nat :=
  match n with
  | O => 0
  | S n => let '(active, c) := monopole_call enabled force_static run_n_times nth_call in
           ((if active then 1 else 0) + monopole_runs enabled force_static run_n_times c n)%nat
  end.
