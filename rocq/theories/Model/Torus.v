(** Model of the Fishbone-Moncrief torus problem generator src/pgen/torus.cpp.

    Simplifications.  Arithmetic is exact; std::pow(x, y) with x > 0 is [Rpower].  The equation of state is the ideal
    gas (the stellar-collapse branch, which interpolates an adiabat in a table, is left out).  The radiation setup is
    left out.  Random numbers are arguments.  Blocks, zones and ranks are lists; a zone of the field normalisation is
    what the reductions read from it. *)
From Coq Require Import Reals Arith ZArith List Bool.
From Flocq Require Import Core.
From Verif.Model Require Import Num Robust LinearAlgebra Geometry Modified BoyerLindquist Bondi Relativity ParFor FluxFix.
From Verif.Spec Require Import Tensor.
Import ListNotations.
Local Open Scope R_scope.

(** torus.cpp:743-753 lfish_calc *)
Definition lfish_calc (r a : R) : R :=
  ((a ^ 2 - 2 * a * sqrt r + r ^ 2) *
   ((-2 * a * r * (a ^ 2 - 2 * a * sqrt r + r ^ 2)) / sqrt (2 * a * sqrt r + (-3 + r) * r) +
    ((a + (-2 + r) * sqrt r) * (r ^ 3 + a ^ 2 * (2 + r))) / sqrt (1 + 2 * a / Rpower r (3 / 2) - 3 / r)))
  / (r ^ 3 * sqrt (2 * a * sqrt r + (-3 + r) * r) * (a ^ 2 + (-2 + r) * r)).

(** torus.cpp:761-763 *)
Definition fm_DD (a r : R) : R := r * r - 2 * r + a * a.
Definition fm_AA (a r sth : R) : R := (r * r + a * a) * (r * r + a * a) - fm_DD a r * a * a * sth * sth.
Definition fm_SS (a r cth : R) : R := r * r + a * a * cth * cth.
(** torus.cpp:774-779 and 780-785: the same expression at (r, th) and at (rin, pi/2) *)
Definition fm_potential (a l r sth cth : R) : R :=
  let DD := fm_DD a r in let AA := fm_AA a r sth in let SS := fm_SS a r cth in
  / 2 * ln ((1 + sqrt (1 + 4 * (l * l * SS * SS) * DD / (AA * AA * sth * sth))) / (SS * DD / AA))
  - / 2 * sqrt (1 + 4 * (l * l * SS * SS) * DD / (AA * AA * sth * sth))
  - 2 * a * r * l / AA.
(** torus.cpp:755-793 log_enthalpy: the returned value *)
Definition log_enthalpy (r th a rin l : R) : R :=
  fm_potential a l r (sin th) (cos th) - fm_potential a l rin (sin (PI / 2)) (cos (PI / 2)).
(** torus.cpp:786-791: the angular velocity component left in the reference argument *)
Definition fm_uphi (r th a l : R) : R :=
  let sth := sin th in let DD := fm_DD a r in let AA := fm_AA a r sth in let SS := fm_SS a r (cos th) in
  let expm2chi := SS * SS * DD / (AA * AA * sth * sth) in
  let up1 := sqrt ((-1 + sqrt (1 + 4 * l * l * expm2chi)) / 2) in
  2 * a * r * sqrt (1 + up1 * up1) / sqrt (AA * SS * DD) + sqrt (SS / AA) * up1 / sth.
Definition log_enthalpy_uphi (r th a rin l : R) : R := if Rlt_bool 0 (log_enthalpy r th a rin l) then fm_uphi r th a l else 0.

(** torus.cpp:799-808 GetStateFromEnthalpy, ideal gas: density and energy density *)
Definition fm_state (kappa gam rho_rmax hm1 : R) : R * R :=
  let rho := Rpower (hm1 * (gam - 1) / (kappa * gam)) (1 / (gam - 1)) in
  (rho / rho_rmax, kappa * Rpower rho gam / (gam - 1) / rho_rmax).

(** parameters of the problem (torus.cpp:171-184) *)
Record TorusPars := { tp_a : R; tp_rin : R; tp_rmax : R; tp_kappa : R; tp_gam : R; tp_Cv : R; tp_jitter : R; tp_nsub : nat }.
(** torus.cpp:188 *)
Definition tp_l (p : TorusPars) : R := lfish_calc (tp_rmax p) (tp_a p).
(** torus.cpp:274-280 *)
Definition hm1_rmax (p : TorusPars) : R := exp (log_enthalpy (tp_rmax p) (/ 2 * PI) (tp_a p) (tp_rin p) (tp_l p)) - 1.
Definition rho_rmax (p : TorusPars) : R := fst (fm_state (tp_kappa p) (tp_gam p) 1 (hm1_rmax p)).

(** torus.cpp:299-333: what one sample point adds, before the division by nsub^2; None outside the torus *)
Record TorusSample := { ts_rho : R; ts_u : R; ts_v : vec }.
Definition torus_lnh (p : TorusPars) (r th : R) : R :=
  if Rlt_bool (tp_rin p) r then log_enthalpy r th (tp_a p) (tp_rin p) (tp_l p) else -1.
(** torus.cpp:313-316 *)
Definition torus_ucon_bl (p : TorusPars) (r th x3 : R) : vec :=
  let u := row4 0 0 0 (log_enthalpy_uphi r th (tp_a p) (tp_rin p) (tp_l p)) in
  set_u0 u (ucon_norm u (BL_SpacetimeMetric (tp_a p) (row4 0 r th x3))).
Definition torus_sample (p : TorusPars) (m : MGR) (X : point) : option TorusSample :=
  let r := mgr_r m X.[1] in let th := mgr_th m X.[1] X.[2] in
  let lnh := torus_lnh p r th in
  if Rlt_bool 0 lnh then
    let '(rho, u) := fm_state (tp_kappa p) (tp_gam p) (rho_rmax p) (exp lnh - 1) in
    let ucon := bl_to_fmks m X.[1] X.[2] X.[3] (tp_a p) (torus_ucon_bl p r th X.[3]) in
    let g := SpacetimeMetric (FMKS (tp_a p) m) X in
    let u0 := ucon_norm ucon g in
    let lapse := Lapse (FMKS (tp_a p) m) X in let beta := ContravariantShift (FMKS (tp_a p) m) X in
    let W := lapse * u0 in
    Some {| ts_rho := rho; ts_u := u; ts_v := fun d => W * (ucon (d + 1)%nat / W + beta d / lapse) |}
  else None.
(** torus.cpp:288-335: sample point (i, j) of a cell with lower corner (xf1, xf2) and widths w1, w2, and the sums *)
Definition sample_point (nsub : nat) (xf1 xf2 x3 w1 w2 : R) (i j : nat) : point :=
  row4 0 (xf1 + (INR i + / 2) * (w1 / INR nsub)) (xf2 + (INR j + / 2) * (w2 / INR nsub)) x3.
Definition accumulate (nsub : nat) (f : nat -> nat -> R) : R :=
  fold_left (fun s ij => s + f (fst ij) (snd ij) / INR (nsub * nsub)) (list_prod (seq 0 nsub) (seq 0 nsub)) 0.
Definition opt (f : TorusSample -> R) (o : option TorusSample) : R := match o with Some s => f s | None => 0 end.
(** what the kernel leaves in a cell: torus.cpp:286-359 with the ideal gas; [rand] the random number of the cell,
    [rhoflr], [epsflr] the floors there *)
Record TorusCell := { tt_rho : R; tt_u : R; tt_T : R; tt_P : R; tt_gam1 : R; tt_v : vec }.
Definition torus_cell (p : TorusPars) (m : MGR) (rhoflr epsflr rand xf1 xf2 x3 w1 w2 : R) : TorusCell :=
  let at_ f := accumulate (tp_nsub p) (fun i j => opt f (torus_sample p m (sample_point (tp_nsub p) xf1 xf2 x3 w1 w2 i j))) in
  let rho := at_ ts_rho in
  let u := at_ ts_u * (1 + tp_jitter p * (rand - / 2)) in
  let rho := if Rlt_bool rho rhoflr then rhoflr else rho in
  let u := if Rlt_bool (u / rho) epsflr then rho * epsflr else u in
  let T := u / rho / tp_Cv p in
  let P := (tp_gam p - 1) * rho * tp_Cv p * T in
  {| tt_rho := rho; tt_u := u; tt_T := T; tt_P := P; tt_gam1 := tp_gam p * (tp_gam p - 1) * rho * tp_Cv p * T / P;
     tt_v := fun d => at_ (fun s => ts_v s d) |}.

(** torus.cpp:432-449: the vector potential at the lower corner of zone (j, i) of the plane k = kb.s *)
Definition fm_A (rho : Z -> Z -> R) (j i : Z) : R :=
  let rho_av := / 4 * (rho j i + rho j (i - 1)%Z + rho (j - 1)%Z i + rho (j - 1)%Z (i - 1)%Z) in
  let q := rho_av - 2 / 10 in if Rlt_bool 0 q then q else 0.
(** torus.cpp:451-466: the field of zone (k, j, i); [gamdet j i] = DetGamma *)
Definition fm_B (A : Z -> Z -> R) (dx1 dx2 : R) (gamdet : Z -> Z -> R) (n : nat) (j i : Z) : R :=
  match n with
  | O => - (A j i - A (j + 1)%Z i + A j (i + 1)%Z - A (j + 1)%Z (i + 1)%Z) / (2 * dx2 * gamdet j i)
  | S O => (A j i + A (j + 1)%Z i - A j (i + 1)%Z - A (j + 1)%Z (i + 1)%Z) / (2 * dx1 * gamdet j i)
  | _ => 0
  end.

(** torus.cpp:476-497 ProblemModifier: x1min of the mesh *)
Definition torus_Rh (a : R) : R := 1 + sqrt (1 - a * a).
Definition torus_x1min (a router : R) (cutout : bool) (nx1 ninside nx1_target : nat) : R :=
  let x1max := ln router in let xh := ln (torus_Rh a) in
  if cutout then x1max - INR nx1 * ((x1max - xh) / (INR nx1_target - INR ninside))
  else xh - (INR ninside + / 2) * ((x1max - xh) / (INR nx1 - INR ninside)).

(** torus.cpp:843-921 ComputeBetas: the zones of all blocks and ranks *)
Record BZone := { bz_rho : R; bz_P : R; bz_gcov : mat; bz_vp : vec; bz_B : vec }.
Definition bz_bsq (z : BZone) : R := GetMagneticFieldSquared_cell (bz_gcov z) (bz_vp z) (bz_B z).
(** None is the initial infinity *)
Definition omin (o : option R) (x : R) : option R := Some (match o with None => x | Some y => Rmin x y end).
Definition omax (o : option R) (x : R) : option R := Some (match o with None => x | Some y => Rmax x y end).
Definition beta_min (rho_min_bnorm : R) (zs : list BZone) : option R :=
  fold_left (fun o z => if Rlt_bool rho_min_bnorm (bz_rho z) then omin o (ratio (bz_P z) (/ 2 * bz_bsq z)) else o) zs None.
Definition beta_pmax (zs : list BZone) : option R :=
  match fold_left (fun o z => omax o (bz_P z)) zs None, fold_left (fun o z => omax o (bz_bsq z)) zs None with
  | Some p, Some b => Some (ratio p (/ 2 * b))
  | _, _ => None
  end.
(** torus.cpp:544-545 *)
Definition B_field_fac (magnetized : bool) (beta_norm beta_target : R) : R := if magnetized then sqrt (beta_norm / beta_target) else 0.
(** torus.cpp:723-730 *)
Definition scale_B (fac : R) (z : BZone) : BZone :=
  {| bz_rho := bz_rho z; bz_P := bz_P z; bz_gcov := bz_gcov z; bz_vp := bz_vp z; bz_B := fun i => bz_B z i * fac |}.

(** torus.cpp:552-599: number_mesh on one rank; the reduction of each block overwrites the variable *)
Definition number_mesh (block_volumes : list R) : R := fold_left (fun _ v => v) block_volumes 0.
(** torus.cpp:667: std::round of a nonnegative number *)
Definition round_half_up (x : R) : Z := Zfloor (x + / 2).
Definition num_tracers (total : Z) (block_volumes : list R) (v : R) : Z := round_half_up (IZR total * v / number_mesh block_volumes).
(** torus.cpp:677-721.  SortParticlesByCell counts the particles at the positions they have when it is called (677),
    before positions are assigned (694-700); [before] the cells of the particles then;
    the mass is computed later (710-721).  None: division by zero. *)
Definition count_in {C : Type} (dec : forall x y : C, {x = y} + {x <> y}) (c : C) (cells : list C) : nat := count_occ dec cells c.
Definition tracer_mass {C : Type} (dec : forall x y : C, {x = y} + {x <> y}) (cell_mass : C -> R) (before : list C) (c : C) : option R :=
  match count_in dec c before with O => None | n => Some (cell_mass c / INR n) end.
(** torus.cpp:690-701: the rejection loop on the stream of random positions; the result is the first kept position *)
Fixpoint reject (fuel : nat) (p : TorusPars) (m : MGR) (draw : nat -> R * R) (n : nat) : option (R * R) :=
  let '(x, y) := draw n in
  let lnh := torus_lnh p (mgr_r m x) (mgr_th m x y) in
  if Rlt_bool lnh 0 then match fuel with O => None | S fuel => reject fuel p m draw (S n) end else Some (x, y).
