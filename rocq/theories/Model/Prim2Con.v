(** src/fluid/prim2con.hpp over the reals.  Arrays are functions of natural-number
    indices; [gcov] is the 4x4 metric, [gcon] the inverse spatial metric, [gdet] the
    square root of the determinant of the spatial metric (CellGeom::gdet is DetGamma). *)
From Coq Require Import Reals Arith.
From Verif.Model Require Import Num Robust Geometry Relativity.
From Verif.Spec Require Import Tensor.
Local Open Scope R_scope.

(** what p2c writes *)
Record Cons := mkCons {
  cD : R; cS : vec; cB : vec; ctau : R; cye : R; csig : vec }.

(** prim2con.hpp:25-48.  The PARTHENON_DEBUG_REQUIREs are not modelled. *)
Definition fast_speed_sq (rho u p bsq gam1 : R) : R :=
  let rho_rel := rho + u + p in
  let vasq := bsq / (rho_rel + bsq) in
  let cssq := gam1 * p / rho_rel in
  cssq + (vasq - cssq * vasq).
Definition signal_vpm (cssq : R) (v : vec) (vsq alpha : R) (beta : vec) (gcon : mat) (m : nat) : R * R :=
  let vcoff := alpha / (1 - vsq * cssq) in
  let vpm := sqrt (cssq * (1 - vsq) * (gcon m m * (1 - vsq * cssq) - v m * v m * (1 - cssq))) in
  let vp := vcoff * (v m * (1 - cssq) + vpm) - beta m in
  let vm := vcoff * (v m * (1 - cssq) - vpm) - beta m in
  (vp, vm).
Definition signal_speeds (rho u p bsq : R) (v : vec) (vsq gam1 alpha : R) (beta : vec) (gcon : mat) : vec :=
  let cssq := fast_speed_sq rho u p bsq gam1 in
  fun m => let '(vp, vm) := signal_vpm cssq v vsq alpha beta gcon m in
           std_max (Rabs vp) (Rabs vm).

(** prim2con.hpp:50-103; [valencia] is the compile-time switch USE_VALENCIA *)
Definition p2c (valencia : bool) (rho : R) (vp b : vec) (u ye_prim p gam1 : R)
    (gcov gcon : mat) (beta : vec) (alpha gdet : R) : Cons :=
  let W := GetLorentzFactor4 vp gcov in
  let iW := 1 / W in
  let v : vec := fun i => vp i * iW in
  let vsq := sum3 (fun ii => sum3 (fun jj => gcov (ii + 1)%nat (jj + 1)%nat * v ii * v jj)) in
  let Bsq := sum3 (fun ii => sum3 (fun jj => gcov (ii + 1)%nat (jj + 1)%nat * b ii * b jj)) in
  let Bdotv := sum3 (fun ii => sum3 (fun jj => gcov (ii + 1)%nat (jj + 1)%nat * b ii * v jj)) in
  let b0 := W * Bdotv in
  let bcon : vec := fun mu => match mu with
    | O => W * Bdotv / alpha
    | S m => b m * iW + Bdotv * W * (v m - beta m / alpha) end in
  let bsq := Bsq * iW * iW + Bdotv * Bdotv in
  let bcov : vec := fun m => sum4 (fun n => gcov (m + 1)%nat n * bcon n) in
  let D := gdet * rho * W in
  let rho_rel := (rho + u + p + bsq) * W * W in
  let vcov : vec := fun m => sum3 (fun n => gcov (m + 1)%nat (n + 1)%nat * v n) in
  let ucon : vec := fun mu => match mu with
    | O => W / alpha
    | S m => vp m - beta m * W / alpha end in
  let ucov : vec := fun mu => sum4 (fun nu => gcov mu nu * ucon nu) in
  let bcov0 := sum4 (fun mu => gcov 0%nat mu * bcon mu) in
  {| cD := D;
     cS := fun m => gdet * (rho_rel * vcov m - b0 * bcov m);
     cB := fun m => gdet * b m;
     ctau := if valencia
             then gdet * (rho_rel - (p + / 2 * bsq) - b0 * b0) - D
             else gdet * alpha *
                    ((rho + u + p + bsq) * ucon 0%nat * ucov 0%nat + (p + / 2 * bsq) - bcon 0%nat * bcov0)
                  + D;
     cye := D * ye_prim;
     csig := signal_speeds rho u p bsq v vsq gam1 alpha beta gcon |}.
