(** src/fluid/riemann.hpp over the reals: conserved state, flux and signal speeds of one
    side of a face, and the two approximate Riemann solvers.  The flat arrays U[], F[] are
    functions of a conserved-variable tag; the direction d = 1,2,3 is dir = d - 1. *)
From Coq Require Import Reals Arith.
From Flocq Require Import Core.
From Verif.Model Require Import Num Robust Geometry Relativity.
From Verif.Spec Require Import Tensor.
Local Open Scope R_scope.

Inductive ConsVar := vRho | vMom (m : nat) | vEng | vB (m : nat) | vYe.

(** riemann.hpp:32-54 FaceGeom (without the coordinates X) *)
Record FaceGeom := mkFace {
  fg_alpha : R; fg_gdet : R; fg_gammadet : R; fg_gcov : mat; fg_beta : vec; fg_gdd : R }.

(** the reconstructed state at the face *)
Record FaceState := mkState {
  q_rho : R; q_vp : vec; q_eng : R; q_prs : R; q_gm1 : R; q_B : vec; q_ye : R }.

Record FluxOut := mkFlux { fo_U : ConsVar -> R; fo_F : ConsVar -> R; fo_vm : R; fo_vp : R }.

(** riemann.hpp:91-109 and 127-136: density floor, velocity after both limiters with its
    square, internal energy.  vpcon, W here are as left by line 103; the second limiter
    works on vcon. *)
Definition lim_rho (q : FaceState) (rho_floor : R) : R := std_max (q_rho q) rho_floor.
Definition lim_vpcon (q : FaceState) (g : FaceGeom) (gam_max : R) : vec :=
  let W := GetLorentzFactor4 (q_vp q) (fg_gcov g) in
  if Rlt_bool gam_max W
  then let rescale := sqrt ((gam_max * gam_max - 1) / (W * W - 1)) in fun ii => q_vp q ii * rescale
  else q_vp q.
Definition face_vcon0 (q : FaceState) (g : FaceGeom) (gam_max : R) : vec :=
  let W := GetLorentzFactor4 (q_vp q) (fg_gcov g) in fun ii => lim_vpcon q g gam_max ii / W.
Definition face_vsq0 (q : FaceState) (g : FaceGeom) (gam_max : R) : R :=
  let v := face_vcon0 q g gam_max in
  sum3 (fun m => sum3 (fun n => fg_gcov g (m + 1)%nat (n + 1)%nat * v m * v n)).
Definition face_scale (q : FaceState) (g : FaceGeom) (gam_max : R) : R :=
  let vsq := face_vsq0 q g gam_max in
  let vsq_max := 1 - 1 / (gam_max * gam_max) in
  if Rlt_bool vsq_max vsq then vsq_max / vsq else 1.
Definition face_vcon (q : FaceState) (g : FaceGeom) (gam_max : R) : vec :=
  fun m => face_vcon0 q g gam_max m * sqrt (face_scale q g gam_max).
Definition face_vsq (q : FaceState) (g : FaceGeom) (gam_max : R) : R :=
  face_vsq0 q g gam_max * face_scale q g gam_max.
Definition face_W (q : FaceState) (g : FaceGeom) (gam_max : R) : R :=
  1 / sqrt (1 - face_vsq q g gam_max).
Definition lim_eng (q : FaceState) (rho sie_floor sie_max : R) : R :=
  if Rlt_bool sie_floor (q_eng q / rho)
  then if Rlt_bool sie_max (q_eng q / rho) then rho * sie_max else q_eng q
  else rho * sie_floor.

(** riemann.hpp:87-209 prim_to_flux; (rho_floor, sie_floor) is what bounds.GetFloors
    returns at the face for the density of the state *)
Definition prim_to_flux (valencia : bool) (dir : nat) (g : FaceGeom) (q : FaceState)
    (rho_floor sie_floor sie_max gam_max : R) : FluxOut :=
  let gcov := fg_gcov g in let alpha := fg_alpha g in let beta := fg_beta g in
  let rho := lim_rho q rho_floor in
  let vpcon := lim_vpcon q g gam_max in
  let vcon := face_vcon q g gam_max in
  let vel := vcon dir in
  let Bcon := q_B q in
  let u := lim_eng q rho sie_floor sie_max in
  let P := std_max (q_prs q) 0 in
  let gamma1 := q_gm1 q in
  let BdotB := sum3 (fun m => sum3 (fun n => gcov (m + 1)%nat (n + 1)%nat * Bcon m * Bcon n)) in
  let Bdotv := sum3 (fun m => sum3 (fun n => gcov (m + 1)%nat (n + 1)%nat * Bcon m * face_vcon0 q g gam_max n))
               * sqrt (face_scale q g gam_max) in
  let vsq := face_vsq q g gam_max in
  let W := face_W q g gam_max in
  let vtil := vel - beta dir / alpha in
  let Urho := rho * W in
  let b0 := W * Bdotv in
  let bsq := (BdotB + b0 * b0) / (W * W) in
  let rhohWsq := (rho + u + P) * W * W in
  let bsqWsq := bsq * W * W in
  let bcovm : vec := fun m => gcov (m + 1)%nat 0%nat * b0 / alpha
      + sum3 (fun n => gcov (m + 1)%nat (n + 1)%nat * (Bcon n / W + b0 * (vcon n - beta n / alpha))) in
  let vcovm : vec := fun m => sum3 (fun n => gcov (m + 1)%nat (n + 1)%nat * vcon n) in
  let Umom : vec := fun m => (rhohWsq + bsqWsq) * vcovm m - b0 * bcovm m in
  let ucon : vec := fun mu => match mu with
    | O => W / alpha | S m => vpcon m - beta m * W / alpha end in
  let ucov : vec := fun mu => sum4 (fun nu => gcov mu nu * ucon nu) in
  let bcon : vec := fun mu => match mu with
    | O => b0 / alpha | S m => (Bcon m + b0 * ucon (S m)) / W end in
  let bcov0 := sum4 (fun mu => gcov 0%nat mu * bcon mu) in
  let Ueng := if valencia
    then rhohWsq + bsqWsq - (P + / 2 * bsq) - b0 * b0 - Urho
    else alpha * ((rho + u + P + bsq) * ucon 0%nat * ucov 0%nat + P + / 2 * bsq)
         - bcon 0%nat * bcov0 + Urho in
  let Feng := if valencia
    then Ueng * vtil + (P + / 2 * bsq) * vel - Bdotv * Bcon dir
    else (rho + u + P + bsq) * ucon (S dir) * ucov 0%nat - bcon (S dir) * bcov0 + rho * ucon (S dir) in
  let Uye := Urho * q_ye q in
  let vasq := bsqWsq / make_positive (rhohWsq + bsqWsq) in
  let cssq := make_bounded (gamma1 * P * W * W / make_positive rhohWsq) 0 1 in
  let cmsq := make_bounded (cssq + vasq * (1 - cssq)) 0 1 in
  let vcoff := alpha / (1 - vsq * cmsq) in
  let v0 := vel * (1 - cmsq) in
  let vpm := sqrt (make_positive (cmsq * (1 - vsq) * (fg_gdd g * (1 - vsq * cmsq) - vel * v0))) in
  {| fo_U := fun c => match c with
       | vRho => Urho | vMom m => Umom m | vEng => Ueng | vB m => Bcon m | vYe => Uye end;
     fo_F := fun c => match c with
       | vRho => Urho * vtil
       | vMom m => Umom m * vtil + (P + / 2 * bsq) * (if Nat.eqb dir m then 1 else 0) - bcovm m * Bcon dir / W
       | vEng => Feng
       | vB m => Bcon m * vtil - Bcon dir * (vcon m - beta m / alpha)
       | vYe => Uye * vtil end;
     fo_vp := vcoff * (v0 + vpm) - beta dir;
     fo_vm := vcoff * (v0 - vpm) - beta dir |}.

(** riemann.hpp:256-276: flux of one conserved variable and the returned speed, from the
    two sides *)
Definition llf_cmax (l r : FluxOut) : R :=
  std_max (std_max (- fo_vm l) (fo_vp l)) (std_max (- fo_vm r) (fo_vp r)).
Definition llf (g : FaceGeom) (l r : FluxOut) (m : ConsVar) : R :=
  / 2 * ((fo_F l m + fo_F r m) * fg_gdet g
         - llf_cmax l r * ((fo_U r m - fo_U l m) * fg_gammadet g)).

(** riemann.hpp:278-301 *)
Definition hll_cl (l r : FluxOut) : R := std_min (std_min (fo_vm l) (fo_vm r)) 0.
Definition hll_cr (l r : FluxOut) : R := std_max (std_max (fo_vp l) (fo_vp r)) 0.
Definition hll (g : FaceGeom) (l r : FluxOut) (m : ConsVar) : R :=
  let cl := hll_cl l r in let cr := hll_cr l r in
  let crcl := cr * cl in
  let inv_cr_cl := gratio 1 (cr - cl) in
  ((cr * fo_F l m - cl * fo_F r m) * fg_gdet g + crcl * (fo_U r m - fo_U l m) * fg_gammadet g) * inv_cr_cl.
Definition hll_speed (l r : FluxOut) : R := std_max (- hll_cl l r) (hll_cr l r).
