(** src/fixup/fixup_c2p.cpp:317-350, fixup_radc2p.cpp:152-218, fixup_src.cpp:178-329: the
    radiation part of the repair kernels, over R.  These are the computations on the own zone
    ([tail] in Model/Fixup.v) after the interpolation.  [geom c] as in Model/Fixup.v; [gam c]:
    the spatial metric the closure object reads; [rs]: the strategy of the closure object.
    MOCMC, which reads a stored tensor, is the case of a closure function that ignores its
    arguments. *)
From Coq Require Import ZArith Reals List Bool.
From Flocq Require Import Core.
From Verif.Model Require Import Num Robust Geometry Relativity Prim2Con Con2PrimRobust ApplyFloors Fixup RadClosure RadTransport.
From Verif.Spec Require Import Tensor.
Import ListNotations.
Local Open Scope R_scope.

Section RadTails.
Variables (nspec : nat) (rs : Strategy) (gam : Zone -> mat) (geom : Zone -> CellGeom).

(** fixup_c2p.cpp:317-350.  [vpcon], [W]: velocity and Lorentz factor after the clamp of
    lines 264-273; [tilPi]: GetConTilPiFromCon with xi = 0, phi = pi.  The status of Con2Prim
    is ignored. *)
Definition rad_reinvert (tilPi : Closure -> R -> vec -> mat) (vpcon : vec) (W : R) (c : Zone) (r : Row R) : Row R :=
  let sdetgam := c_gdet (geom c) in
  let cl := mkClosure (fun i => vpcon i / W) (gam c) (c_lapse (geom c)) rs in
  let prim s := let E := r (VE s) / sdetgam in let F : vec := fun i => r (VF s i) / sdetgam in
                let '(J, H, _) := Con2Prim cl energy_conserve E F (tilPi cl E F) in (J, fun i => H i / J) in
  fun v => match v with
  | VJ s => if Nat.ltb s nspec then fst (prim s) else r v
  | VH s i => if Nat.ltb s nspec then snd (prim s) i else r v
  | _ => r v end.
(** fixup_c2p.cpp:257-350: the whole local part of the fluid kernel.  [hasrad]: irfail >= 0;
    [radok c]: the radiation inversion succeeded there *)
Definition fluid_rad_tail (valencia mhd hasye : bool) (eos : EOS) (gamma_max : R) (hasrad : bool) (radok : Zone -> bool)
    (tilPi : Closure -> R -> vec -> mat) (c : Zone) (r : Row R) : Row R :=
  let '(vpcon, W) := clamp_velocity gamma_max (c_gcov4 (geom c)) (fun i => r (Vvel i)) in
  let r' := fluid_tail valencia mhd hasye eos gamma_max geom c r in
  if hasrad && radok c then rad_reinvert tilPi vpcon W c r' else r'.

(** fixup_radc2p.cpp:189-198: the flux ceiling; the stored H is the flux divided by J *)
Definition rad_clamp (xi_max : R) (con_v : vec) (c : Zone) (r : Row R) : Row R :=
  let xi s := let h : vec := fun i => r (VH s i) in
     sqrt (contractCov3Vectors (fst (LinearAlgebra.matrixInverse3x3 (gam c))) h h - contractConCov3Vectors con_v h * contractConCov3Vectors con_v h) in
  fun v => match v with
  | VH s i => if Nat.ltb s nspec && Rlt_bool xi_max (xi s) then r v * (xi_max / xi s) else r v
  | _ => r v end.
(** fixup_radc2p.cpp:200-218, fixup_src.cpp:304-326 *)
Definition rad_prim2con (pi_of : PiOf) (con_v : vec) (c : Zone) (r : Row R) : Row R :=
  let sdetgam := c_gdet (geom c) in
  let cl := mkClosure con_v (gam c) (c_lapse (geom c)) rs in
  let cons s := let J := r (VJ s) in let H : vec := fun i => r (VH s i) * J in
                Prim2Con cl energy_conserve J H (pi_of cl J H) in
  fun v => match v with
  | VE s => if Nat.ltb s nspec then sdetgam * fst (cons s) else r v
  | VF s i => if Nat.ltb s nspec then sdetgam * snd (cons s) i else r v
  | _ => r v end.
(** fixup_radc2p.cpp:152-161, 189-218 *)
Definition rad_tail (pi_of : PiOf) (xi_max : R) (c : Zone) (r : Row R) : Row R :=
  let vel : vec := fun i => r (Vvel i) in
  let W := GetLorentzFactor4 vel (c_gcov4 (geom c)) in
  let con_v : vec := fun i => vel i / W in
  rad_prim2con pi_of con_v c (rad_clamp xi_max con_v c r).

(** fixup_src.cpp:192-201, 223-232 *)
Definition src_eos (hasye : bool) (eos : EOS) (r : Row R) : Row R :=
  let lam := if hasye then r Vye else / 2 in
  let tmp := eos_T eos (r Vrho) (gratio (r Veng) (r Vrho)) lam in
  let prs := eos_PT eos (r Vrho) tmp lam in
  let gm1 := gratio (eos_BT eos (r Vrho) tmp lam) prs in
  fun v => match v with Vtmp => tmp | Vprs => prs | Vgm1 => gm1 | _ => r v end.
(** fixup_src.cpp:241-326: velocity clamp, fluid and radiation conserved variables; the xi of
    lines 262-268 is computed and not used *)
Definition src_tail (valencia mhd hasye : bool) (gamma_max : R) (pi_of : PiOf) (c : Zone) (r : Row R) : Row R :=
  let g := geom c in
  let '(vpcon, W) := clamp_velocity gamma_max (c_gcov4 g) (fun i => r (Vvel i)) in
  let bp : vec := fun i => if mhd then r (VB i) else 0 in
  let ye := if hasye then r Vye else 0 in
  let n := p2c valencia (r Vrho) vpcon bp (r Veng) ye (r Vprs) (r Vgm1) (c_gcov4 g) (c_gcon g) (c_beta g) (c_lapse g) (c_gdet g) in
  let r' : Row R := fun v => match v with
    | Vvel i => vpcon i
    | VcD => cD n | VcS i => cS n i | Vctau => ctau n | Vcye => if hasye then cye n else r Vcye | Vsig i => csig n i
    | _ => r v end in
  rad_prim2con pi_of (fun i => vpcon i / W) c r'.
End RadTails.
