(** src/fixup/fixup.cpp:371-540, the fluid part of ApplyFloorsImpl for one cell, and the
    velocity clamp of fixup_c2p.cpp:263-273 and fixup_src.cpp:246-255, over the reals.
    Not modelled: the radiation part (542-...), eos_lambda[1] (a temperature guess),
    that line 416-417 reads two components of B from block 0 (index b missing), and that
    eos_lambda[0] is uninitialised without Ye when only a ceiling acts (1/2 here). *)
From Coq Require Import Reals Arith Bool.
From Flocq Require Import Core.
From Verif.Model Require Import Num Robust Geometry Relativity Prim2Con Con2PrimRobust.
From Verif.Spec Require Import Tensor.
Local Open Scope R_scope.

(** the variables of one cell that ApplyFloorsImpl touches; f_cons holds the conserved
    variables (csig, the signal speeds, is not among them and is only carried along) *)
Record FCell := mkFCell {
  f_rho : R; f_vel : vec; f_eng : R; f_B : vec; f_ye : R; f_tmp : R; f_prs : R; f_gm1 : R; f_cons : Cons }.

(** fixup.cpp:510-511 (also fixup_c2p.cpp:268-269, fixup_src.cpp:250-251) *)
Definition rescale_fac (gamma_max W : R) : R := sqrt (gamma_max * gamma_max - 1) / (W * W - 1).
Definition rescaled (gamma_max W : R) (vp : vec) : vec := fun i => vp i * rescale_fac gamma_max W.
(** fixup_c2p.cpp:264-273, fixup_src.cpp:246-255: returns the clamped velocity and W *)
Definition clamp_velocity (gamma_max : R) (gcov : mat) (vp : vec) : vec * R :=
  let W := GetLorentzFactor4 vp gcov in
  if Rlt_bool gamma_max W then (rescaled gamma_max W vp, gamma_max) else (vp, W).

Section AF.
(** [mhd_floors]: enable_mhd_floors; [mhd]: pb_hi > 0; [hasye]: pye > 0; [bulk_sie]:
    BulkModulusFromDensityInternalEnergy; [invert]: the con2prim call of line 472, which
    updates primitives and conserved variables *)
Variables (valencia mhd_floors mhd hasye : bool) (eos : EOS) (bulk_sie : R -> R -> R -> R).
Variables (gcov gammacon : mat) (beta : vec) (alpha sdetgam : R).
Variables (rho_floor sie_floor gamma_max e_max bsqorho_max bsqou_max ye_min : R).
Variable invert : FCell -> ConToPrimStatus * FCell.

(** fixup.cpp:412-425.  As in the code, vp (not the velocity v = vp/W) enters Bdotv. *)
Definition af_bsq (vp bp : vec) : R :=
  let W := GetLorentzFactor4 vp gcov in
  let iW := 1 / W in
  let Bsq := sum3 (fun ii => sum3 (fun jj => gcov (ii + 1)%nat (jj + 1)%nat * bp ii * bp jj)) in
  let Bdotv := sum3 (fun ii => sum3 (fun jj => gcov (ii + 1)%nat (jj + 1)%nat * bp ii * vp jj)) in
  let bcon0 := W * Bdotv / alpha in
  (Bsq + alpha * alpha * bcon0 * bcon0) * iW * iW.
(** fixup.cpp:396-397, 411-432 *)
Definition af_floor_max (c : FCell) : R * R :=
  let rho_floor_max := rho_floor in
  let u_floor_max := rho_floor * sie_floor in
  if mhd_floors then
    let bsq := af_bsq (f_vel c) (f_B c) in
    let rho_floor_max := std_max rho_floor_max (bsq / bsqorho_max) in
    let u_floor_max := std_max u_floor_max (bsq / bsqou_max) in
    (std_max rho_floor_max (std_max (f_eng c) u_floor_max / e_max), u_floor_max)
  else (rho_floor_max, u_floor_max).
(** fixup.cpp:434-440 *)
Definition af_increment (c : FCell) : bool * R * R :=
  let '(rho_floor_max, u_floor_max) := af_floor_max c in
  let drho := rho_floor_max - f_rho c in
  let du := u_floor_max - f_eng c in
  if Rlt_bool 0 drho || Rlt_bool 0 du then
    let drho := std_max drho (du / sie_floor) in
    let du := std_max du (sie_floor * drho) in
    (true, drho, du)
  else (false, drho, du).
(** fixup.cpp:443-446 *)
Definition af_bp (c : FCell) : vec := fun i => if mhd then f_B c i else 0.
(** fixup.cpp:449-461; the electron fraction of the added gas is read from the conserved
    variable (line 452) *)
Definition af_ye (c : FCell) : R := if hasye then cye (f_cons c) else / 2.
Definition af_added (c : FCell) (drho du : R) : Cons :=
  let ye := af_ye c in
  let dprs := eos_P eos drho (gratio du drho) ye in
  let dgm1 := gratio (bulk_sie drho (gratio du drho) ye) dprs in
  p2c valencia drho (fun _ => 0) (af_bp c) du ye dprs dgm1 gcov gammacon beta alpha sdetgam.
(** fixup.cpp:463-469 *)
Definition af_inject (c : FCell) (d : Cons) : FCell :=
  {| f_rho := f_rho c; f_vel := f_vel c; f_eng := f_eng c; f_B := f_B c; f_ye := f_ye c;
     f_tmp := f_tmp c; f_prs := f_prs c; f_gm1 := f_gm1 c;
     f_cons := {| cD := cD (f_cons c) + cD d; cS := fun i => cS (f_cons c) i + cS d i; cB := cB (f_cons c);
                  ctau := ctau (f_cons c) + ctau d;
                  cye := if hasye then cye (f_cons c) + cye d else cye (f_cons c); csig := csig (f_cons c) |} |}.
(** fixup.cpp:473-498, after a failed inversion left the cell in state [c] *)
Definition af_fallback (c : FCell) (d : Cons) (drho du : R) : FCell :=
  let ye := if hasye then ye_min else f_ye c in
  {| f_rho := drho; f_vel := fun _ => 0; f_eng := du; f_B := f_B c; f_ye := ye;
     f_tmp := eos_T eos drho (du / drho) (if hasye then ye_min else / 2); f_prs := f_prs c; f_gm1 := f_gm1 c;
     f_cons := {| cD := cD d; cS := cS d; cB := cB (f_cons c); ctau := ctau d;
                  cye := if hasye then cye d else cye (f_cons c); csig := csig (f_cons c) |} |}.
(** fixup.cpp:434-499 *)
Definition af_floors (c : FCell) : bool * FCell :=
  let '(applied, drho, du) := af_increment c in
  if applied then
    let d := af_added c drho du in
    match invert (af_inject c d) with
    | (c2p_success, c') => (true, c')
    | (c2p_failure, c') => (true, af_fallback c' d drho du)
    end
  else (false, c).
(** fixup.cpp:501-526.  With W = 1 the divisor of the rescaling is 0: the code then stores
    0 * inf = NaN, the model (Coq's x / 0) a number. *)
Definition af_ceiling (c : FCell) : bool * FCell :=
  let W := GetLorentzFactor4 (f_vel c) gcov in
  if Rlt_bool gamma_max W || Rlt_bool e_max (f_eng c / f_rho c) then
    let vpcon := rescaled gamma_max W (f_vel c) in
    let ye := if hasye then f_ye c else 0 in
    let n := p2c valencia (f_rho c) vpcon (af_bp c) (f_eng c) ye (f_prs c) (f_gm1 c) gcov gammacon beta alpha sdetgam in
    (true, {| f_rho := f_rho c; f_vel := vpcon; f_eng := f_eng c; f_B := f_B c; f_ye := f_ye c;
              f_tmp := f_tmp c; f_prs := f_prs c; f_gm1 := f_gm1 c;
              f_cons := {| cD := cD n; cS := cS n; cB := cB (f_cons c); ctau := ctau n;
                           cye := if hasye then cye n else cye (f_cons c); csig := csig (f_cons c) |} |})
  else (false, c).
(** fixup.cpp:528-540 *)
Definition af_derived (c : FCell) : FCell :=
  let lam := if hasye then f_ye c else / 2 in
  let tmp := eos_T eos (f_rho c) (gratio (f_eng c) (f_rho c)) lam in
  let prs := eos_PT eos (f_rho c) tmp lam in
  {| f_rho := f_rho c; f_vel := f_vel c; f_eng := f_eng c; f_B := f_B c; f_ye := f_ye c;
     f_tmp := tmp; f_prs := prs; f_gm1 := gratio (eos_BT eos (f_rho c) tmp lam) prs; f_cons := f_cons c |}.
(** fixup.cpp:371-540 *)
Definition apply_floors (c : FCell) : FCell :=
  let '(floor_applied, c1) := af_floors c in
  let '(ceiling_applied, c2) := af_ceiling c1 in
  if floor_applied || ceiling_applied then af_derived c2 else c2.
End AF.

(** the con2prim call of line 472 (con2prim_robust.hpp:381-452): what solve stores in the
    cell, [mu] standing for whatever value the root finder returned *)
Definition c2p_invert (valencia mhd hasye : bool) (eos : EOS) (L : Limits) (g : CellGeom) (mu : FCell -> R) (c : FCell)
  : ConToPrimStatus * FCell :=
  let o := solve_at valencia mhd hasye eos L g (f_cons c) (mu c) in
  (o_status o,
   {| f_rho := o_rho o; f_vel := o_vel o; f_eng := o_eng o; f_B := if mhd then o_B o else f_B c;
      f_ye := if hasye then o_ye o else f_ye c; f_tmp := o_tmp o; f_prs := o_prs o; f_gm1 := o_gm1 o;
      f_cons := o_cons o |}).
