(** src/phoebus_driver.cpp:1057-1178 (UserWorkBeforeOutput) and src/analysis/analysis.cpp:4-15:
    the derived fields written with every output, over the reals. *)
From Coq Require Import Reals List String.
From Flocq Require Import Core.
From Verif.Model Require Import Num Robust Relativity Config.
From Verif.Spec Require Import Tensor.
Local Open Scope R_scope.

(** analysis.cpp:4-13: the width of the slice around z = 0 *)
Definition analysis_Initialize : prog R :=
  bind (GetOrAddReal "analysis" "sigma" (2 / 1000)) (fun sigma => if Rlt_bool sigma 0 then Fail else Ret sigma).

(** what the kernel reads in one zone: stored velocity, spatial metric, DetGamma, Lapse *)
Record OutZone := mkOutZone { o_vp : vec; o_gamma : mat; o_sdet : R; o_lapse : R }.
(** the EOS at the density and temperature of the zone (and its Ye, 1094-1097) *)
Record OutEos := mkOutEos { e_entropy : R -> R -> R; e_pressure : R -> R -> R; e_bmod : R -> R -> R; e_sie : R -> R -> R }.

(** 1098-1109 *)
Definition out_sie (E : OutEos) (rho T : R) : R := e_sie E rho T.
Definition out_cs (E : OutEos) (rho T : R) : R :=
  let h := out_sie E rho T + e_pressure E rho T / rho + 1 in
  sqrt (e_bmod E rho T / rho / h).
(** 1115-1118, pi = 3.14 *)
Definition out_entropy_z0 (E : OutEos) (sigma rho T z : R) : R :=
  e_entropy E rho T * exp (- z * z / sigma / sigma) / sqrt (314 / 100) / sigma.
(** one term of the divergence (1135-1140, 1151-1156, 1165-1170): [here] and the zone below in
    direction d; [Wb] is the Lorentz factor used below *)
Definition out_term (igdet : R) (here below : OutZone) (Wb : R) (dx : vec) (d : nat) : R :=
  igdet * (o_sdet here * o_vp here d * o_lapse here / GetLorentzFactor (o_vp here) (o_gamma here)
           - o_sdet below * o_vp below d * o_lapse below / Wb) / dx d.
(** 1120-1171; [z k j i] are the zones, dx the zone widths.  gam3 is declared at 1114 and never
    filled: [junk] is what that memory holds *)
Definition out_divv (ndim : nat) (junk : mat) (dx : vec) (z : nat -> nat -> nat -> OutZone) (k j i : nat) : R :=
  let here := z k j i in
  let igdet := ratio (T:=R) 1 (o_sdet here) in
  let b1 := z k j (i - 1)%nat in
  let divv1 := out_term igdet here b1 (GetLorentzFactor (o_vp b1) (o_gamma b1)) dx 0%nat in
  let divv2 := if Nat.leb 2 ndim then
      let b2 := z k (j - 1)%nat i in divv1 + out_term igdet here b2 (GetLorentzFactor (o_vp b2) (o_gamma b2)) dx 1%nat
    else divv1 in
  if Nat.leb 3 ndim then
    let b3 := z (k - 1)%nat j i in divv2 + out_term igdet here b3 (GetLorentzFactor (o_vp b3) junk) dx 2%nat
  else divv2.
(** 1173-1176: (entropy, cs, ratio_divv_cs, entropy_z_0, sie) *)
Definition UserWorkBeforeOutput (E : OutEos) (sigma : R) (ndim : nat) (junk : mat) (dx : vec) (rho T : nat -> nat -> nat -> R)
    (z : nat -> nat -> nat -> OutZone) (x3 : R) (k j i : nat) : R * R * R * R * R :=
  let r := rho k j i in let t := T k j i in
  (e_entropy E r t, out_cs E r t, out_divv ndim junk dx z k j i / out_cs E r t, out_entropy_z0 E sigma r t x3, out_sie E r t).
