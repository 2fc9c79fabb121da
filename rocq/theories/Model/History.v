(** src/analysis/history.hpp, history.cpp, history_utils.hpp and phoebus_utils/reduction.hpp:
    global reductions. *)
From Coq Require Import Reals ZArith List Bool.
From Flocq Require Import Core.
From Verif.Model Require Import Num Robust Geometry ParFor FluxFix Relativity.
From Verif.Spec Require Import Tensor.
Import ListNotations.

(** a zone of a block *)
Notation Zone := (nat * Cell)%type.
(** How a reduction is carried out: parthenon::par_reduce (not in this repository) lets each
    thread fold the zones it is given into a private accumulator that starts from the
    reducer's identity and joins the accumulators pairwise; the results of the partitions of
    a rank and of the ranks (reduction.hpp: MPI_Allreduce) are joined in the same way.  A plan
    is any such tree. *)
Inductive plan : Type := Run (zones : list Zone) | Join (a b : plan).
Section Reduce.
Context {T : Type} `{Num T}.
Fixpoint par_reduce (identity : T) (join : T -> T -> T) (f : Zone -> T) (p : plan) : T :=
  match p with
  | Run l => fold_left (fun lresult z => join lresult (f z)) l identity
  | Join a b => join (par_reduce identity join f a) (par_reduce identity join f b)
  end.
(** Kokkos::Sum *)
Definition reduce_sum : (Zone -> T) -> plan -> T := par_reduce (nlit 0 1) nadd.
(** Kokkos::Max: identity is the lowest finite number; join keeps the larger *)
Definition reduce_max (lowest : T) : (Zone -> T) -> plan -> T :=
  par_reduce lowest (fun a b => if nlt a b then b else a).
(** history.hpp:50-86, ReduceOneVar with Kokkos::Sum (volume weighted) and Kokkos::Max *)
Definition ReduceOneVar_sum (var vol : Zone -> T) (p : plan) : T := reduce_sum (fun z => nmul (var z) (vol z)) p.
Definition ReduceOneVar_max (lowest : T) (var : Zone -> T) (p : plan) : T := reduce_max lowest (fun z => nmul (var z) (nlit 1 1)) p.
End Reduce.

Local Open Scope R_scope.
Definition indicator (b : bool) : R := if b then 1 else 0.
(** history.hpp:88-137, ReduceInGain; gdet is asked of block 0 of the pack (line 116) *)
Definition ReduceInGain (is_conserved : bool) (gdet : Zone -> R) (heat cool entropy var vol : Zone -> R) (net_heat_threshold outside_pns_threshold : R) (p : plan) : R :=
  reduce_sum (fun z : Zone =>
    let gd := gdet (O, snd z) in
    let is_netheat := Rlt_bool net_heat_threshold (heat z - cool z) in
    let is_outside_pns := Rlt_bool outside_pns_threshold (entropy z) in
    if is_conserved then vol z * indicator is_netheat * indicator is_outside_pns * var z
    else gd * vol z * indicator is_netheat * indicator is_outside_pns * var z) p.

(** uniform Cartesian coordinates along x1 of block b (parthenon): faces and centres *)
Record XAxis := { x_origin : R; x_width : R }.
Definition Xf (a : XAxis) (i : Z) : R := x_origin a + IZR i * x_width a.
Definition Xc (a : XAxis) (i : Z) : R := x_origin a + (IZR i + / 2) * x_width a.
Definition shift_i (z : Zone) (n : Z) : Zone := let '(b, (k, j, i)) := z in (b, (k, j, (i + n)%Z)).

(** history.cpp:50-69 (also 104-128, 164-188, 217-236): the contribution of one zone to the
    flux through x1 = xh.  [off] is 0, except 1 for the magnetic flux, which is extrapolated
    from the zone above (lines 220-230); [ok] is the cut sigma > sigma_cutoff of the jet
    fluxes; dx2, dx3 the zone widths. *)
Definition horizon_term (ax : nat -> XAxis) (xh : R) (off : Z) (ok : Zone -> bool) (dx2 dx3 : Zone -> R) (flux : Zone -> R) (z : Zone) : R :=
  let '(b, (k, j, i)) := z in
  if Rle_bool (Xf (ax b) i) xh && Rlt_bool xh (Xf (ax b) (i + 1)) && ok z then
    let m := (flux (shift_i z (off + 1)) - flux (shift_i z (off - 1))) / (2 * x_width (ax b)) in
    (flux (shift_i z off) + (xh - Xc (ax b) (i + off)) * m) * dx2 (shift_i z off) * dx3 (shift_i z off)
  else 0.
(** history.cpp:25-72 ReduceMassAccretionRate, 74-132 and 134-192 the jet fluxes *)
Definition ReduceMassAccretionRate (ax : nat -> XAxis) (xh : R) (dx2 dx3 : Zone -> R) (massflux : Zone -> R) (p : plan) : R :=
  reduce_sum (horizon_term ax xh 0 (fun _ => true) dx2 dx3 massflux) p.
Definition ReduceJetFlux (ax : nat -> XAxis) (xh sigma_cutoff : R) (sigma : Zone -> R) (dx2 dx3 : Zone -> R) (flux : Zone -> R) (p : plan) : R :=
  reduce_sum (horizon_term ax xh 0 (fun z => Rlt_bool sigma_cutoff (sigma z)) dx2 dx3 flux) p.
(** history.cpp:194-239 ReduceMagneticFluxPhi *)
Definition ReduceMagneticFluxPhi (ax : nat -> XAxis) (xh : R) (dx2 dx3 : Zone -> R) (phi : Zone -> R) (p : plan) : R :=
  / 2 * reduce_sum (horizon_term ax xh 1 (fun _ => true) dx2 dx3 phi) p.

(** history_utils.hpp:34-54 CalcMassFlux; vel = W v^i *)
Definition CalcMassFlux (gdet lapse : R) (shift : vec) (gcov4 : mat) (rho : R) (vel : vec) : R :=
  let W := GetLorentzFactor4 vel gcov4 in
  let ucon := vel 0%nat - shift 0%nat * W / lapse in
  - lapse * gdet * rho * ucon.
(** history_utils.hpp:56-74 CalcMagnetization *)
Definition CalcMagnetization (gam : mat) (rho : R) (vcon Bp : vec) : R :=
  let W := GetLorentzFactor vcon gam in
  GetMagneticFieldSquared gam vcon Bp W / rho.
(** history_utils.hpp:76-112 CalcEMEnergyFlux *)
Definition CalcEMEnergyFlux (gam : mat) (gdet lapse : R) (shift : vec) (vcon Bp : vec) : R :=
  let W := GetLorentzFactor vcon gam in
  let Bdotv := sum3 (fun m => sum3 (fun n => gam m n * Bp m * gratio (vcon n) W)) in
  let b0 := Bdotv * W / lapse in
  let ucov0 := - W * lapse in
  let ucon1 := vcon 0%nat - shift 0%nat * W / lapse in
  let bcon1 := gratio (Bp 0%nat + lapse * b0 * ucon1) W in
  let bsq := GetMagneticFieldSquared gam vcon Bp W in
  let T_EM_10 := bsq * ucon1 * ucov0 - bcon1 * b0 in
  T_EM_10 * lapse * gdet.
(** history_utils.hpp:114-155 CalcEMMomentumFlux *)
Definition CalcEMMomentumFlux (gam : mat) (gdet lapse : R) (shift : vec) (vcon Bp : vec) : R :=
  let W := GetLorentzFactor vcon gam in
  let vcov : vec := fun m => sum3 (fun n => gam m n * vcon n) in
  let Bcov : vec := fun m => sum3 (fun n => gam m n * Bp n) in
  let Bdotv := sum3 (fun m => sum3 (fun n => gam m n * Bp m * gratio (vcon n) W)) in
  let b0 := Bdotv * W / lapse in
  let ucon1 := vcon 0%nat - shift 0%nat * W / lapse in
  let ucov1 := vcov 0%nat in
  let bcon1 := gratio (Bp 0%nat + lapse * b0 * ucon1) W in
  let bcov1 := gratio (Bcov 0%nat + lapse * b0 * ucov1) W in
  let bsq := GetMagneticFieldSquared gam vcon Bp W in
  let T_EM_11 := bsq * ucon1 * ucov1 - bcon1 * bcov1 + / 2 * bsq in
  - T_EM_11 * lapse * gdet.
(** history_utils.hpp:157-165 CalcMagneticFluxPhi; cb is the densitised field *)
Definition CalcMagneticFluxPhi (lapse cb : R) : R := Rabs cb * lapse.

(** history.hpp:140-160 ComputeDivInPillbox; [area d] = coords.FaceArea<d>(k,j,i) *)
Definition ComputeDivInPillbox (ndim : nat) (area : Dir -> Cell -> R) (f : Dir -> Cell -> R) (c : Cell) : R :=
  let '(k, j, i) := c in
  (f D1 (k, j, (i + 1)%Z) - f D1 c) * area D1 c +
  (if Nat.leb 2 ndim then (f D2 (k, (j + 1)%Z, i) - f D2 c) * area D2 c else 0) +
  (if Nat.leb 3 ndim then (f D3 ((k + 1)%Z, j, i) - f D3 c) * area D3 c else 0).
(** history.cpp:287-358 CalculateMdot; [r z] = sqrt(x^2+y^2+z^2) of the Cartesian
    coordinates, [f b d c] the mass flux at the lower face of zone c of block b *)
Definition CalculateMdot (ndim : nat) (rc : R) (gain do_gain : bool) (r heat cool : Zone -> R) (net_heat_threshold inside_pns_threshold : R)
    (area : Dir -> Cell -> R) (f : nat -> Dir -> Cell -> R) (p : plan) : R :=
  reduce_sum (fun z : Zone =>
    if Rle_bool (r z) rc then
      if gain then
        let is_netheat := Rlt_bool net_heat_threshold (heat z - cool z) in
        let is_inside_pns := Rlt_bool (r z) inside_pns_threshold in
        if do_gain && (is_inside_pns || is_netheat) then - ComputeDivInPillbox ndim area (f (fst z)) (snd z) else 0
      else - ComputeDivInPillbox ndim area (f (fst z)) (snd z)
    else 0) p.
