(** Model of the MOCMC samples: src/radiation/mocmc.cpp, src/radiation/kd_grid.hpp, the frequency grid of
    src/radiation/radiation.cpp:81-95, 200-207 and the task list of src/phoebus_driver.cpp:370-396.

    Simplifications.  Arithmetic is exact.  One zone, one species at a time (the species loops repeat the same statements).
    The samples of the zone are numbered 0 .. nsamp-1 as GetFullIndex does; the fields mu_lo, mu_hi, phi_lo, phi_hi of a
    sample are a [Rect].  A sample's wave covector is given in the fluid's tetrad (CoordToTetradCov: Model/Tetrads.v).
    The opacity library is a set of functions of the frequency.  Swarm bookkeeping (sorting, neighbour blocks) is left out. *)
From Coq Require Import Reals Arith ZArith List.
From Flocq Require Import Core.
From Verif.Model Require Import Num Robust Geometry Modified Interpolation RadClosure.
From Verif.Spec Require Import Tensor.
Import ListNotations.
Local Open Scope R_scope.

(** ** The frequency grid *)
(** radiation.cpp:94 *)
Definition mocmc_dlnu (nu_min nu_max : R) (nu_bins : nat) : R := (ln nu_max - ln nu_min) / INR nu_bins.
(** radiation.cpp:203-205 *)
Definition mocmc_nusamp (nu_min dlnu : R) (n : nat) : R := exp (ln nu_min + (INR n + / 2) * dlnu).

(** ** The angular grid of one zone *)
Record Rect := { mu_lo : R; mu_hi : R; phi_lo : R; phi_hi : R }.
(** mocmc.cpp:397-402, the first sample *)
Definition whole_sphere : Rect := {| mu_lo := 0; mu_hi := 2; phi_lo := 0; phi_hi := 2 * PI |}.
(** mocmc.cpp:422-423; nt is ncov_tetrad *)
Definition samp_mu (nt : vec) : R := 1 - nt 1%nat.
Definition samp_phi (nt : vec) : R := atan2 (nt 3%nat) (nt 2%nat) + PI.
(** mocmc.cpp:428-431 *)
Definition inside (mu phi : R) (r : Rect) : bool :=
  Rlt_bool (mu_lo r) mu && Rlt_bool mu (mu_hi r) && Rlt_bool (phi_lo r) phi && Rlt_bool phi (phi_hi r).
(** the loop m = 0 .. n-1 with break, mocmc.cpp:425-474: the first rectangle that contains the new sample *)
Fixpoint first_below (P : nat -> bool) (n : nat) : option nat :=
  match n with
  | O => None
  | S k => match first_below P k with Some m => Some m | None => if P k then Some k else None end
  end.
(** mocmc.cpp:435-471: the new rectangles of the new sample and of the sample m that held the place.  As in the code, mu_m and
    phi_m are computed from ncov_tetrad, the new sample's own direction (lines 441, 458); mcov_tetrad is never used *)
Definition kd_split (nt : vec) (r : Rect) : Rect * Rect :=
  let mu := samp_mu nt in let phi := samp_phi nt in
  let mu0 := mu_hi r - mu_lo r in let phi0 := phi_hi r - phi_lo r in
  if Rlt_bool phi0 mu0 then
    let mu_m := 1 - nt 1%nat in
    let mu0 := / 2 * (mu + mu_m) in
    if Rlt_bool mu mu0 then
      ({| mu_lo := mu_lo r; mu_hi := mu0; phi_lo := phi_lo r; phi_hi := phi_hi r |},
       {| mu_lo := mu0; mu_hi := mu_hi r; phi_lo := phi_lo r; phi_hi := phi_hi r |})
    else
      ({| mu_lo := mu0; mu_hi := mu_hi r; phi_lo := phi_lo r; phi_hi := phi_hi r |},
       {| mu_lo := mu_lo r; mu_hi := mu0; phi_lo := phi_lo r; phi_hi := phi_hi r |})
  else
    let phi_m := atan2 (nt 3%nat) (nt 2%nat) in
    let phi0 := / 2 * (phi + phi_m) in
    if Rlt_bool phi phi0 then
      ({| mu_lo := mu_lo r; mu_hi := mu_hi r; phi_lo := phi_lo r; phi_hi := phi0 |},
       {| mu_lo := mu_lo r; mu_hi := mu_hi r; phi_lo := phi0; phi_hi := phi_hi r |})
    else
      ({| mu_lo := mu_lo r; mu_hi := mu_hi r; phi_lo := phi0; phi_hi := phi_hi r |},
       {| mu_lo := mu_lo r; mu_hi := mu_hi r; phi_lo := phi_lo r; phi_hi := phi0 |}).
Definition set_rect (g : nat -> Rect) (n : nat) (r : Rect) : nat -> Rect := fun k => if Nat.eqb k n then r else g k.
(** which sample the new sample n splits, if any *)
Definition kd_find (nt : vec) (g : nat -> Rect) (n : nat) : option nat := first_below (fun m => inside (samp_mu nt) (samp_phi nt) (g m)) n.
(** mocmc.cpp:395-475, one pass of the loop over the samples; when no rectangle contains the new sample its fields keep
    their old values *)
Definition kd_step (nt : vec) (n : nat) (g : nat -> Rect) : nat -> Rect :=
  match n with
  | O => set_rect g 0 whole_sphere
  | S _ => match kd_find nt g n with
           | None => g
           | Some m => let '(rn, rm) := kd_split nt (g m) in set_rect (set_rect g m rm) n rn
           end
  end.
(** after the first n samples; g0: what the fields held before *)
Fixpoint kd_grid (nt : nat -> vec) (g0 : nat -> Rect) (n : nat) : nat -> Rect :=
  match n with O => g0 | S k => kd_step (nt k) k (kd_grid nt g0 k) end.

(** ** kd_grid.hpp:30-71 integrate_ninj_domega_quad *)
Definition ninj_quad (xi0 xi1 phi0 phi1 : R) (i j : nat) : R :=
  let cth0 := 1 - xi0 in let sth0 := sqrt (1 - cth0 * cth0) in
  let cth1 := 1 - xi1 in let sth1 := sqrt (1 - cth1 * cth1) in
  let sphi0 := sin phi0 in let cphi0 := cos phi0 in let sphi1 := sin phi1 in let cphi1 := cos phi1 in
  let sth03 := sth0 * sth0 * sth0 in let sth13 := sth1 * sth1 * sth1 in
  let cth03 := cth0 * cth0 * cth0 in let cth13 := cth1 * cth1 * cth1 in
  let c3th0 := 4 * cth03 - 3 * cth0 in let c3th1 := 4 * cth13 - 3 * cth1 in
  let c2phi0 := 2 * cphi0 * cphi0 - 1 in let c2phi1 := 2 * cphi1 * cphi1 - 1 in
  let s2phi0 := 2 * sphi0 * cphi0 in let s2phi1 := 2 * sphi1 * cphi1 in
  let term := 9 * (cth0 - cth1) - c3th0 + c3th1 in
  match i, j with
  | 0%nat, 0%nat => (phi1 - phi0) * (3 * cth0 + c3th0 - 4 * cth13) / 12
  | 0%nat, 1%nat => (sphi0 - sphi1) * (sth03 - sth13) / 3
  | 0%nat, 2%nat => (cphi1 - cphi0) * (sth03 - sth13) / 3
  | 1%nat, 1%nat => - term * (2 * (phi0 - phi1) + s2phi0 - s2phi1) / 48
  | 1%nat, 2%nat => (9 * (cth0 - cth1) - c3th0 + c3th1) * (c2phi0 - c2phi1) / 48
  | 2%nat, 2%nat => term * (-2 * (phi0 - phi1) + s2phi0 - s2phi1) / 48
  | _, _ => 0
  end.
Definition rect_wgts (r : Rect) : nat -> nat -> R := ninj_quad (mu_lo r) (mu_hi r) (phi_lo r) (phi_hi r).
(** mocmc.cpp:899-903 *)
Definition rect_omega (r : Rect) : R := (mu_hi r - mu_lo r) * (phi_hi r - phi_lo r).

(** ** MOCMCEddington *)
(** std::round *)
Definition c_round (x : R) : Z := if Rle_bool 0 x then Zfloor (x + / 2) else Zceil (x - / 2).
(** mocmc.cpp:856-863: nu_lab0 and the shift; ndu is - ncov . ucon *)
Definition eddington_shift (nu0 ndu dlnu : R) : R := (ln nu0 - ln (ndu * nu0)) / dlnu.
Fixpoint sum_to (f : nat -> R) (n : nat) : R := match n with O => 0 | S k => sum_to f k + f k end.
(** mocmc.cpp:869-881: the intensity of one sample, one species *)
Definition sample_intensity (nu_bins : nat) (nusamp : nat -> R) (dlnu ndu : R) (Inuinv : Z -> R) : R :=
  let ishift := c_round (eddington_shift (nusamp 0%nat) ndu dlnu) in
  sum_to (fun nubin => let '(idx, wgt) := pc_indices (Z.of_nat nu_bins) ishift (Z.of_nat nubin) in
                       wgt * Inuinv idx * nusamp nubin ^ 4) nu_bins.
(** mocmc.cpp:829-922: the stored tensor from the rectangles and the intensities of nsamp samples.
    v(iTilPi(s, i, j)) for i <= j, then the mirror entries (919-923) *)
Definition eddington_upper (nsamp : nat) (g : nat -> Rect) (I : nat -> R) (i j : nat) : R :=
  let acc := sum_to (fun n => rect_wgts (g n) i j * I n) nsamp in
  let energy := sum_to (fun n => rect_omega (g n) * I n) nsamp in
  if Nat.ltb 0 nsamp then acc / energy - (if Nat.eqb i j then 1 / 3 else 0) else acc.
Definition tilPi (nsamp : nat) (g : nat -> Rect) (I : nat -> R) (i j : nat) : R :=
  if Nat.leb i j then eddington_upper nsamp g I i j else eddington_upper nsamp g I j i.

(** ** MOCMCFluidSource *)
(** mocmc.cpp:636-656: Inu0 *)
Definition mean_intensity (nsamp : nat) (g : nat -> Rect) (nusamp : nat -> R) (Inuinv : nat -> nat -> R) (bin : nat) : R :=
  sum_to (fun n => Inuinv n bin * nusamp bin ^ 3 * (rect_omega (g n) / (4 * PI))) nsamp.
(** mocmc.cpp:658-709: one frequency average, f the opacity *)
Definition freq_trapezoid (nu_bins : nat) (f : nat -> R) : R :=
  sum_to f nu_bins - / 2 * f 0%nat - / 2 * f (nu_bins - 1)%nat.
Definition mean_opacity (nu_bins : nat) (nusamp Inu0 f : nat -> R) : R :=
  ratio (freq_trapezoid nu_bins (fun bin => f bin * Inu0 bin * nusamp bin)) (freq_trapezoid nu_bins (fun bin => Inu0 bin * nusamp bin)).
(** kappaJ and kappaH, 707-708 *)
Definition mocmc_kappa (nu_bins : nat) (nusamp Inu0 absorb scatter : nat -> R) : R * R :=
  let kappaJ := mean_opacity nu_bins nusamp Inu0 absorb in
  (kappaJ, mean_opacity nu_bins nusamp Inu0 scatter + kappaJ).
(** densitised variables of a zone: E, F_i per species; fluid energy, momentum, lepton number *)
Record Zone := { z_E : nat -> R; z_F : nat -> nat -> R; z_eng : R; z_mom : nat -> R; z_ye : R }.
(** mocmc.cpp:616-634, 710-735: the exchange of species s; [upd] is LinearSourceUpdate applied to
    E/sdetgam, F/sdetgam *)
Definition mocmc_exchange (upd : nat -> R -> vec -> R * vec) (sdetgam : R) (update_fluid : bool) (s : nat) (z : Zone) : Zone :=
  let '(dE, dF) := upd s (z_E z s / sdetgam) (fun i => z_F z s i / sdetgam) in
  {| z_E := fun t => if Nat.eqb t s then z_E z t + sdetgam * dE else z_E z t;
     z_F := fun t i => if Nat.eqb t s then z_F z t i + sdetgam * dF i else z_F z t i;
     z_eng := if update_fluid then z_eng z - sdetgam * dE else z_eng z;
     z_mom := fun i => if update_fluid then z_mom z i - sdetgam * dF i else z_mom z i;
     z_ye := if update_fluid then z_ye z - sdetgam * 0 else z_ye z |}.
Fixpoint mocmc_species (upd : nat -> R -> vec -> R * vec) (sdetgam : R) (update_fluid : bool) (n : nat) (z : Zone) : Zone :=
  match n with O => z | S s => mocmc_exchange upd sdetgam update_fluid s (mocmc_species upd sdetgam update_fluid s z) end.
(** mocmc.cpp:595-634, 710-720: the update of one species in a zone with the closure c, lapse alpha, opacities from above *)
Definition mocmc_upd (c : Closure) (eq : ClosureEquation) (alpha dt : R) (Pi : nat -> mat) (JBB : nat -> R) (kappa : nat -> R * R) : nat -> R -> vec -> R * vec :=
  fun s Estar Fstar => let '(kJ, kH) := kappa s in LinearSourceUpdate c eq Estar Fstar (Pi s) (JBB s) (alpha * dt * kJ) (alpha * dt * kH).
(** mocmc.cpp:737-787: the new invariant intensity of a sample in a bin.  absorb is not consulted: alphainv_a is computed from
    TotalScatteringCoefficient (767-770) *)
Definition sample_update (nu_bins : nat) (nusamp : nat -> R) (dlnu dt ut ndu : R) (absorb scatter thermal Inu0 : nat -> R) (bin : nat) (I : R) : R :=
  let ishift := c_round (- eddington_shift (nusamp 0%nat) ndu dlnu) in
  let nu := nusamp bin in
  let ds := dt / ut / nu in
  let alphainv_a := nu * scatter bin in
  let alphainv_s := nu * scatter bin in
  let jinv_a := thermal bin / (nu * nu * nu) * alphainv_a in
  let jinvs := fun b => Inu0 b / (nusamp b * nusamp b * nusamp b) * (nusamp b * scatter b) in
  let jinv_s := let '(idx, wgt) := pc_indices (Z.of_nat nu_bins) ishift (Z.of_nat bin) in wgt * jinvs (Z.to_nat idx) in
  (I + ds * (jinv_a + jinv_s)) / (1 + ds * (alphainv_a + alphainv_s)).

(** ** MOCMCInitSamples *)
(** mocmc.cpp:137-147: starting index of zone z (zones in the order of the loop), dN samples in zone z *)
Fixpoint starting_index (dN : nat -> nat) (z : nat) : nat := match z with O => 0 | S k => (starting_index dN k + dN k)%nat end.
(** mocmc.cpp:190-192, one direction *)
Definition init_position (minx dx : R) (i u : R) : R := minx + (i + u) * dx.
(** mocmc.cpp:197-200; u1, u2 uniform *)
Definition init_direction (u1 u2 : R) : vec :=
  let theta := acos (2 * u1 - 1) in let phi := 2 * PI * u2 in
  fun m => match m with 0%nat => -1 | 1%nat => cos theta | 2%nat => cos phi * sin theta | _ => sin phi * sin theta end.
(** mocmc.cpp:209-221; B = ThermalDistributionOfTNu(Temp, ., nu).  Tr (216) is never used *)
Definition init_intensity (B : R -> R -> R) (Temp ndu : R) (nu0 : R) : R :=
  let nu := nu0 * ndu in Rmax (SMALL : R) (B Temp nu / nu ^ 3).

(** ** MOCMCSampleBoundaries, mocmc.cpp:290-341 *)
Inductive MOCMCBoundary := mb_outflow | mb_fixed_temp | mb_periodic.
Record Sample := { s_x : R; s_k : nat -> R; s_I : nat -> R }.
Definition flip1 (k : nat -> R) : nat -> R := fun m => if Nat.eqb m 1 then - k m else k m.
(** TJ: the temperature of the energy density in the (ghost) zone of the sample *)
Definition sample_bounds (xmin xmax : R) (bc : MOCMCBoundary) (ix1_temp TJ : R) (B : R -> R -> R) (nusamp : nat -> R) (p : Sample) : Sample :=
  let p1 := if Rlt_bool (s_x p) xmin then
              let temp := match bc with mb_outflow => TJ | _ => ix1_temp end in
              {| s_x := xmin + (xmin - s_x p); s_k := flip1 (s_k p);
                 s_I := fun bin => Rmax (SMALL : R) (B temp (nusamp bin)) / nusamp bin ^ 3 |}
            else p in
  if Rlt_bool xmax (s_x p1) then {| s_x := xmax - (s_x p1 - xmax); s_k := flip1 (s_k p1); s_I := fun _ => SMALL : R |} else p1.

(** ** The tasks of a stage, phoebus_driver.cpp:370-396 *)
Inductive MTask := m_reset | m_transport | m_send | m_receive | m_bounds | m_recon | m_eddington.
Definition mocmc_tasks : list MTask := [m_reset; m_transport; m_send; m_receive; m_bounds; m_recon; m_eddington].
Definition mocmc_deps (t : MTask) : list MTask :=
  match t with
  | m_reset => [] | m_transport => [m_reset] | m_send => [m_transport] | m_receive => [m_transport; m_send]
  | m_bounds => [] | m_recon => [m_bounds] | m_eddington => [m_recon]
  end.
(** phoebus_driver.cpp:380 and 218: each stage pushes the samples of "base" by beta * dt *)
Definition mocmc_pushes (betas : list R) (dt : R) : list R := map (fun beta => beta * dt) betas.
