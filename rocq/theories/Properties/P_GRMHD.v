(** C17: conserved variables and fluxes are those of ideal GRMHD. *)
From Coq Require Import Reals Arith Lia Lra Psatz.
From Flocq Require Import Core.
From Verif.Spec Require Import Tensor GeomSpec SystemSpec Relativity GRMHD.
From Verif.Model Require Import Num Robust Geometry Relativity Prim2Con Riemann.
From Verif.Proofs Require Import NumR RobustProofs TensorTac LinearAlgebraProofs GeomBase AdmProofs RelProofs
  RelativityProofs Prim2ConProofs RiemannProofs GeomSystems.
Local Open Scope R_scope.

(** the two forms of the tensor in the specification agree: T^mu_nu = T^{mu l} g_{l nu} *)
Theorem C17_spec_mixed : forall g ginv rho u p ucon bcon mu nu,
  symmetric4 g -> inverse4 g ginv -> (mu < 4)%nat -> (nu < 4)%nat ->
  Tmixed g rho u p ucon bcon mu nu = sum4 (fun l => Tcon g ginv rho u p ucon bcon mu l * g l nu).
Proof.
  intros g ginv rho u p uc bc mu nu Sg I Hm Hn.
  transitivity ((rho + u + p + bsquared g bc) * uc mu * lower4 g uc nu + (p + bsquared g bc / 2) * mul4 ginv g mu nu
    - bc mu * lower4 g bc nu).
  - rewrite (inverse4_r _ _ I) by assumption. reflexivity.
  - unfold mul4, lower4, Tcon. generalize (bsquared g bc); intros b2. unfold sum4.
    rewrite (Sg nu 0)%nat, (Sg nu 1)%nat, (Sg nu 2)%nat, (Sg nu 3)%nat by lia. ring.
Qed.
Print Assumptions C17_spec_mixed.

(** p2c, both formulations, every geometry and every primitive state *)
Theorem C17_conserved : forall alpha beta g ginv gamma gi sg sgg,
  adm_consistent alpha beta g ginv gamma gi sg sgg ->
  forall (rho : R) (vp B : vec) (u ye p gam1 : R) (valencia : bool),
  let W := GetLorentzFactor vp gamma in
  let ucon := GetFourVelocity vp gamma alpha beta in
  let bcon := comoving_field g W ucon B in
  let C := p2c valencia rho vp B u ye p gam1 g gi beta alpha sg in
  cD C = sgg * (rho * ucon 0%nat) /\
  (forall i, (i < 3)%nat -> cS C i = sgg * Tmixed g rho u p ucon bcon 0 (S i)) /\
  (forall i, (i < 3)%nat -> cB C i = sgg * dualF ucon bcon (S i) 0) /\
  ctau C = (if valencia then sgg * (alpha * Tcon g ginv rho u p ucon bcon 0 0 - rho * ucon 0%nat)
            else sgg * (Tmixed g rho u p ucon bcon 0 0 + rho * ucon 0%nat)) /\
  cye C = cD C * ye.
Proof.
  intros alpha beta g ginv gamma gi sg sgg H rho vp B u ye p gam1 val W ucon bcon C.
  pose proof (adm_lapse_pos _ _ _ _ _ _ _ _ H) as ap. pose proof (adm_dets _ _ _ _ _ _ _ _ H) as Dt.
  pose proof (adm_tpo _ _ _ _ _ _ _ _ H) as T. pose proof (lorentz_ge1 _ _ _ _ vp T) as W1. fold W in W1.
  pose proof (ucon0 _ _ _ _ _ _ _ _ H vp) as U0. fold W ucon in U0.
  pose proof (bcon0 _ _ _ _ _ _ _ _ H vp B) as B0. fold W ucon in B0. fold bcon in B0.
  set (v := fun i => vp i * (1 / W)) in *. set (Bdotv := dot3 gamma B v) in *. set (b0 := W * Bdotv) in *.
  pose proof (bconS _ _ _ _ _ _ _ _ H vp B) as BS. fold W ucon in BS. fold bcon v in BS. fold Bdotv in BS. fold b0 in BS.
  pose proof (uconS' _ _ _ _ _ _ _ _ H vp) as US. fold W ucon v in US.
  repeat split.
  - unfold C. rewrite (C_D _ _ _ _ _ _ _ _ H). fold W. rewrite U0, Dt. field. lra.
  - intros i Hi. unfold C. rewrite (C_S _ _ _ _ _ _ _ _ H) by exact Hi. fold W ucon. fold bcon v. fold Bdotv. fold b0.
    unfold Tmixed, delta. cbn [Nat.eqb].
    pose proof (ucov_S _ _ _ _ _ _ _ _ H vp i Hi) as K. fold W v ucon in K. rewrite K, U0, B0, Dt. field. lra.
  - intros i Hi. change (cB C i) with (sg * B i). unfold dualF. rewrite BS, US, B0, U0, Dt. field. split; lra.
  - unfold C. destruct val.
    + rewrite (C_tau_valencia _ _ _ _ _ _ _ _ H). fold W ucon. fold bcon v. fold Bdotv. fold b0.
      unfold Tcon. rewrite U0, B0, (ginv00 _ _ _ _ _ _ _ _ H), Dt. field. lra.
    + rewrite (C_tau_cov _ _ _ _ _ _ _ _ H). fold W ucon. fold bcon. unfold Tmixed, delta. cbn [Nat.eqb].
      rewrite U0, Dt. field. lra.
Qed.
Print Assumptions C17_conserved.

(** a face state within the floors and ceilings *)
Definition within_limits (gamma : mat) (q : FaceState) (rho_floor sie_floor sie_max gam_max : R) : Prop :=
  rho_floor <= q_rho q /\ GetLorentzFactor (q_vp q) gamma <= gam_max /\
  sie_floor < q_eng q / q_rho q /\ q_eng q / q_rho q <= sie_max /\ 0 <= q_prs q.

(** prim_to_flux: densities times sqrt(gamma) and fluxes times sqrt(-g), the factors with
    which llf and hll use them *)
Theorem C17_fluxes : forall alpha beta g ginv gamma gi sg sgg gdd,
  adm_consistent alpha beta g ginv gamma gi sg sgg ->
  forall (q : FaceState) rf sf sm gm, within_limits gamma q rf sf sm gm ->
  forall dir valencia, (dir < 3)%nat ->
  let rho := q_rho q in let u := q_eng q in let p := q_prs q in
  let ucon := GetFourVelocity (q_vp q) gamma alpha beta in
  let bcon := comoving_field g (GetLorentzFactor (q_vp q) gamma) ucon (q_B q) in
  let out := prim_to_flux valencia dir (mkFace alpha sgg sg g beta gdd) q rf sf sm gm in
  (fo_U out vRho * sg = sgg * (rho * ucon 0%nat) /\
   fo_F out vRho * sgg = sgg * (rho * ucon (S dir))) /\
  (forall m, (m < 3)%nat ->
   fo_U out (vMom m) * sg = sgg * Tmixed g rho u p ucon bcon 0 (S m) /\
   fo_F out (vMom m) * sgg = sgg * Tmixed g rho u p ucon bcon (S dir) (S m)) /\
  (forall m, (m < 3)%nat ->
   fo_U out (vB m) * sg = sgg * dualF ucon bcon (S m) 0 /\
   fo_F out (vB m) * sgg = sgg * dualF ucon bcon (S m) (S dir)) /\
  (fo_U out vYe * sg = sgg * (rho * ucon 0%nat) * q_ye q /\
   fo_F out vYe * sgg = sgg * (rho * ucon (S dir)) * q_ye q) /\
  (if valencia
   then fo_U out vEng * sg = sgg * (alpha * Tcon g ginv rho u p ucon bcon 0 0 - rho * ucon 0%nat) /\
        fo_F out vEng * sgg = sgg * (alpha * Tcon g ginv rho u p ucon bcon 0 (S dir) - rho * ucon (S dir))
   else fo_F out vEng * sgg = sgg * (Tmixed g rho u p ucon bcon (S dir) 0 + rho * ucon (S dir))).
Proof.
  intros alpha beta g ginv gamma gi sg sgg gdd H q rf sf sm gm (L1 & L2 & L3 & L4 & L5) dir val Hd rho u p ucon bcon out.
  pose proof (adm_lapse_pos _ _ _ _ _ _ _ _ H) as ap. pose proof (adm_dets _ _ _ _ _ _ _ _ H) as Dt.
  pose proof (adm_tpo _ _ _ _ _ _ _ _ H) as T. set (vp := q_vp q) in *. set (B := q_B q) in *.
  set (W := GetLorentzFactor vp gamma) in *. pose proof (lorentz_ge1 _ _ _ _ vp T) as W1. fold W in W1.
  pose proof (ucon0 _ _ _ _ _ _ _ _ H vp) as U0. fold W ucon in U0.
  pose proof (bcon0 _ _ _ _ _ _ _ _ H vp B) as B0. fold W ucon in B0. fold bcon in B0.
  set (v := fun i => vp i * (1 / W)) in *. set (Bdotv := dot3 gamma B v) in *. set (b0 := W * Bdotv) in *.
  pose proof (bconS _ _ _ _ _ _ _ _ H vp B) as BS. fold W ucon in BS. fold bcon v in BS. fold Bdotv in BS. fold b0 in BS.
  pose proof (uconS' _ _ _ _ _ _ _ _ H vp) as US. fold W ucon v in US.
  set (b2 := bsquared g bcon).
  assert (K1 : fo_U out vRho = rho * W) by exact (out_Urho alpha beta g ginv gamma gi sg sgg gdd H q rf sf sm gm L1 L2 val dir).
  assert (K2 : fo_F out vRho = rho * ucon (S dir)) by exact (out_Frho alpha beta g ginv gamma gi sg sgg gdd H q rf sf sm gm L1 L2 val dir).
  assert (K3 : fo_U out vYe = rho * W * q_ye q) by exact (out_Uye alpha beta g ginv gamma gi sg sgg gdd H q rf sf sm gm L1 L2 val dir).
  assert (K4 : fo_F out vYe = rho * ucon (S dir) * q_ye q) by exact (out_Fye alpha beta g ginv gamma gi sg sgg gdd H q rf sf sm gm L1 L2 val dir).
  assert (K5 : forall m, (m < 3)%nat -> fo_U out (vMom m) = (rho + u + p + b2) * (W * W) * lower3 gamma v m - b0 * lower4 g bcon (S m))
    by exact (fun m => out_Umom alpha beta g ginv gamma gi sg sgg gdd H q rf sf sm gm L1 L2 L3 L4 L5 val dir m).
  assert (K6 : forall m, (m < 3)%nat -> fo_F out (vMom m) = Tmixed g rho u p ucon bcon (S dir) (S m))
    by exact (fun m Hm => out_Fmom alpha beta g ginv gamma gi sg sgg gdd H q rf sf sm gm L1 L2 L3 L4 L5 val dir m Hm Hd).
  assert (K7 : forall m, fo_F out (vB m) = B m * (ucon (S dir) / W) - B dir * (ucon (S m) / W))
    by exact (out_FB alpha beta g ginv gamma gi sg sgg gdd H q rf sf sm gm L2 val dir).
  repeat split.
  - rewrite K1, U0, Dt. field. lra.
  - rewrite K2. ring.
  - rewrite K5 by assumption. unfold Tmixed, delta. cbn [Nat.eqb]. fold b2.
    pose proof (ucov_S _ _ _ _ _ _ _ _ H vp m ltac:(assumption)) as K. fold W v ucon in K. rewrite K, U0, B0, Dt. field. lra.
  - rewrite K6 by assumption. ring.
  - change (fo_U out (vB m)) with (B m). unfold dualF. rewrite BS, US, B0, U0, Dt. field. split; lra.
  - rewrite K7. unfold dualF. rewrite !BS, !US. field. split; lra.
  - rewrite K3, U0, Dt. field. lra.
  - rewrite K4. ring.
  - destruct val.
    + assert (K8 : fo_U out vEng = (rho + u + p + b2) * (W * W) - (p + b2 / 2) - b0 * b0 - rho * W)
        by exact (out_Ueng_valencia alpha beta g ginv gamma gi sg sgg gdd H q rf sf sm gm L1 L2 L3 L4 L5 dir).
      assert (K9 : fo_F out vEng = ((rho + u + p + b2) * (W * W) - (p + b2 / 2) - b0 * b0 - rho * W) * (ucon (S dir) / W)
        + (p + b2 / 2) * v dir - Bdotv * B dir)
        by exact (out_Feng_valencia alpha beta g ginv gamma gi sg sgg gdd H q rf sf sm gm L1 L2 L3 L4 L5 dir).
      split.
      * rewrite K8. unfold Tcon. fold b2. rewrite U0, B0, (ginv00 _ _ _ _ _ _ _ _ H), Dt. field. lra.
      * rewrite K9. unfold Tcon. fold b2. rewrite (ginv0S _ _ _ _ _ _ _ _ H) by exact Hd. rewrite US, BS, U0, B0, Dt. unfold b0. field. split; lra.
    + assert (K8 : fo_F out vEng = Tmixed g rho u p ucon bcon (S dir) 0 + rho * ucon (S dir))
        by exact (out_Feng_cov alpha beta g ginv gamma gi sg sgg gdd H q rf sf sm gm L1 L2 L3 L4 L5 dir Hd).
      rewrite K8. ring.
Qed.
Print Assumptions C17_fluxes.

(** the state used in the dissipative part of the flux is the conserved state of p2c *)
Theorem C17_face_state_is_p2c : forall alpha beta g ginv gamma gi sg sgg gdd,
  adm_consistent alpha beta g ginv gamma gi sg sgg ->
  forall (q : FaceState) rf sf sm gm, within_limits gamma q rf sf sm gm ->
  forall dir, (dir < 3)%nat ->
  let out := prim_to_flux true dir (mkFace alpha sgg sg g beta gdd) q rf sf sm gm in
  let C := p2c true (q_rho q) (q_vp q) (q_B q) (q_eng q) (q_ye q) (q_prs q) (q_gm1 q) g gi beta alpha sg in
  fo_U out vRho * sg = cD C /\ fo_U out vEng * sg = ctau C /\ fo_U out vYe * sg = cye C /\
  (forall m, (m < 3)%nat -> fo_U out (vMom m) * sg = cS C m /\ fo_U out (vB m) * sg = cB C m).
Proof.
  intros alpha beta g ginv gamma gi sg sgg gdd H q rf sf sm gm L dir Hd out C.
  destruct (C17_fluxes _ _ _ _ _ _ _ _ gdd H q rf sf sm gm L dir true Hd) as ((A1 & _) & A2 & A3 & (A4 & _) & (A5 & _)).
  destruct (C17_conserved _ _ _ _ _ _ _ _ H (q_rho q) (q_vp q) (q_B q) (q_eng q) (q_ye q) (q_prs q) (q_gm1 q) true)
    as (B1 & B2 & B3 & B4 & B5). fold C in B1, B2, B3, B4, B5. fold out in A1, A2, A3, A4, A5.
  repeat split.
  - rewrite A1, B1. reflexivity.
  - rewrite A5, B4. reflexivity.
  - rewrite A4, B5, B1. ring.
  - rewrite B2 by assumption. apply A2; assumption.
  - rewrite B3 by assumption. apply A3; assumption.
Qed.
Print Assumptions C17_face_state_is_p2c.

(** In the covariant formulation (USE_VALENCIA off) the energy density of the face state
    misplaces a parenthesis: the magnetic term b^0 b_0 is not multiplied by the lapse, so
    the state differs from p2c's whenever alpha /= 1 and b^0 b_0 /= 0. *)
Theorem C17_covariant_energy_error : forall alpha beta g ginv gamma gi sg sgg gdd,
  adm_consistent alpha beta g ginv gamma gi sg sgg ->
  forall (q : FaceState) rf sf sm gm, within_limits gamma q rf sf sm gm ->
  forall dir,
  let ucon := GetFourVelocity (q_vp q) gamma alpha beta in
  let bcon := comoving_field g (GetLorentzFactor (q_vp q) gamma) ucon (q_B q) in
  let out := prim_to_flux false dir (mkFace alpha sgg sg g beta gdd) q rf sf sm gm in
  let C := p2c false (q_rho q) (q_vp q) (q_B q) (q_eng q) (q_ye q) (q_prs q) (q_gm1 q) g gi beta alpha sg in
  fo_U out vEng * sg = ctau C + sg * (alpha - 1) * (bcon 0%nat * lower4 g bcon 0%nat).
Proof.
  intros alpha beta g ginv gamma gi sg sgg gdd H q rf sf sm gm (L1 & L2 & L3 & L4 & L5) dir ucon bcon out C.
  destruct (C17_conserved _ _ _ _ _ _ _ _ H (q_rho q) (q_vp q) (q_B q) (q_eng q) (q_ye q) (q_prs q) (q_gm1 q) false)
    as (B1 & _ & _ & B4 & _). fold C in B4. rewrite B4.
  assert (K : fo_U out vEng = alpha * Tmixed g (q_rho q) (q_eng q) (q_prs q) ucon bcon 0 0 + q_rho q * GetLorentzFactor (q_vp q) gamma
     + (alpha - 1) * (bcon 0%nat * lower4 g bcon 0%nat)) by exact (out_Ueng_cov alpha beta g ginv gamma gi sg sgg gdd H q rf sf sm gm L1 L2 L3 L4 L5 dir).
  rewrite K. fold ucon. fold bcon.
  pose proof (adm_lapse_pos _ _ _ _ _ _ _ _ H) as ap.
  pose proof (ucon0 _ _ _ _ _ _ _ _ H (q_vp q)) as U0. fold ucon in U0. rewrite U0, (adm_dets _ _ _ _ _ _ _ _ H). fold bcon. field. lra.
Qed.
Print Assumptions C17_covariant_energy_error.

(** A concrete case of the hypotheses: a static lapse 2 (g = diag(-4,1,1,1)), fluid with
    u^1-type velocity 3/4 (Lorentz factor 5/4) and field B = (1,0,0). *)
Definition gw : mat := fun i j => if Nat.eqb i j then (if Nat.eqb i 0 then -4 else 1) else 0.
Definition gwi : mat := fun i j => if Nat.eqb i j then (if Nat.eqb i 0 then - / 4 else 1) else 0.
Definition qw : FaceState := mkState 1 (row3 (3/4) 0 0) (1/2) (1/3) (4/3) (row3 1 0 0) (1/2).
Lemma gw_consistent : adm_consistent 2 (fun _ => 0) gw gwi delta delta 1 2.
Proof.
  split; try lra.
  - intros i j Hi Hj. idx; reflexivity.
  - intros x (k & Hk & Hx). unfold dot3, sum3, delta; cbn [Nat.eqb].
    assert (forall y, 0 <= y * y) by (intros; apply Rle_0_sqr).
    pose proof (H (x 0%nat)); pose proof (H (x 1%nat)); pose proof (H (x 2%nat)).
    assert (0 < x k * x k) by (apply Rsqr_pos_lt in Hx; exact Hx).
    destruct k as [|[|[|]]]; try lia; lra.
  - intros i j Hi Hj. idx; reflexivity.
  - unfold gw, dot3, sum3; cbn. lra.
  - intros i Hi. unfold gw, lower3, sum3; cbn. ring.
  - intros i j _ _. reflexivity.
  - intros i j Hi Hj. idx; unfold gw, gwi, delta, mul4, sum4; cbn; lra.
  - intros i j Hi Hj. idx; unfold delta, mul3, sum3; cbn; lra.
  - split; [lra|]. tensor. lra.
  - split; [lra|]. unfold gw; tensor. lra.
Qed.
Lemma qw_W : GetLorentzFactor (q_vp qw) delta = 5/4.
Proof.
  unfold GetLorentzFactor, qw, sum3, delta; cbn. replace (1 + _) with (5/4 * (5/4)) by field. apply sqrt_square. lra.
Qed.
Example C17_nonvacuous : adm_consistent 2 (fun _ => 0) gw gwi delta delta 1 2 /\ within_limits delta qw (1/100) (1/10) 1 10.
Proof.
  split; [exact gw_consistent|]. unfold within_limits. rewrite qw_W. cbn. lra.
Qed.

(** ... and there the covariant face state differs from the conserved state *)
Theorem C17_covariant_energy_refuted : exists alpha beta g ginv gamma gi sg sgg q rf sf sm gm,
  adm_consistent alpha beta g ginv gamma gi sg sgg /\ within_limits gamma q rf sf sm gm /\
  forall dir gdd,
  fo_U (prim_to_flux false dir (mkFace alpha sgg sg g beta gdd) q rf sf sm gm) vEng * sg <>
  ctau (p2c false (q_rho q) (q_vp q) (q_B q) (q_eng q) (q_ye q) (q_prs q) (q_gm1 q) g gi beta alpha sg).
Proof.
  exists 2, (fun _ => 0), gw, gwi, delta, delta, 1, 2, qw, (1/100), (1/10), 1, 10.
  destruct C17_nonvacuous as [A B]. split; [exact A|]. split; [exact B|].
  intros dir gdd. rewrite (C17_covariant_energy_error _ _ _ _ _ _ _ _ gdd A qw _ _ _ _ B dir).
  pose proof (ucon0 _ _ _ _ _ _ _ _ A (q_vp qw)) as U0. rewrite qw_W in U0.
  set (uc := GetFourVelocity (q_vp qw) delta 2 (fun _ => 0)) in *. rewrite qw_W.
  set (bc := comoving_field gw (5/4) uc (q_B qw)).
  assert (U1 : uc 1%nat = 3/4).
  { pose proof (uconS _ _ _ _ _ _ _ _ A (q_vp qw) 0%nat) as K. fold uc in K. rewrite K. cbn. lra. }
  assert (E : bc 0%nat = 3/8).
  { unfold bc, comoving_field, dot4, sum4, gw, spatial4. cbn [Nat.eqb q_B qw row3]. rewrite U0, U1. field. }
  assert (E2 : lower4 gw bc 0%nat = -3/2).
  { unfold lower4, sum4. rewrite E. unfold gw; cbn. lra. }
  rewrite E, E2. lra.
Qed.
Print Assumptions C17_covariant_energy_refuted.
