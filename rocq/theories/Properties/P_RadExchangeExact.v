(** C30, exact accounts of the three source terms that do not conserve in general: what each
    one gets wrong, for every metric, velocity and opacity, and exactly when it is right. *)
From Coq Require Import Reals Lra Lia Arith ZArith Bool List Psatz.
From Flocq Require Import Core.
From Verif.Spec Require Import Tensor GeomSpec RootSpec Relativity RadSpec RadSource RadExchange.
From Verif.Model Require Import Num RootFind Geometry LinearAlgebra Relativity Prim2Con Con2PrimRobust RadClosure Tetrads RadSource.
From Verif.Proofs Require Import NumR TensorTac LinearAlgebraProofs GeomBase AdmProofs RelProofs RelativityProofs P2CSimple RadProofs FlatWitness RootFindProofs TetradProofs Con2PrimProofs C2PSolve.
From Verif.Properties Require Import P_Con2Prim P_RadTransform P_RadImplicit P_Tetrads P_RadExchange.
Import ListNotations.
Local Open Scope R_scope.

Lemma low_u0 alpha beta g ginv gamma gi sg sgg v W :
  adm_consistent alpha beta g ginv gamma gi sg sgg ->
  low g (moving alpha beta W v) 0%nat = - (W * (alpha - dot3 gamma beta v)).
Proof.
  intros A. pose proof (adm_lapse_pos _ _ _ _ _ _ _ _ A) as ap.
  unfold low, lower4, sum4, moving. rewrite (adm_g00 _ _ _ _ _ _ _ _ A), !(adm_g0i _ _ _ _ _ _ _ _ A) by lia.
  unfold dot3, lower3, sum3.
  rewrite (adm_gamma_sym _ _ _ _ _ _ _ _ A 1 0)%nat, (adm_gamma_sym _ _ _ _ _ _ _ _ A 2 0)%nat, (adm_gamma_sym _ _ _ _ _ _ _ _ A 2 1)%nat by lia.
  field. lra.
Qed.

(** *** optically thin cooling *)
(** any metric, velocity, list of emitting species and step: the energy taken from the fluid
    is (alpha - beta.v) times the energy emitted *)
Theorem C30_cooling_energy : forall alpha beta g ginv gamma gi sg sgg v W (l : list Emission) dt c,
  adm_consistent alpha beta g ginv gamma gi sg sgg -> lorentz_of gamma v W ->
  let u := moving alpha beta W v in
  let G := cooling u g sgg l in
  let right := dt * (sg * energy_rate alpha (fun m => - list_sum (map em_J l) * u m)) in
  let c' := ApplyRadiationFourForce true dt (fst G) (snd G) c in
  ctau c' = ctau c + (alpha - dot3 gamma beta v) * right /\
  (dt <> 0 -> (ctau c' = ctau c + right <-> list_sum (map em_J l) = 0 \/ alpha - dot3 gamma beta v = 1)).
Proof.
  intros alpha beta g ginv gamma gi sg sgg v W l dt c A L u G right c'.
  assert (U : dot4 g u u = -1) by exact (moving_unit _ _ _ _ _ _ _ _ _ _ A L).
  assert (Sg : sgg = alpha * sg) by exact (adm_dets _ _ _ _ _ _ _ _ A).
  pose proof (adm_lapse_pos _ _ _ _ _ _ _ _ A) as ap.
  pose proof (cooling_vals g u sgg l U (fun _ => 0, 0) 0%nat) as CV. cbv zeta in CV. fold (cooling u g sgg l) in CV. fold G in CV. cbn [fst snd] in CV.
  assert (Rt : right = - dt * sg * alpha * W * list_sum (map em_J l)).
  { unfold right, energy_rate, normal_cov, sum4, u, moving. field. lra. }
  assert (E : ctau c' = ctau c + (alpha - dot3 gamma beta v) * right).
  { unfold c', ApplyRadiationFourForce. cbn [ctau]. rewrite (proj1 CV), Sg, Rt. unfold u.
    rewrite (low_u0 _ _ _ _ _ _ _ _ v W A). ring. }
  split; [exact E|]. intros Hdt. rewrite E. set (k := alpha - dot3 gamma beta v).
  assert (Wp : 0 < W) by (destruct L; assumption).
  assert (Sp : 0 < sg) by exact (proj1 (adm_det3 _ _ _ _ _ _ _ _ A)).
  split.
  - intros Q. assert (P : (k - 1) * right = 0) by lra. apply Rmult_integral in P. destruct P as [P|P]; [right; lra|left].
    rewrite Rt in P. assert (N : - dt * sg * alpha * W <> 0).
    { apply Rmult_integral_contrapositive_currified; [|lra]. apply Rmult_integral_contrapositive_currified; [|lra].
      apply Rmult_integral_contrapositive_currified; [|lra]. lra. }
    apply Rmult_integral in P. tauto.
  - intros [Q|Q]; [rewrite Rt, Q; ring|rewrite Q; ring].
Qed.
Print Assumptions C30_cooling_energy.

(** *** the light bulb *)
(** any metric and velocity: the energy deposited is W (alpha - beta.v) / alpha times, and the
    momentum W / alpha times, that of a source of power rho (H - C) in the rest frame *)
Theorem C30_lightbulb : forall alpha beta g ginv gamma gi sg sgg v W rho H C Jye dt c,
  adm_consistent alpha beta g ginv gamma gi sg sgg -> lorentz_of gamma v W -> cD c = sg * rho * W ->
  let u := moving alpha beta W v in
  let G := add_lightbulb u g (cD c) H C Jye (fun _ => 0, 0) in
  let c' := ApplyRadiationFourForce true dt (fst G) (snd G) c in
  let Q : vec := fun m => rho * (H - C) * u m in
  ctau c' = ctau c + W * (alpha - dot3 gamma beta v) / alpha * (dt * (sg * energy_rate alpha Q)) /\
  (forall i, (i < 3)%nat -> cS c' i = cS c i + W / alpha * (dt * (sg * momentum_rate alpha g Q i))).
Proof.
  intros alpha beta g ginv gamma gi sg sgg v W rho H C Jye dt c A L D u G c' Q.
  assert (U : dot4 g u u = -1) by exact (moving_unit _ _ _ _ _ _ _ _ _ _ A L).
  pose proof (adm_lapse_pos _ _ _ _ _ _ _ _ A) as ap.
  pose proof (lightbulb_vals g u (cD c) H C Jye U) as LV. fold G in LV.
  unfold c', ApplyRadiationFourForce. cbn [ctau cS]. split.
  - rewrite LV, D. unfold u at 1. rewrite (low_u0 _ _ _ _ _ _ _ _ v W A). unfold energy_rate, normal_cov, sum4, Q, u, moving. field. lra.
  - intros i Hi. rewrite LV, D. unfold momentum_rate.
    replace (low g Q (S i)) with (rho * (H - C) * low g u (S i)) by (unfold Q, low, lower4, sum4; ring). field. lra.
Qed.
Print Assumptions C30_lightbulb.
(** so a heated zone gets the right energy exactly when W (alpha - beta.v) = alpha: at rest in
    every metric; in flat space in no other case *)
Theorem C30_lightbulb_exact : forall alpha beta g ginv gamma gi sg sgg v W rho H C Jye dt c,
  adm_consistent alpha beta g ginv gamma gi sg sgg -> lorentz_of gamma v W -> cD c = sg * rho * W ->
  dt <> 0 -> rho * (H - C) <> 0 ->
  let u := moving alpha beta W v in
  let G := add_lightbulb u g (cD c) H C Jye (fun _ => 0, 0) in
  let c' := ApplyRadiationFourForce true dt (fst G) (snd G) c in
  let Q : vec := fun m => rho * (H - C) * u m in
  (ctau c' = ctau c + dt * (sg * energy_rate alpha Q) <-> W * (alpha - dot3 gamma beta v) = alpha) /\
  (forall i, (i < 3)%nat -> (cS c' i = cS c i + dt * (sg * momentum_rate alpha g Q i) <-> W = alpha \/ lower3 gamma v i = 0)).
Proof.
  intros alpha beta g ginv gamma gi sg sgg v W rho H C Jye dt c A L D Hdt Hh u G c' Q.
  destruct (C30_lightbulb _ _ _ _ _ _ _ _ v W rho H C Jye dt c A L D) as [E M]. fold u in E, M. fold G in E, M. fold c' in E, M. fold Q in E, M.
  pose proof (adm_lapse_pos _ _ _ _ _ _ _ _ A) as ap.
  assert (Wp : 0 < W) by (destruct L; assumption).
  assert (Sp : 0 < sg) by exact (proj1 (adm_det3 _ _ _ _ _ _ _ _ A)).
  assert (N : dt * (sg * (alpha * (rho * (H - C)))) <> 0) by (do 3 (apply Rmult_integral_contrapositive_currified; [first [assumption|lra]|]); exact Hh).
  split.
  - rewrite E. assert (Er : energy_rate alpha Q = alpha * (rho * (H - C)) * W).
    { unfold energy_rate, normal_cov, sum4, Q, u, moving. field. lra. }
    rewrite Er. set (k := W * (alpha - dot3 gamma beta v)). set (n := dt * (sg * (alpha * (rho * (H - C))))) in *.
    replace (dt * (sg * (alpha * (rho * (H - C)) * W))) with (n * W) by (unfold n; ring).
    assert (NW : n * W <> 0) by (apply Rmult_integral_contrapositive_currified; [exact N|lra]).
    split.
    + intros Q0. assert (P : (k / alpha - 1) * (n * W) = 0) by lra. apply Rmult_integral in P. destruct P as [P|P]; [|contradiction].
      replace k with (k / alpha * alpha) by (field; lra). replace (k / alpha) with 1 by lra. ring.
    + intros ->. field. lra.
  - intros i Hi. rewrite M by exact Hi.
    assert (Mr : momentum_rate alpha g Q i = alpha * (rho * (H - C)) * (W * lower3 gamma v i)).
    { unfold momentum_rate. replace (low g Q (S i)) with (rho * (H - C) * low g u (S i)) by (unfold Q, low, lower4, sum4; ring).
      rewrite (low_hat _ _ _ _ _ _ _ _ A u i Hi). unfold lower3, sum3, u. rewrite !(hat_u _ _ _ _ _ _ _ _ A v W). ring. }
    rewrite Mr. set (n := dt * (sg * (alpha * (rho * (H - C))))) in *. set (vi := lower3 gamma v i).
    replace (dt * (sg * (alpha * (rho * (H - C)) * (W * vi)))) with (n * W * vi) by (unfold n; ring).
    assert (NW : n * W <> 0) by (apply Rmult_integral_contrapositive_currified; [exact N|lra]).
    split.
    + intros Q0. assert (P : (W / alpha - 1) * (n * W * vi) = 0) by lra. apply Rmult_integral in P. destruct P as [P|P].
      * left. replace W with (W / alpha * alpha) at 1 by (field; lra). replace (W / alpha) with 1 by lra. ring.
      * right. apply Rmult_integral in P. tauto.
    + intros [Q0|Q0]; [rewrite Q0; field; lra|rewrite Q0; ring].
Qed.
Print Assumptions C30_lightbulb_exact.

(** *** the fourd source *)
(** any metric, velocity, flux, absorption coefficient ka and scattering coefficient ks below
    the built-in cap: the source is the four-force plus
    - (ka - ks) alpha sqrt(gamma) (v.H, H_i) (absorption used for scattering), and, in the
    momentum, ka W (JBB - J) alpha sqrt(gamma) sum_j gamma_ij (v^i - v^j) (the wrong
    component lowered) *)
Theorem C30_fourd_force : forall alpha beta g ginv gamma gi sg sgg v W eng J H kap ks JBBof Tof,
  adm_consistent alpha beta g ginv gamma gi sg sgg -> lorentz_of gamma v W ->
  let u := moving alpha beta W v in transverse g u H ->
  let T := Tof eng in 0 <= kap T -> 2 * kap T <= 100000 ->
  let Sc := CalculateSource kap JBBof Tof g alpha sg (fun n => match n with O => eng | S i => W * v i end) (fun n => match n with O => J | S i => low g H (S i) end) in
  let Q := four_force (kap T) (kap T + ks T) (JBBof T) J u H in
  Sc 0%nat = sg * energy_rate alpha Q - (kap T - ks T) * (alpha * sg * sum3 (fun i => v i * low g H (S i))) /\
  forall i, (i < 3)%nat ->
  Sc (S i) = sg * momentum_rate alpha g Q i - (kap T - ks T) * (alpha * sg * low g H (S i))
    + kap T * W * (JBBof T - J) * (alpha * sg * sum3 (fun j => gamma i j * (v i - v j))).
Proof.
  intros alpha beta g ginv gamma gi sg sgg v W eng J H kap ks JBBof Tof A L u Tr T K0 K1 Sc Q.
  assert (Wp : 0 < W) by (destruct L; assumption).
  destruct (force_vals _ _ _ _ _ _ _ _ v W true H (kap T) (kap T + ks T) (JBBof T) J A Tr ltac:(lra)) as [FE FM]. fold u in FE, FM. fold Q in FE, FM.
  assert (Gij : forall i j, (i < 3)%nat -> (j < 3)%nat -> g (i + 1)%nat (j + 1)%nat = gamma i j) by (intros i j Hi Hj; rewrite !Nat.add_1_r; apply (adm_gij _ _ _ _ _ _ _ _ A); assumption).
  set (P := fun n : nat => match n with O => eng | S i => W * v i end) in *. set (Pr := fun n : nat => match n with O => J | S i => low g H (S i) end) in *.
  assert (Ws : sqrt (1 + sum3 (fun i => sum3 (fun j => g (i + 1)%nat (j + 1)%nat * P (i + 1)%nat * P (j + 1)%nat))) = W).
  { apply sqrt_lem_1; [| lra |].
    - replace (1 + _) with (W * W); [nra|]. destruct L as [_ L]. unfold sum3. rewrite !Gij by lia. unfold P. cbn [Nat.add]. unfold dot3, sum3 in L. lra.
    - destruct L as [_ L]. unfold sum3. rewrite !Gij by lia. unfold P. cbn [Nat.add]. unfold dot3, sum3 in L. lra. }
  assert (Rm1 : Rmin (kap T + kap T) 100000 = kap T + kap T) by (apply Rmin_left; lra).
  assert (Rm2 : Rmin (kap T) 100000 = kap T) by (apply Rmin_left; lra).
  unfold Sc, CalculateSource. rewrite Ws. change (Tof (P 0%nat)) with T. rewrite Rm1, Rm2. split.
  - rewrite FE. unfold P, Pr, sum3. cbn [Nat.add]. field. lra.
  - intros i Hi. rewrite FM by exact Hi. rewrite (cov_v_low alpha gamma v true i). unfold lower3, sum3. rewrite !Gij by lia. unfold P, Pr. cbn [Nat.add].
    replace (i + 1)%nat with (S i) by lia. field. lra.
Qed.
Print Assumptions C30_fourd_force.

(** *** hypotheses are met *)
Example C30_exact_nonvacuous :
  adm_consistent 2 zero3 slow4 slow4i delta delta 1 2 /\ lorentz_of delta (v3 (4/5) 0 0) (5/3) /\
  2 - dot3 delta zero3 (v3 (4/5) 0 0) = 2 /\
  transverse slow4 (moving 2 zero3 (5/3) (v3 (4/5) 0 0)) (fun m => match m with 2%nat => 1 | _ => 0 end).
Proof.
  split; [exact slow_consistent|]. split; [split; [lra|]; unfold dot3, sum3, delta, v3; cbn [Nat.eqb]; field|].
  split; [unfold dot3, sum3, zero3; ring|].
  unfold transverse, dot4, sum4, slow4, delta, moving, zero3, v3; cbn [Nat.eqb]. lra.
Qed.
