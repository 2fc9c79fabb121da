(** C16: four-velocity, Lorentz factor, comoving magnetic field. *)
From Coq Require Import Reals Arith Lia Lra Psatz.
From Verif.Spec Require Import Tensor GeomSpec SystemSpec Relativity.
From Verif.Model Require Import Num Robust Geometry Relativity.
From Verif.Proofs Require Import NumR TensorTac GeomBase RelProofs RelativityProofs GeomSystems.
Local Open Scope R_scope.

(** For every metric in 3+1 form and every primitive velocity v (no bound on its size):
    the four-velocity has norm -1, W >= 1 with equality exactly for v = 0, W is minus the
    projection of u on the unit normal, and v is the part of u tangent to the surface. *)
Theorem C16_four_velocity : forall alpha beta gamma g (v : vec),
  three_plus_one alpha beta gamma g ->
  let W := GetLorentzFactor v gamma in
  let u := GetFourVelocity v gamma alpha beta in
  dot4 g u u = -1 /\
  1 <= W /\ (W = 1 <-> forall i, (i < 3)%nat -> v i = 0) /\
  W = - sum4 (fun mu => normal_cov alpha mu * u mu) /\
  (forall i, (i < 3)%nat -> u (S i) + u 0%nat * beta i = v i) /\
  0 < u 0%nat.
Proof.
  intros alpha beta gamma g v H W u.
  pose proof (tpo_lapse _ _ _ _ H) as ap.
  pose proof (lorentz_ge1 _ _ _ _ v H) as W1. pose proof (lorentz_sq _ _ _ _ v H) as W2. fold W in W1, W2.
  pose proof (u0_val _ _ _ _ v H) as U0. fold u W in U0.
  repeat split.
  - apply (u_norm _ _ _ _ v H).
  - exact W1.
  - intros E i Hi. apply (pd_zero gamma (tpo_gpd _ _ _ _ H)); [|exact Hi]. rewrite E in W2. lra.
  - intros Z. rewrite (dot3_zero gamma v v Z) in W2. nra.
  - unfold sum4, normal_cov. rewrite U0. field. lra.
  - intros i Hi. pose proof (hat_u alpha beta gamma v i Hi) as K. unfold hat in K. fold u in K. lra.
  - rewrite U0. apply Rdiv_lt_0_compat; lra.
Qed.
Print Assumptions C16_four_velocity.

(** the overload that takes the four-metric agrees with the one taking the spatial metric *)
Theorem C16_overloads_agree : forall alpha beta gamma g (v : vec),
  three_plus_one alpha beta gamma g -> GetLorentzFactor4 v g = GetLorentzFactor v gamma.
Proof.
  intros alpha beta gamma g v H. unfold GetLorentzFactor4, GetLorentzFactor, sum3. cbn [Nat.add].
  pose proof (tpo_ij _ _ _ _ H) as E. rewrite !E by lia. reflexivity.
Qed.
Print Assumptions C16_overloads_agree.

(** any four-vector with norm -1 and positive time component comes from exactly the
    velocity v^i = u^i + u^0 beta^i *)
Theorem C16_four_velocity_onto : forall alpha beta gamma g (u : vec),
  three_plus_one alpha beta gamma g -> dot4 g u u = -1 -> 0 < u 0%nat ->
  eq4 (GetFourVelocity (fun i => u (S i) + u 0%nat * beta i) gamma alpha beta) u.
Proof.
  intros alpha beta gamma g u H N P. set (v := fun i => u (S i) + u 0%nat * beta i).
  pose proof (tpo_lapse _ _ _ _ H) as ap.
  pose proof (lorentz_sq _ _ _ _ v H) as W2. pose proof (lorentz_ge1 _ _ _ _ v H) as W1.
  rewrite (dot4_split _ _ _ _ H) in N.
  rewrite (dot3_ext gamma (hat beta u) v (hat beta u) v) in N by (intros i Hi; unfold hat, v; ring).
  set (W := GetLorentzFactor v gamma) in *.
  assert (E : W = alpha * u 0%nat).
  { assert (0 < alpha * u 0%nat) by (apply Rmult_lt_0_compat; assumption).
    assert ((W - alpha * u 0%nat) * (W + alpha * u 0%nat) = 0) by nra.
    apply Rmult_integral in H1. lra. }
  assert (U0 : GetFourVelocity v gamma alpha beta 0%nat = u 0%nat).
  { rewrite (u0_val _ _ _ _ v H). fold W. rewrite E. field. lra. }
  intros mu Hm. destruct mu as [|i]; [exact U0|].
  change (GetFourVelocity v gamma alpha beta (S i)) with (v i - GetFourVelocity v gamma alpha beta 0%nat * beta i).
  rewrite U0. unfold v. ring.
Qed.
Print Assumptions C16_four_velocity_onto.

(** the magnetic field strength returned is the norm b^2 of the comoving field, a
    non-negative number, zero only for B = 0; b is orthogonal to u *)
Theorem C16_magnetic_field : forall alpha beta gamma g (v B : vec),
  three_plus_one alpha beta gamma g ->
  let W := GetLorentzFactor v gamma in
  let u := GetFourVelocity v gamma alpha beta in
  let b := comoving_field g W u B in
  GetMagneticFieldSquared_cell gamma v B = dot4 g b b /\
  dot4 g b u = 0 /\
  0 <= GetMagneticFieldSquared_cell gamma v B /\
  (GetMagneticFieldSquared_cell gamma v B = 0 -> forall i, (i < 3)%nat -> B i = 0).
Proof.
  intros alpha beta gamma g v B H W u b.
  pose proof (bsq_val _ _ _ _ v H B) as K. fold W u in K. fold b in K.
  pose proof (lorentz_ge1 _ _ _ _ v H) as W1. fold W in W1.
  assert (P : 0 < W * W) by nra.
  pose proof (b_b _ _ _ _ v H B) as BB. fold W u in BB. fold b in BB.
  assert (D : 0 <= dot3 gamma B B / (W * W)).
  { unfold Rdiv. apply Rmult_le_pos; [apply pd_nonneg, (tpo_gpd _ _ _ _ H)|left; apply Rinv_0_lt_compat, P]. }
  pose proof (Rle_0_sqr (dot3 gamma B v / W)) as S2. unfold Rsqr in S2.
  assert (Q : GetMagneticFieldSquared_cell gamma v B = dot4 g b b) by exact K.
  repeat split.
  - exact Q.
  - apply (b_u _ _ _ _ v H B).
  - rewrite Q, BB. lra.
  - rewrite Q, BB. intros Z. apply (pd_zero gamma (tpo_gpd _ _ _ _ H)).
    assert (Z1 : dot3 gamma B B / (W * W) = 0) by lra.
    apply Rmult_eq_reg_r with (/ (W * W)); [|apply Rinv_neq_0_compat; lra]. rewrite Rmult_0_l. exact Z1.
Qed.
Print Assumptions C16_magnetic_field.

(** every consistent coordinate system (C10) meets the hypothesis *)
Theorem C16_systems : forall (S : System) (X : point) (v : vec), consistent_at S X ->
  let u := GetFourVelocity v (Metric S X) (Lapse S X) (ContravariantShift S X) in
  dot4 (SpacetimeMetric S X) u u = -1.
Proof.
  intros S X v H. apply adm_tpo in H. exact (proj1 (C16_four_velocity _ _ _ _ v H)).
Qed.
Print Assumptions C16_systems.

(** non-vacuous: near a spinning black hole, with a moving fluid *)
Example C16_nonvacuous : consistent_at (SphericalKerrSchild (9/10)) (row4 0 2 1 0) /\
  three_plus_one (Lapse (SphericalKerrSchild (9/10)) (row4 0 2 1 0)) (ContravariantShift (SphericalKerrSchild (9/10)) (row4 0 2 1 0))
    (Metric (SphericalKerrSchild (9/10)) (row4 0 2 1 0)) (SpacetimeMetric (SphericalKerrSchild (9/10)) (row4 0 2 1 0)).
Proof.
  assert (H : consistent_at (SphericalKerrSchild (9/10)) (row4 0 2 1 0)).
  { apply sks_consistent; cbn; [lra|]. pose proof PI_RGT_0. pose proof PI2_1.
    assert (0 < sin 1) by (apply sin_gt_0; lra). lra. }
  split; [exact H|]. exact (adm_tpo _ _ _ _ _ _ _ _ H).
Qed.
