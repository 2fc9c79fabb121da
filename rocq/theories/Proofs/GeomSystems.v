From Coq Require Import Reals Arith Lra Lia.
From Flocq Require Import Core.
From Coquelicot Require Import Coquelicot.
From Verif.Model Require Import Num Robust Geometry.
From Verif.Spec Require Import Tensor GeomSpec SystemSpec.
From Verif.Proofs Require Import TensorTac GeomBase.
Local Open Scope R_scope.

Ltac sysunf := unfold consistent_at; cbn [Lapse ContravariantShift SpacetimeMetric SpacetimeMetricInverse
  Metric MetricInverse DetGamma DetG ConnectionCoefficient MetricDerivative GradLnAlpha Coords
  Minkowski BoostedMinkowski SphericalMinkowski FLRW Snake Inchworm SphericalKerrSchild MonopoleSph].

Ltac allidx := repeat intro; idx; tensor; cbn.

(** ** C10: 3+1 consistency *)
Lemma minkowski_consistent X : consistent_at Minkowski X.
Proof. sysunf. apply adm_intro; try (allidx; try split; lra). Qed.

Lemma boosted_consistent vx vy vz X : consistent_at (BoostedMinkowski vx vy vz) X.
Proof. sysunf. apply adm_intro; try (allidx; try split; ring); try (tensor; cbn; lra). Qed.

Lemma sphmink_consistent X : X.[1] <> 0 -> sin X.[2] <> 0 -> consistent_at SphericalMinkowski X.
Proof.
  intros Hr Hs. sysunf. set (r := X.[1]) in *. set (s := sin X.[2]) in *.
  assert (R2 : 0 < r * r) by now apply Rsqr_pos_lt.
  assert (N : r * r * s * s <> 0).
  { repeat apply Rmult_integral_contrapositive_currified; assumption. }
  rewrite !gratio_nz by (assumption || lra).
  apply adm_intro; try (allidx; try split; try ring; try (field; split; assumption); field; assumption);
    try (tensor; cbn; lra).
  - apply Rmult_lt_0_compat; [assumption|]. now apply Rabs_pos_lt.
  - tensor. cbn. transitivity (r * r * (r * r) * (Rabs s * Rabs s)); [ring|].
    rewrite <- Rabs_mult, (Rabs_pos_eq (s * s)) by apply Rle_0_sqr. ring.
Qed.

Lemma flrw_consistent a0 dadt X : 0 < flrw_a a0 dadt X.[0] -> consistent_at (FLRW a0 dadt) X.
Proof.
  intros Ha. sysunf. set (a := flrw_a a0 dadt X.[0]) in *.
  assert (A2 : 0 < a * a) by now apply Rmult_lt_0_compat.
  rewrite !gratio_nz by lra.
  apply adm_intro; try (allidx; try split; try ring; field; lra); try (tensor; cbn; lra).
  - cbn. rewrite Rmult_0_l, Rminus_0_r. now apply Rmult_lt_0_compat.
  - repeat apply Rmult_lt_0_compat; assumption.
Qed.

Lemma snake_consistent a k alpha vy X : 0 < alpha -> consistent_at (Snake a k alpha vy) X.
Proof.
  intros Ha. sysunf. set (d := GetDelta a k X.[1]) in *.
  assert (0 <= d * d) by apply Rle_0_sqr.
  apply adm_intro; try (allidx; try split; try ring; field; lra); try (tensor; cbn; lra).
Qed.

Lemma inchworm_consistent a k X : GetDelta a k X.[1] <> 1 -> consistent_at (Inchworm a k) X.
Proof.
  intros Ha. sysunf. set (d := GetDelta a k X.[1]) in *.
  assert (D : d - 1 <> 0) by lra.
  assert (D2 : 0 < (d - 1) ^ 2) by (apply pow2_gt_0; assumption).
  assert (E : d ^ 2 - 2 * d + 1 = (d - 1) ^ 2) by ring. rewrite E.
  apply adm_intro; try (allidx; try split; try ring; field; lra); try (tensor; cbn in *; lra).
  - now apply sqrt_lt_R0.
  - rewrite sqrt_sqrt by lra. tensor. cbn. ring.
Qed.

Lemma sks_rho2_pos a2 r c : 0 <= a2 -> r <> 0 -> 0 < sks_rho2 a2 r c.
Proof.
  intros Ha Hr. unfold sks_rho2.
  assert (0 < r * r) by now apply Rsqr_pos_lt.
  assert (0 <= a2 * (c * c)) by (apply Rmult_le_pos; [assumption|apply Rle_0_sqr]). lra.
Qed.

Lemma sks_consistent a X : X.[1] <> 0 -> sin X.[2] <> 0 -> consistent_at (SphericalKerrSchild a) X.
Proof.
  intros Hr Hs. sysunf.
  set (r := Rabs X.[1]) in *.
  set (s := sin X.[2]) in *.
  assert (Hr0 : 0 < r) by now apply Rabs_pos_lt.
  assert (P : 0 < sks_rho2 (a * a) r (cos X.[2])).
  { apply sks_rho2_pos; [apply Rle_0_sqr|lra]. }
  set (p := sks_rho2 (a * a) r (cos X.[2])) in *.
  assert (S2 : 0 < s * s) by now apply Rsqr_pos_lt.
  assert (PS : 0 < p * (s * s)) by now apply Rmult_lt_0_compat.
  assert (Q : 0 < 2 * r + p) by lra.
  rewrite !gratio_nz by lra.
  assert (Al : 0 < p / (2 * r + p)) by now apply Rdiv_lt_0_compat.
  assert (Br : 0 < 2 * r / p) by (apply Rdiv_lt_0_compat; lra).
  assert (A2 : sqrt (p / (2 * r + p)) * sqrt (p / (2 * r + p)) = p / (2 * r + p)).
  { apply sqrt_sqrt. lra. }
  assert (DP : 0 < p * (2 * r + p) * (s * s)) by (apply Rmult_lt_0_compat; [apply Rmult_lt_0_compat|]; lra).
  assert (PP : 0 < p * p * (s * s)) by (apply Rmult_lt_0_compat; [apply Rmult_lt_0_compat|]; lra).
  rewrite !Rabs_pos_eq by lra.
  apply adm_intro.
  - now apply sqrt_lt_R0.
  - allidx; ring.
  - cbn. lra.
  - cbn. rewrite Rmult_0_l, Rminus_0_r. apply Rmult_lt_0_compat; lra.
  - allidx; ring.
  - rewrite A2. tensor. cbn. field. lra.
  - allidx; field; lra.
  - allidx; ring.
  - allidx; split; field; repeat split; try lra; try assumption.
  - allidx; split; field; repeat split; try lra; try assumption.
  - now apply sqrt_lt_R0.
  - rewrite sqrt_sqrt by lra. tensor. cbn. field. lra.
  - rewrite <- sqrt_mult by lra. f_equal. field. lra.
Qed.

Lemma mono_consistent P X : X.[1] <> 0 -> sin X.[2] <> 0 ->
  0 < mp_alpha P X.[0] (Rabs X.[1]) -> 0 < mp_a P X.[0] (Rabs X.[1]) ->
  consistent_at (MonopoleSph P) X.
Proof.
  intros Hr Hs Hal Ha. sysunf.
  set (r := Rabs X.[1]) in *. set (s := sin X.[2]) in *.
  assert (Hr0 : 0 < r) by now apply Rabs_pos_lt.
  set (al := mp_alpha P X.[0] r) in *. set (a := mp_a P X.[0] r) in *. set (b := mp_beta P X.[0] r).
  assert (S2 : 0 < s * s) by now apply Rsqr_pos_lt.
  assert (R2 : 0 < r * r) by now apply Rmult_lt_0_compat.
  assert (A2 : 0 < a * a) by now apply Rmult_lt_0_compat.
  assert (L2 : 0 < al * al) by now apply Rmult_lt_0_compat.
  rewrite !gratio_nz by lra.
  apply adm_intro; try (allidx; try split; try ring; field; repeat split; (lra || assumption));
    try (tensor; cbn; lra).
  - cbn. rewrite Rmult_0_l, Rminus_0_r. now apply Rmult_lt_0_compat.
  - repeat apply Rmult_lt_0_compat; try assumption. now apply Rabs_pos_lt.
  - tensor. cbn. transitivity (a * a * (r * r) * (r * r) * (Rabs s * Rabs s)); [ring|].
    rewrite <- Rabs_mult, (Rabs_pos_eq (s * s)) by lra. ring.
Qed.
