(** C11 for Boyer-Lindquist coordinates: MetricDerivative does not return the derivative of
    SpacetimeMetric, at any point, for any spin.  What its radial and polar diagonal entries
    are is the derivative of the corresponding component of the inverse metric. *)
From Coq Require Import Reals Arith Lra Lia.
From Flocq Require Import Core.
From Coquelicot Require Import Coquelicot.
From Verif.Model Require Import Num Robust Geometry BoyerLindquist.
From Verif.Spec Require Import Tensor GeomSpec SystemSpec.
From Verif.Proofs Require Import TensorTac GeomBase GeomSystems GeomDeriv BLProofs.
Local Open Scope R_scope.

(** r^2 + a^2 cos^2(theta) *)
Definition kerr_sigma (a : R) (X : point) : R := X.[1] * X.[1] + a * a * (cos X.[2] * cos X.[2]).
(** r^2 - 2 r + a^2 *)
Definition kerr_delta (a : R) (X : point) : R := X.[1] * X.[1] - 2 * X.[1] + a * a.

Lemma kerr_sigma_pos a X : 0 < X.[1] -> 0 < kerr_sigma a X.
Proof. intros H. unfold kerr_sigma. pose proof (Rle_0_sqr (a * cos X.[2])) as K. unfold Rsqr in K. nra. Qed.

Lemma bl_d221 a X : 0 < X.[1] -> BL_MetricDerivative a X 2%nat 2%nat 1%nat = - (2 * X.[1] / kerr_sigma a X ^ 2).
Proof.
  intros H. pose proof (kerr_sigma_pos a X H) as P. unfold BL_MetricDerivative. cbv zeta.
  rewrite (Rabs_pos_eq X.[1]) by lra. fold (kerr_sigma a X).
  change (- gratio (2 * X.[1]) (kerr_sigma a X * kerr_sigma a X) = - (2 * X.[1] / kerr_sigma a X ^ 2)).
  rewrite gratio_nz by nra. field. lra.
Qed.

(** the metric component that belongs to it *)
Lemma bl_g22 a X : X.[1] <> 0 -> BL_SpacetimeMetric a X 2%nat 2%nat = kerr_sigma a X.
Proof.
  intros H. unfold BL_SpacetimeMetric, bl_mu, kerr_sigma. cbv zeta.
  set (r := Rabs X.[1]). assert (Hr : 0 < r) by (apply Rabs_pos_lt; exact H).
  assert (E : r * r = X.[1] * X.[1]).
  { unfold r. rewrite <- Rabs_mult. apply Rabs_pos_eq. apply Rle_0_sqr. }
  cbn [rows4 row4]. unfold rows4, row4. rewrite gratio_nz by nra. rewrite <- E. field. lra.
Qed.

Theorem C11_boyer_lindquist_refuted : forall a X, 0 < X.[1] ->
  is_partial (fun Y => BL_SpacetimeMetric a Y 2%nat 2%nat) 1 X (2 * X.[1]) /\
  BL_MetricDerivative a X 2%nat 2%nat 1%nat = - (2 * X.[1] / kerr_sigma a X ^ 2) /\
  ~ is_metric_derivative (BL_SpacetimeMetric a) X (BL_MetricDerivative a X).
Proof.
  intros a X H.
  assert (D : is_partial (fun Y => BL_SpacetimeMetric a Y 2%nat 2%nat) 1 X (2 * X.[1])).
  { unfold is_partial. apply (is_derive_ext_loc (fun h => kerr_sigma a (moved X 1 h))).
    - exists (mkposreal _ H). intros y Hy. symmetry. apply bl_g22.
      unfold moved. change (Nat.eqb 1 1) with true. cbv iota.
      unfold ball, AbsRing_ball, abs, minus, plus, opp in Hy. cbn in Hy.
      apply Rabs_lt_between in Hy. cbn in Hy. lra.
    - unfold kerr_sigma, moved. change (Nat.eqb 1 1) with true. change (Nat.eqb 2 1) with false. cbv iota.
      auto_derive; [exact I|]. ring. }
  split; [exact D|]. split; [exact (bl_d221 a X H)|].
  intros K. specialize (K 2%nat 2%nat 1%nat ltac:(lia) ltac:(lia) ltac:(lia)). rewrite (bl_d221 a X H) in K.
  pose proof (is_derive_unique _ _ _ K) as E1. pose proof (is_derive_unique _ _ _ D) as E2.
  assert (E3 : 2 * X.[1] = - (2 * X.[1] / kerr_sigma a X ^ 2)) by (exact (eq_trans (eq_sym E2) E1)).
  pose proof (kerr_sigma_pos a X H) as P.
  assert (0 < 2 * X.[1] / kerr_sigma a X ^ 2) by (apply Rdiv_lt_0_compat; [lra|nra]). lra.
Qed.
Print Assumptions C11_boyer_lindquist_refuted.

(** g^11 = delta / sigma and g^22 = 1 / sigma in Kerr's spacetime: the code differentiates these *)
Theorem C11_boyer_lindquist_inverse : forall a X, 0 < X.[1] ->
  is_partial (fun Y => kerr_delta a Y / kerr_sigma a Y) 1 X (BL_MetricDerivative a X 1%nat 1%nat 1%nat) /\
  is_partial (fun Y => / kerr_sigma a Y) 1 X (BL_MetricDerivative a X 2%nat 2%nat 1%nat) /\
  is_partial (fun Y => kerr_delta a Y / kerr_sigma a Y) 2 X (BL_MetricDerivative a X 1%nat 1%nat 2%nat) /\
  is_partial (fun Y => / kerr_sigma a Y) 2 X (BL_MetricDerivative a X 2%nat 2%nat 2%nat).
Proof.
  intros a X H. pose proof (kerr_sigma_pos a X H) as P.
  assert (E111 : BL_MetricDerivative a X 1%nat 1%nat 1%nat =
     2 * (X.[1] * (X.[1] - a * a) + a * a * (X.[1] - 1) * (cos X.[2] * cos X.[2])) / kerr_sigma a X ^ 2).
  { unfold BL_MetricDerivative. cbv zeta. rewrite (Rabs_pos_eq X.[1]) by lra. fold (kerr_sigma a X).
    unfold rows4, row4. rewrite gratio_nz by nra. field. lra. }
  assert (E112 : BL_MetricDerivative a X 1%nat 1%nat 2%nat = a * a * kerr_delta a X * sin (2 * X.[2]) / kerr_sigma a X ^ 2).
  { unfold BL_MetricDerivative. cbv zeta. rewrite (Rabs_pos_eq X.[1]) by lra. fold (kerr_sigma a X).
    unfold rows4, row4. rewrite gratio_nz by nra. unfold kerr_delta. field. lra. }
  assert (E222 : BL_MetricDerivative a X 2%nat 2%nat 2%nat = a * a * sin (2 * X.[2]) / kerr_sigma a X ^ 2).
  { unfold BL_MetricDerivative. cbv zeta. rewrite (Rabs_pos_eq X.[1]) by lra. fold (kerr_sigma a X).
    unfold rows4, row4. rewrite gratio_nz by nra. field. lra. }
  rewrite E111, E112, E222, (bl_d221 a X H). rewrite sin_2a.
  assert (SC : sin X.[2] * sin X.[2] = 1 - cos X.[2] * cos X.[2]) by apply sc1.
  unfold is_partial, kerr_delta, kerr_sigma, moved in *.
  change (Nat.eqb 1 1) with true. change (Nat.eqb 2 1) with false. change (Nat.eqb 1 2) with false.
  change (Nat.eqb 2 2) with true. cbv iota.
  split; [|split; [|split]]; (auto_derive; [repeat split; lra|]); field; lra.
Qed.
Print Assumptions C11_boyer_lindquist_inverse.
Example C11_boyer_lindquist_nonvacuous : 0 < (row4 0 4 1 0).[1] /\ kerr_sigma 0 (row4 0 4 1 0) = 16 /\
  BL_MetricDerivative 0 (row4 0 4 1 0) 2%nat 2%nat 1%nat = - / 32.
Proof.
  assert (H : 0 < (row4 0 4 1 0).[1]) by (cbn; lra).
  assert (S : kerr_sigma 0 (row4 0 4 1 0) = 16) by (unfold kerr_sigma; cbn; ring).
  split; [exact H|]. split; [exact S|]. rewrite (bl_d221 0 _ H), S. cbn. field.
Qed.
