From Coq Require Import Reals Arith Lra Lia.
From Flocq Require Import Core.
From Verif.Model Require Import Num Robust Geometry BoyerLindquist.
From Verif.Spec Require Import Tensor GeomSpec SystemSpec.
From Verif.Proofs Require Import TensorTac GeomBase GeomSystems GeomDeriv.
Local Open Scope R_scope.

(** the Boyer-Lindquist four-metric is the Kerr-Schild one pulled back along bl_to_ks *)
Lemma bl_pullback a X : X.[1] <> 0 ->
  X.[1] * X.[1] - 2 * Rabs X.[1] + a * a <> 0 ->
  forall mu nu, (mu < 4)%nat -> (nu < 4)%nat ->
  BL_SpacetimeMetric a X mu nu =
  sum4 (fun l => sum4 (fun k => SpacetimeMetric (SphericalKerrSchild a) X l k
     * bl_to_ks_trans a (Rabs X.[1]) l mu * bl_to_ks_trans a (Rabs X.[1]) k nu)).
Proof.
  intros Hr HD mu nu Hm Hn. unfold BL_SpacetimeMetric, bl_to_ks_trans. sysunf.
  set (r := Rabs X.[1]) in *. set (s := sin X.[2]) in *. set (c := cos X.[2]) in *.
  assert (Hr0 : 0 < r) by now apply Rabs_pos_lt.
  assert (HD' : r * r - 2 * r + a * a <> 0).
  { unfold r in *. replace (Rabs X.[1] * Rabs X.[1]) with (X.[1] * X.[1]); [assumption|].
    rewrite <- Rabs_mult. symmetry. apply Rabs_pos_eq. apply Rle_0_sqr. }
  assert (SC : s * s = 1 - c * c) by apply sc1.
  assert (P : 0 < sks_rho2 (a * a) r c) by (apply sks_rho2_pos; [apply Rle_0_sqr|lra]).
  assert (Pm : bl_mu (a * a) r c = sks_rho2 (a * a) r c / (r * r)).
  { unfold bl_mu, sks_rho2. rewrite gratio_nz by (apply Rgt_not_eq, Rmult_lt_0_compat; lra). field. lra. }
  assert (PD : bl_DD (a * a) r = (r * r - 2 * r + a * a) / (r * r)).
  { unfold bl_DD. rewrite !gratio_nz; try lra; [field; lra|]. apply Rgt_not_eq, Rmult_lt_0_compat; lra. }
  assert (R2 : 0 < r * r) by (apply Rmult_lt_0_compat; lra).
  assert (R3 : 0 < r * r * r) by (apply Rmult_lt_0_compat; lra).
  rewrite Pm, PD.
  assert (Q1 : 0 < sks_rho2 (a * a) r c / (r * r)) by (apply Rdiv_lt_0_compat; lra).
  assert (0 < r * (sks_rho2 (a * a) r c / (r * r))) by (apply Rmult_lt_0_compat; lra).
  assert (0 < r * r * r * (sks_rho2 (a * a) r c / (r * r))) by (apply Rmult_lt_0_compat; lra).
  rewrite !gratio_nz by lra.
  unfold sks_rho2 in *.
  assert (HP : r * r + a * a * c * c <> 0) by lra.
  clear Pm PD Q1 H H0. clearbody r s c.
  idx; tensor; cbn; field_simplify_eq; try (repeat split; lra); try ring [SC].
Qed.

(** with zero spin at r = 4 on the equator the lapse must be sqrt(1/2) *)
Lemma bl_lapse_wrong : forall X, X.[1] = 4 -> BL_Lapse 0 X * BL_Lapse 0 X = 2.
Proof.
  intros X H. unfold BL_Lapse. cbv zeta. rewrite H, (Rabs_pos_eq 4) by lra.
  assert (M : bl_mu (0 * 0) 4 (cos X.[2]) = 1).
  { unfold bl_mu. rewrite gratio_nz by lra. field. }
  assert (D : bl_DD (0 * 0) 4 = / 2).
  { unfold bl_DD. rewrite !gratio_nz by lra. field. }
  rewrite M, D, gratio_nz by lra. rewrite sqrt_sqrt; lra.
Qed.

Lemma bl_metric_wrong : forall X, X.[1] = 4 -> BL_Metric 0 X 0%nat 0%nat = / 2 /\
  BL_SpacetimeMetric 0 X 1%nat 1%nat = 2.
Proof.
  intros X H. unfold BL_Metric, BL_SpacetimeMetric. cbv zeta. rewrite H, (Rabs_pos_eq 4) by lra.
  assert (M : bl_mu (0 * 0) 4 (cos X.[2]) = 1).
  { unfold bl_mu. rewrite gratio_nz by lra. field. }
  assert (D : bl_DD (0 * 0) 4 = / 2).
  { unfold bl_DD. rewrite !gratio_nz by lra. field. }
  rewrite M, D. cbn. rewrite gratio_nz by lra. split; field.
Qed.

Lemma bl_inverse_wrong : forall X, X.[1] = 4 ->
  ~ inverse4 (BL_SpacetimeMetric 0 X) (BL_SpacetimeMetricInverse 0 X).
Proof.
  intros X H I. destruct (I 1 1)%nat as [I1 _]; try lia.
  revert I1. unfold mul4, sum4, BL_SpacetimeMetricInverse, BL_SpacetimeMetric. cbv zeta. rewrite H, (Rabs_pos_eq 4) by lra.
  assert (M : bl_mu (0 * 0) 4 (cos X.[2]) = 1).
  { unfold bl_mu. rewrite gratio_nz by lra. field. }
  assert (D : bl_DD (0 * 0) 4 = / 2).
  { unfold bl_DD. rewrite !gratio_nz by lra. field. }
  rewrite M, D. cbn. rewrite (gratio_nz 1 (/ 2)) by lra. unfold delta; cbn. lra.
Qed.

(** bl_to_ks preserves the norm of four-velocities *)
Lemma bl_to_ks_norm a X u : X.[1] <> 0 -> X.[1] * X.[1] - 2 * Rabs X.[1] + a * a <> 0 ->
  dot4 (SpacetimeMetric (SphericalKerrSchild a) X) (bl_to_ks a (Rabs X.[1]) u) (bl_to_ks a (Rabs X.[1]) u)
  = dot4 (BL_SpacetimeMetric a X) u u.
Proof.
  intros Hr HD.
  pose proof (bl_pullback a X Hr HD) as H.
  assert (E : dot4 (BL_SpacetimeMetric a X) u u =
    sum4 (fun i => sum4 (fun j => sum4 (fun l => sum4 (fun k => SpacetimeMetric (SphericalKerrSchild a) X l k
     * bl_to_ks_trans a (Rabs X.[1]) l i * bl_to_ks_trans a (Rabs X.[1]) k j)) * u i * u j))).
  { unfold dot4. unfold sum4 at 1 2 3 4 5. rewrite !H by lia. reflexivity. }
  rewrite E.
  set (T := bl_to_ks_trans a (Rabs X.[1])). unfold bl_to_ks. fold T.
  set (G := SpacetimeMetric _ X). clearbody T G. unfold dot4, sum4. ring.
Qed.
