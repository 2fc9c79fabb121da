(** C11 for Boyer-Lindquist coordinates, the other six entries of MetricDerivative.  Four of
    them are the derivatives of the inverse metric of Kerr's spacetime; the polar derivatives
    of the time components are too small by the factor r^2 - 2 r + a^2. *)
From Coq Require Import Reals Arith Lra Lia.
From Flocq Require Import Core.
From Coquelicot Require Import Coquelicot.
From Verif.Model Require Import Num Robust Geometry BoyerLindquist.
From Verif.Spec Require Import Tensor GeomSpec SystemSpec.
From Verif.Proofs Require Import TensorTac GeomBase GeomSystems GeomDeriv BLProofs.
From Verif.Properties Require Import P_BoyerLindquist.
Local Open Scope R_scope.

(** the components g^tt, g^t phi, g^phi phi of Kerr's inverse metric in Boyer-Lindquist
    coordinates, from the literature *)
Definition kerr_inv_tt (a : R) (X : point) : R :=
  - (((X.[1] * X.[1] + a * a) * (X.[1] * X.[1] + a * a) - a * a * kerr_delta a X * (sin X.[2] * sin X.[2]))
     / (kerr_delta a X * kerr_sigma a X)).
Definition kerr_inv_tp (a : R) (X : point) : R := - (2 * a * X.[1] / (kerr_delta a X * kerr_sigma a X)).
Definition kerr_inv_pp (a : R) (X : point) : R :=
  (kerr_delta a X - a * a * (sin X.[2] * sin X.[2])) / (kerr_delta a X * kerr_sigma a X * (sin X.[2] * sin X.[2])).

Lemma delta_code a X : a * a + X.[1] * (X.[1] - 2) = kerr_delta a X.
Proof. unfold kerr_delta. ring. Qed.

Section Entries.
Variables (a : R) (X : point).
Hypothesis H1 : 0 < X.[1].
Hypothesis HD : kerr_delta a X <> 0.
Let r := X.[1].
Let c := cos X.[2].
Let s := sin X.[2].
Let Dl := kerr_delta a X.
Let Sg := kerr_sigma a X.

Lemma ent_nz : Dl * Sg * (Dl * Sg) <> 0.
Proof.
  pose proof (kerr_sigma_pos a X H1). unfold Dl, Sg. repeat apply Rmult_integral_contrapositive_currified; try exact HD; lra.
Qed.

Ltac entry := unfold BL_MetricDerivative; cbv zeta; rewrite (Rabs_pos_eq X.[1]) by lra;
  fold (kerr_sigma a X); rewrite ?delta_code; unfold rows4, row4.

Lemma e031 : BL_MetricDerivative a X 0%nat 3%nat 1%nat =
  2 * a * ((r * r * (a * a + r * (3 * r - 4)) + a * a * (r - a) * (r + a) * (c * c)) / (Dl * Sg * (Dl * Sg))).
Proof. entry. rewrite gratio_nz by exact ent_nz. reflexivity. Qed.
Lemma e002 : BL_MetricDerivative a X 0%nat 0%nat 2%nat = - (4 * (a * a) * r * (a * a + r * r) * c * s / (Dl * Sg * (Dl * Sg))).
Proof. entry. rewrite gratio_nz by exact ent_nz. reflexivity. Qed.
Lemma e032 : BL_MetricDerivative a X 0%nat 3%nat 2%nat = - (4 * (a * a * a) * r * c * s / (Dl * Sg * (Dl * Sg))).
Proof. entry. rewrite gratio_nz by exact ent_nz. reflexivity. Qed.
Lemma e001 : BL_MetricDerivative a X 0%nat 0%nat 1%nat =
  (- (a * a * a * a * (a * a)) + 2 * (r * r * r * (r * r * r)) + a * a * (r * r * r) * (3 * r - 4)
   + a * a * (- (a * a * a * a) - 2 * (a * a) * (r * r) + (4 - r) * (r * r * r)) * cos (2 * X.[2])) / (Dl * Sg * (Dl * Sg)).
Proof. entry. rewrite gratio_nz by exact ent_nz. reflexivity. Qed.
Lemma e331 : s <> 0 -> BL_MetricDerivative a X 3%nat 3%nat 1%nat =
  (2 * (r * r) * (a * a - (r - 2) * (r - 2) * r) - 2 * (a * a) * (a * a + r * r * (2 * r - 3)) * (c * c)
   - 2 * (a * a * a * a) * (r - 1) * (c * c * (c * c))) / (Dl * Sg * (Dl * Sg) * (s * s)).
Proof.
  intros hs. entry. rewrite gratio_nz; [reflexivity|].
  apply Rmult_integral_contrapositive_currified; [exact ent_nz|]. apply Rmult_integral_contrapositive_currified; exact hs.
Qed.

Hypothesis hs : s <> 0.
Lemma sc_eq : s * s = 1 - c * c.
Proof. apply sc1. Qed.

Ltac pose_all := pose proof (kerr_sigma_pos a X H1) as P; pose proof HD as HD'; pose proof sc_eq as SC; pose proof hs as hs'.
Ltac start := unfold is_partial, kerr_inv_tt, kerr_inv_tp, kerr_inv_pp, r, c, s, Dl, Sg, kerr_delta, kerr_sigma, moved in *;
  change (Nat.eqb 1 1) with true; change (Nat.eqb 2 1) with false; change (Nat.eqb 1 2) with false;
  change (Nat.eqb 2 2) with true; cbv iota.
Ltac nz := repeat match goal with |- _ * _ <> 0 => apply Rmult_integral_contrapositive_currified end; try assumption; try lra.

Lemma p031 : is_partial (kerr_inv_tp a) 1 X (BL_MetricDerivative a X 0%nat 3%nat 1%nat).
Proof. pose_all. rewrite e031. start. auto_derive; [repeat split; nz|]. field. repeat split; nz. Qed.
Lemma p001 : is_partial (kerr_inv_tt a) 1 X (BL_MetricDerivative a X 0%nat 0%nat 1%nat).
Proof. pose_all. rewrite e001, cos_2a. start. auto_derive; [repeat split; nz|]. field [SC]. repeat split; nz. Qed.
Lemma p331 : is_partial (kerr_inv_pp a) 1 X (BL_MetricDerivative a X 3%nat 3%nat 1%nat).
Proof. pose_all. rewrite (e331 hs). start. auto_derive; [repeat split; nz|]. field [SC]. repeat split; nz. Qed.
Lemma p002 : is_partial (kerr_inv_tt a) 2 X (Dl * BL_MetricDerivative a X 0%nat 0%nat 2%nat).
Proof. pose_all. rewrite e002. start. auto_derive; [repeat split; nz|]. field [SC]. repeat split; nz. Qed.
Lemma p032 : is_partial (kerr_inv_tp a) 2 X (Dl * BL_MetricDerivative a X 0%nat 3%nat 2%nat).
Proof. pose_all. rewrite e032. start. auto_derive; [repeat split; nz|]. field [SC]. repeat split; nz. Qed.
Lemma e332 : BL_MetricDerivative a X 3%nat 3%nat 2%nat =
  - (c * (3 * (a * a * a * a) + 8 * (a * a) * (r * r) + 8 * (r - 2) * (r * r * r)
     + 4 * (a * a) * (a * a + 2 * (r - 2) * r) * (2 * (c * c) - 1)
     + a * a * a * a * (2 * ((2 * (c * c) - 1) * (2 * (c * c) - 1)) - 1))) / (4 * (Sg * Sg) * Dl * (s * s * s)).
Proof.
  pose_all. entry. replace (4 * X.[2]) with (2 * (2 * X.[2])) by ring.
  rewrite (cos_2a_cos (2 * X.[2])), (cos_2a_cos X.[2]). fold c s. fold r.
  replace (a * a + 2 * (r * r) + a * a * (2 * c * c - 1)) with (2 * Sg) by (unfold Sg, kerr_sigma; fold c; fold r; ring).
  replace (a * a + (r - 2) * r) with Dl by (unfold Dl, kerr_delta; fold r; ring).
  assert (0 < a * a + r * r) by (unfold r; nra).
  assert (Sg <> 0) by (unfold Sg; lra). assert (Dl <> 0) by exact HD.
  rewrite gratio_nz by (repeat apply Rmult_integral_contrapositive_currified; try assumption; try lra).
  field. repeat split; try assumption; lra.
Qed.
Lemma p332 : is_partial (kerr_inv_pp a) 2 X (BL_MetricDerivative a X 3%nat 3%nat 2%nat).
Proof. pose_all. rewrite e332. start. auto_derive; [repeat split; nz|]. field [SC]. repeat split; nz. Qed.
End Entries.

(** the specification checked: the block (tt, t phi, phi phi) is the inverse of the block of
    Kerr's metric, g_tt = - (1 - 2r/Sigma), g_t phi = - 2 a r sin^2/Sigma,
    g_phi phi = (r^2 + a^2 + 2 a^2 r sin^2/Sigma) sin^2 *)
Theorem C11_kerr_inverse_spec : forall a X, 0 < X.[1] -> kerr_delta a X <> 0 -> sin X.[2] <> 0 ->
  let r := X.[1] in let s2 := sin X.[2] * sin X.[2] in let Sg := kerr_sigma a X in
  let gtt := - (1 - 2 * r / Sg) in let gtp := - (2 * a * r * s2 / Sg) in
  let gpp := (r * r + a * a + 2 * (a * a) * r * s2 / Sg) * s2 in
  kerr_inv_tt a X * gtt + kerr_inv_tp a X * gtp = 1 /\
  kerr_inv_tt a X * gtp + kerr_inv_tp a X * gpp = 0 /\
  kerr_inv_tp a X * gtt + kerr_inv_pp a X * gtp = 0 /\
  kerr_inv_tp a X * gtp + kerr_inv_pp a X * gpp = 1.
Proof.
  intros a X H HD hs. cbv zeta. pose proof (kerr_sigma_pos a X H) as P. pose proof (sc1 X.[2]) as SC.
  unfold kerr_inv_tt, kerr_inv_tp, kerr_inv_pp. revert HD P. unfold kerr_delta, kerr_sigma. intros HD P.
  repeat split; field [SC]; repeat split; try exact hs; try exact HD; lra.
Qed.
Print Assumptions C11_kerr_inverse_spec.

(** What MetricDerivative returns away from the horizon and the axis: the derivatives of the
    inverse metric, except the two polar derivatives of g^tt and g^t phi, which are divided
    by delta = r^2 - 2 r + a^2. *)
Theorem C11_boyer_lindquist_inverse_time : forall a X, 0 < X.[1] -> kerr_delta a X <> 0 -> sin X.[2] <> 0 ->
  is_partial (kerr_inv_tt a) 1 X (BL_MetricDerivative a X 0%nat 0%nat 1%nat) /\
  is_partial (kerr_inv_tp a) 1 X (BL_MetricDerivative a X 0%nat 3%nat 1%nat) /\
  is_partial (kerr_inv_pp a) 1 X (BL_MetricDerivative a X 3%nat 3%nat 1%nat) /\
  is_partial (kerr_inv_pp a) 2 X (BL_MetricDerivative a X 3%nat 3%nat 2%nat) /\
  is_partial (kerr_inv_tt a) 2 X (kerr_delta a X * BL_MetricDerivative a X 0%nat 0%nat 2%nat) /\
  is_partial (kerr_inv_tp a) 2 X (kerr_delta a X * BL_MetricDerivative a X 0%nat 3%nat 2%nat).
Proof.
  intros a X H HD hs. split; [|split; [|split; [|split; [|split]]]].
  - exact (p001 a X H HD hs).
  - exact (p031 a X H HD hs).
  - exact (p331 a X H HD hs).
  - exact (p332 a X H HD hs).
  - exact (p002 a X H HD hs).
  - exact (p032 a X H HD hs).
Qed.
Print Assumptions C11_boyer_lindquist_inverse_time.

(** so these two entries are not derivatives of the inverse metric either, off the equator,
    for a spinning hole, wherever delta is not one *)
Theorem C11_boyer_lindquist_time_refuted : forall a X, 0 < X.[1] -> kerr_delta a X <> 0 -> kerr_delta a X <> 1 ->
  sin X.[2] <> 0 -> cos X.[2] <> 0 -> a <> 0 ->
  ~ is_partial (kerr_inv_tt a) 2 X (BL_MetricDerivative a X 0%nat 0%nat 2%nat) /\
  ~ is_partial (kerr_inv_tp a) 2 X (BL_MetricDerivative a X 0%nat 3%nat 2%nat).
Proof.
  intros a X H HD D1 hs hc ha. pose proof (ent_nz a X H HD) as NZ.
  assert (E : forall d d1, d <> 0 -> d1 = kerr_delta a X * d -> d1 <> d).
  { intros d d1 Hd -> K. apply D1. apply (Rmult_eq_reg_r d); [lra|exact Hd]. }
  assert (rn : X.[1] <> 0) by lra. assert (a2r : a * a + X.[1] * X.[1] <> 0) by nra.
  split; intros K.
  - pose proof (is_derive_unique _ _ _ K) as E1. pose proof (is_derive_unique _ _ _ (p002 a X H HD hs)) as E2.
    refine (E _ _ _ eq_refl (eq_trans (eq_sym E2) E1)).
    rewrite (e002 a X H HD). apply Ropp_neq_0_compat. unfold Rdiv.
    repeat apply Rmult_integral_contrapositive_currified; try assumption; try lra. apply Rinv_neq_0_compat. exact NZ.
  - pose proof (is_derive_unique _ _ _ K) as E1. pose proof (is_derive_unique _ _ _ (p032 a X H HD hs)) as E2.
    refine (E _ _ _ eq_refl (eq_trans (eq_sym E2) E1)).
    rewrite (e032 a X H HD). apply Ropp_neq_0_compat. unfold Rdiv.
    repeat apply Rmult_integral_contrapositive_currified; try assumption; try lra. apply Rinv_neq_0_compat. exact NZ.
Qed.
Print Assumptions C11_boyer_lindquist_time_refuted.

(** r = 4, theta = 1, a = 1/2: delta = 33/4 *)
Example C11_boyer_lindquist_time_nonvacuous :
  let X := row4 0 4 1 0 in
  0 < X.[1] /\ kerr_delta (/ 2) X = 33 / 4 /\ sin X.[2] <> 0 /\ cos X.[2] <> 0.
Proof.
  intros X. assert (PI2 : 3 < PI) by (pose proof PI_RGT_0; pose proof PI2_3_2; unfold PI2 in *; lra).
  split; [cbn; lra|]. split; [unfold kerr_delta; cbn; field|]. split.
  - cbn. assert (0 < sin 1) by (apply sin_gt_0; lra). lra.
  - cbn. assert (0 < cos 1) by (apply cos_gt_0; lra). lra.
Qed.
