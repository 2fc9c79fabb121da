(** C10-C13, C36, C37: coordinate systems. *)
From Coq Require Import Reals Arith Lra Lia.
From Flocq Require Import Core.
From Coquelicot Require Import Coquelicot.
From Verif.Model Require Import Num Robust LinearAlgebra Geometry BoyerLindquist Modified.
From Verif.Spec Require Import Tensor GeomSpec SystemSpec.
From Verif.Proofs Require Import TensorTac GeomBase GeomSystems GeomDeriv BLProofs ModifiedProofs FDProofs TransformProofs.
Local Open Scope R_scope.

Definition pt (t x y z : R) : vec := row4 t x y z.

(** * C10: lapse, shift, metric, inverses and volume elements fit together *)
Theorem C10_minkowski : forall X, consistent_at Minkowski X.
Proof. exact minkowski_consistent. Qed.
Print Assumptions C10_minkowski.
Theorem C10_boosted_minkowski : forall vx vy vz X, consistent_at (BoostedMinkowski vx vy vz) X.
Proof. exact boosted_consistent. Qed.
Print Assumptions C10_boosted_minkowski.
Theorem C10_spherical_minkowski : forall X, X.[1] <> 0 -> sin X.[2] <> 0 -> consistent_at SphericalMinkowski X.
Proof. exact sphmink_consistent. Qed.
Print Assumptions C10_spherical_minkowski.
Theorem C10_flrw : forall a0 dadt X, 0 < a0 + dadt * X.[0] -> consistent_at (FLRW a0 dadt) X.
Proof. exact flrw_consistent. Qed.
Print Assumptions C10_flrw.
Theorem C10_snake : forall a k alpha vy X, 0 < alpha -> consistent_at (Snake a k alpha vy) X.
Proof. exact snake_consistent. Qed.
Print Assumptions C10_snake.
Theorem C10_inchworm : forall a k X, a * k * cos (k * X.[1]) <> 1 -> consistent_at (Inchworm a k) X.
Proof. exact inchworm_consistent. Qed.
Print Assumptions C10_inchworm.
Theorem C10_spherical_kerr_schild : forall a X, X.[1] <> 0 -> sin X.[2] <> 0 -> consistent_at (SphericalKerrSchild a) X.
Proof. exact sks_consistent. Qed.
Print Assumptions C10_spherical_kerr_schild.
Theorem C10_monopole : forall P X, X.[1] <> 0 -> sin X.[2] <> 0 ->
  0 < mp_alpha P X.[0] (Rabs X.[1]) -> 0 < mp_a P X.[0] (Rabs X.[1]) -> consistent_at (MonopoleSph P) X.
Proof. exact mono_consistent. Qed.
Print Assumptions C10_monopole.

Example C10_nonvacuous :
  consistent_at SphericalMinkowski (pt 0 4 (PI / 2) 0) /\
  consistent_at (SphericalKerrSchild (9 / 10)) (pt 0 4 (PI / 2) 1) /\
  consistent_at (FLRW 1 1) (pt 3 0 0 0) /\
  consistent_at (Inchworm (1 / 2) 1) (pt 0 0 0 0).
Proof.
  split; [|split; [|split]].
  - apply C10_spherical_minkowski; cbn; [lra|rewrite sin_PI2; lra].
  - apply C10_spherical_kerr_schild; cbn; [lra|rewrite sin_PI2; lra].
  - apply C10_flrw; cbn; lra.
  - apply C10_inchworm; cbn. rewrite Rmult_0_r, cos_0. lra.
Qed.

(** Boyer-Lindquist: the four-metric returned is the Kerr metric (C36), but the lapse,
    the three-metric and the inverse are not the ones that belong to it.  At a = 0, r = 4
    the lapse of the Schwarzschild metric is sqrt(1 - 2/r), its square 1/2. *)
Theorem C10_boyer_lindquist_refuted : forall X, X.[1] = 4 ->
  BL_SpacetimeMetric 0 X 0%nat 0%nat = - (1 - 2 / 4) /\
  BL_Lapse 0 X * BL_Lapse 0 X <> 1 - 2 / 4 /\
  BL_Metric 0 X 0%nat 0%nat <> BL_SpacetimeMetric 0 X 1%nat 1%nat /\
  ~ inverse4 (BL_SpacetimeMetric 0 X) (BL_SpacetimeMetricInverse 0 X).
Proof.
  intros X H. split; [|split; [|split]].
  - unfold BL_SpacetimeMetric. cbv zeta. rewrite H, (Rabs_pos_eq 4) by lra. cbn.
    assert (M : bl_mu (0 * 0) 4 (cos (X 2%nat)) = 1).
    { unfold bl_mu. rewrite gratio_nz by lra. field. }
    rewrite M, gratio_nz by lra. field.
  - rewrite bl_lapse_wrong by assumption. lra.
  - destruct (bl_metric_wrong X H) as [-> ->]. lra.
  - now apply bl_inverse_wrong.
Qed.
Print Assumptions C10_boyer_lindquist_refuted.

(** * C11: MetricDerivative and GradLnAlpha are true derivatives *)
Theorem C11_minkowski : forall X, derivatives_at Minkowski X.
Proof. exact minkowski_deriv. Qed.
Print Assumptions C11_minkowski.
Theorem C11_boosted_minkowski : forall vx vy vz X, derivatives_at (BoostedMinkowski vx vy vz) X.
Proof. exact boosted_deriv. Qed.
Print Assumptions C11_boosted_minkowski.
Theorem C11_spherical_minkowski : forall X, 0 <= X.[1] -> derivatives_at SphericalMinkowski X.
Proof. exact sphmink_deriv. Qed.
Print Assumptions C11_spherical_minkowski.
(** at negative X1 (ghost zones across the centre) the sign is wrong *)
Theorem C11_spherical_minkowski_negative_refuted : forall X, X.[1] < 0 -> ~ derivatives_at SphericalMinkowski X.
Proof. exact sphmink_deriv_neg. Qed.
Print Assumptions C11_spherical_minkowski_negative_refuted.
Theorem C11_flrw : forall a0 dadt X, derivatives_at (FLRW a0 dadt) X.
Proof. exact flrw_deriv. Qed.
Print Assumptions C11_flrw.
Theorem C11_snake : forall a k alpha vy X, derivatives_at (Snake a k alpha vy) X.
Proof. exact snake_deriv. Qed.
Print Assumptions C11_snake.
Theorem C11_inchworm : forall a k X, derivatives_at (Inchworm a k) X.
Proof. exact inchworm_deriv. Qed.
Print Assumptions C11_inchworm.
Theorem C11_spherical_kerr_schild : forall a X, 0 < X.[1] -> derivatives_at (SphericalKerrSchild a) X.
Proof. exact sks_deriv. Qed.
Print Assumptions C11_spherical_kerr_schild.
Theorem C11_monopole : forall P X, 0 < X.[1] -> (forall r, 0 < r -> 0 < mp_alpha P X.[0] r) ->
  (forall t, 0 < mp_alpha P t X.[1]) ->
  is_derive (fun u => mp_alpha P u X.[1]) X.[0] (mp_dalphadt P X.[0] X.[1]) /\
  is_derive (fun u => mp_beta P u X.[1]) X.[0] (mp_dbetadt P X.[0] X.[1]) /\
  is_derive (fun u => mp_a P u X.[1]) X.[0] (mp_dadt P X.[0] X.[1]) /\
  is_derive (fun u => mp_alpha P X.[0] u) X.[1] (mp_dalphadr P X.[0] X.[1]) /\
  is_derive (fun u => mp_beta P X.[0] u) X.[1] (mp_dbetadr P X.[0] X.[1]) /\
  is_derive (fun u => mp_a P X.[0] u) X.[1] (mp_dadr P X.[0] X.[1]) ->
  derivatives_at (MonopoleSph P) X.
Proof. exact mono_deriv. Qed.
Print Assumptions C11_monopole.

(** a time-dependent profile: alpha = 1 + t^2 r^2, beta = t r, a = 1 + r^2 *)
Definition wprof : MonopoleProfiles := {|
  mp_alpha := fun t r => 1 + t * t * (r * r);
  mp_beta := fun t r => t * r;
  mp_a := fun t r => 1 + r * r;
  mp_dadr := fun t r => 2 * r;
  mp_dalphadr := fun t r => t * t * (2 * r);
  mp_dbetadr := fun t r => t;
  mp_dadt := fun t r => 0;
  mp_dalphadt := fun t r => 2 * t * (r * r);
  mp_dbetadt := fun t r => r
|}.
Lemma wprof_pos t r : 0 < mp_alpha wprof t r.
Proof.
  cbn. assert (0 <= t * t) by apply Rle_0_sqr. assert (0 <= r * r) by apply Rle_0_sqr.
  assert (0 <= t * t * (r * r)) by now apply Rmult_le_pos. lra.
Qed.
Lemma wprof_deriv X : 0 < X.[1] -> derivatives_at (MonopoleSph wprof) X.
Proof.
  intros H. apply C11_monopole; [assumption|intros; apply wprof_pos|intros; apply wprof_pos|].
  cbn. split; [|split; [|split; [|split; [|split]]]]; auto_derive; trivial; ring.
Qed.
Example C11_nonvacuous :
  derivatives_at (SphericalKerrSchild (9 / 10)) (pt 0 4 1 1) /\
  derivatives_at (MonopoleSph wprof) (pt 1 2 1 0) /\
  MetricDerivative (MonopoleSph wprof) (pt 1 2 1 0) 0%nat 0%nat 0%nat <> 0.
Proof.
  split; [|split].
  - apply C11_spherical_kerr_schild. cbn. lra.
  - apply wprof_deriv. cbn. lra.
  - cbn. rewrite (Rabs_pos_eq 2) by lra. lra.
Qed.

(** * C12: connection coefficients *)
Theorem C12_minkowski : forall X, connection_at Minkowski X.
Proof. exact minkowski_conn. Qed.
Print Assumptions C12_minkowski.
Theorem C12_boosted_minkowski : forall vx vy vz X, connection_at (BoostedMinkowski vx vy vz) X.
Proof. exact boosted_conn. Qed.
Print Assumptions C12_boosted_minkowski.
Theorem C12_spherical_minkowski : forall X, 0 <= X.[1] -> connection_at SphericalMinkowski X.
Proof. exact sphmink_conn. Qed.
Print Assumptions C12_spherical_minkowski.
Theorem C12_flrw : forall a0 dadt X, connection_at (FLRW a0 dadt) X.
Proof. exact flrw_conn. Qed.
Print Assumptions C12_flrw.
Theorem C12_snake : forall a k alpha vy X, connection_at (Snake a k alpha vy) X.
Proof. exact snake_conn. Qed.
Print Assumptions C12_snake.
Theorem C12_inchworm : forall a k X, connection_at (Inchworm a k) X.
Proof. exact inchworm_conn. Qed.
Print Assumptions C12_inchworm.
Theorem C12_spherical_kerr_schild : forall a X, 0 < X.[1] -> connection_at (SphericalKerrSchild a) X.
Proof. exact sks_conn. Qed.
Print Assumptions C12_spherical_kerr_schild.
Theorem C12_monopole : forall P X, 0 < X.[1] -> (forall r, 0 < r -> 0 < mp_alpha P X.[0] r) ->
  (forall t, 0 < mp_alpha P t X.[1]) ->
  is_derive (fun u => mp_alpha P u X.[1]) X.[0] (mp_dalphadt P X.[0] X.[1]) /\
  is_derive (fun u => mp_beta P u X.[1]) X.[0] (mp_dbetadt P X.[0] X.[1]) /\
  is_derive (fun u => mp_a P u X.[1]) X.[0] (mp_dadt P X.[0] X.[1]) /\
  is_derive (fun u => mp_alpha P X.[0] u) X.[1] (mp_dalphadr P X.[0] X.[1]) /\
  is_derive (fun u => mp_beta P X.[0] u) X.[1] (mp_dbetadr P X.[0] X.[1]) /\
  is_derive (fun u => mp_a P X.[0] u) X.[1] (mp_dadr P X.[0] X.[1]) ->
  connection_at (MonopoleSph P) X.
Proof. exact mono_conn. Qed.
Print Assumptions C12_monopole.

(** the generic assembly used by every system that has no closed form: for any symmetric
    differentiable metric the result is the torsion-free metric-compatible connection *)
Theorem C12_assembly : forall g X dg,
  (forall Y, symmetric4 (g Y)) -> is_metric_derivative g X dg ->
  let G := SetConnectionCoeffFromMetricDerivs dg in
  is_christoffel1 g X G /\ torsion_free G /\ metric_compatible g X G.
Proof.
  intros g X dg Hs Hd G.
  assert (C : is_christoffel1 g X G) by (intros a b c Ha Hb Hc; now apply christoffel_of_derivative).
  split; [exact C|]. split; [now apply christoffel_torsion_free with (g := g) (X := X)|now apply christoffel_compatible].
Qed.
Print Assumptions C12_assembly.
Example C12_nonvacuous : connection_at (SphericalKerrSchild (9 / 10)) (pt 0 4 1 1) /\
  ConnectionCoefficient SphericalMinkowski (pt 0 2 (PI / 2) 0) 1%nat 2%nat 2%nat = -2.
Proof.
  split; [apply C12_spherical_kerr_schild; cbn; lra|].
  cbn. unfold SphMink_MetricDerivative, SetConnectionCoeffFromMetricDerivs. cbn.
  rewrite (Rabs_pos_eq 2) by lra. lra.
Qed.

(** * C13: coordinate modifications *)
Theorem C13_modified : forall S T td X,
  consistent_at S (mapped T X) ->
  inverse3 (tr_Jcov T X.[1] X.[2] X.[3]) (tr_Jcon T X.[1] X.[2] X.[3]) ->
  consistent_at (Modified S T td) X.
Proof. exact mod_consistent. Qed.
Print Assumptions C13_modified.

(** the metric is the pull-back and lapse and coordinates are those of the base system *)
Theorem C13_modified_pullback : forall S T td X,
  (forall mu nu, SpacetimeMetric (Modified S T td) X mu nu =
     sum4 (fun l => sum4 (fun k => SpacetimeMetric S (mapped T X) l k
       * S2ST (tr_Jcov T X.[1] X.[2] X.[3]) l mu * S2ST (tr_Jcov T X.[1] X.[2] X.[3]) k nu))) /\
  Lapse (Modified S T td) X = Lapse S (mapped T X) /\
  Coords (Modified S T td) X = Coords S (mapped T X) /\
  DetGamma (Modified S T td) X = Rabs (DetGamma S (mapped T X) * det3 (tr_Jcov T X.[1] X.[2] X.[3])).
Proof.
  intros. split; [|split; [|split]]; try reflexivity.
  cbn [DetGamma Modified]. rewrite LinearAlgebraProofs.Determinant_det3. reflexivity.
Qed.
Print Assumptions C13_modified_pullback.

(** McKinney-Gammie-Ryan: the Jacobian is the Jacobian of the map, and its inverse the inverse *)
Theorem C13_mgr_jacobian : forall m X1 X2 X3, mgr_xt m <> 0 ->
  (2 <= mgr_hexp_nsq m)%nat \/ X1 <> mgr_hexp_br m ->
  SINGSMALL < Rabs (mgr_th_raw m X1 X2) -> SINGSMALL < Rabs (PI - mgr_th_raw m X1 X2) ->
  let T := McKinneyGammieRyan m in
  let X := row3 X1 X2 X3 in
  forall i j, (i < 3)%nat -> (j < 3)%nat ->
    is_partial (fun Y => tr_C T Y.[0] Y.[1] Y.[2] i) j X (tr_Jcov T X1 X2 X3 i j).
Proof.
  intros m X1 X2 X3 Hxt Hn P1 P2 T X i j Hi Hj. unfold is_partial, T, X.
  pose proof (mgr_r_deriv m X1 Hn) as Dr.
  pose proof (th_deriv_fix _ _ _ (mgr_th_raw_d1 m X1 X2) P1 P2) as D1.
  pose proof (th_deriv_fix _ _ _ (mgr_th_raw_d2 m X1 X2 Hxt) P1 P2) as D2.
  idx; cbn; try constpart; try assumption.
  apply (is_derive_id (K:=R_AbsRing)).
Qed.
Print Assumptions C13_mgr_jacobian.

Theorem C13_mgr_inverse : forall m X1 X2 X3, mgr_valid m -> mgr_x0 m <= X1 ->
  inverse3 (tr_Jcov (McKinneyGammieRyan m) X1 X2 X3) (tr_Jcon (McKinneyGammieRyan m) X1 X2 X3).
Proof.
  intros m X1 X2 X3 V H. apply mgr_inverse.
  - apply Rgt_not_eq. now apply mgr_drdX1_pos.
  - apply Rgt_not_eq. now apply mgr_dthdX2_pos.
Qed.
Print Assumptions C13_mgr_inverse.

(** the map is strictly increasing in both coordinates and stays off the poles, so FMKS
    (Kerr-Schild in these coordinates) is consistent on the whole grid 0 <= X2 <= 1 *)
Theorem C13_fmks : forall m a X, mgr_valid m -> mgr_x0 m <= X.[1] -> 0 <= X.[2] <= 1 ->
  consistent_at (Modified (SphericalKerrSchild a) (McKinneyGammieRyan m) false) X.
Proof.
  intros m a X V H1 H2. apply mod_consistent; [|now apply C13_mgr_inverse].
  apply sks_consistent; unfold mapped; cbn.
  - unfold mgr_r. apply Rgt_not_eq, exp_pos.
  - now apply mgr_sin_nz.
Qed.
Print Assumptions C13_fmks.

Theorem C13_mgr_range : forall m X1 X2, mgr_valid m -> mgr_x0 m <= X1 -> 0 <= X2 <= 1 ->
  0 < mgr_drdX1 m X1 /\ 0 < mgr_dthdX2 m X1 X2 /\ 0 <= mgr_th_raw m X1 X2 <= PI /\
  Rabs (mgr_th m X1 X2 - mgr_th_raw m X1 X2) <= SINGSMALL /\ sin (mgr_th m X1 X2) <> 0.
Proof.
  intros m X1 X2 V H1 H2. split; [now apply mgr_drdX1_pos|]. split; [now apply mgr_dthdX2_pos|].
  split; [now apply mgr_th_raw_range|]. split; [apply mgr_fix_off|now apply mgr_sin_nz].
Qed.
Print Assumptions C13_mgr_range.

Definition default_mgr : MGR := mkMGR true (3 / 10) (82 / 100) 14 0 (1 / 2) 1000 4 1.
Example C13_mgr_nonvacuous : mgr_valid default_mgr /\
  consistent_at (Modified (SphericalKerrSchild (9 / 10)) (McKinneyGammieRyan default_mgr) false) (pt 0 1 (1 / 4) 0).
Proof.
  assert (V : mgr_valid default_mgr). { split; cbn; try lra; try lia. exists 7%nat. reflexivity. }
  split; [assumption|]. apply C13_fmks; [assumption| |]; cbn; lra.
Qed.

(** spherical to Cartesian, off the polar axis *)
Theorem C13_sph2cart : forall x y z, (x, y) <> (0, 0) ->
  let T := SphericalToCartesian in
  (forall i, (i < 3)%nat -> cart (tr_C T x y z) i = row3 x y z i) /\
  (forall i j, (i < 3)%nat -> (j < 3)%nat ->
     is_partial (fun p => cart p i) j (tr_C T x y z) (tr_Jcon T x y z i j)) /\
  inverse3 (tr_Jcov T x y z) (tr_Jcon T x y z).
Proof.
  intros x y z H T. split; [|split].
  - intros i Hi. now apply s2c_roundtrip.
  - intros i j Hi Hj. now apply s2c_Jcon_jacobian.
  - now apply s2c_inverse.
Qed.
Print Assumptions C13_sph2cart.
Theorem C13_monopole_cart : forall P td X, (X.[1], X.[2]) <> (0, 0) ->
  (forall r, 0 < r -> 0 < mp_alpha P X.[0] r /\ 0 < mp_a P X.[0] r) ->
  consistent_at (Modified (MonopoleSph P) SphericalToCartesian td) X.
Proof.
  intros P td X H Hp.
  assert (Hr : 0 < s2c_r X.[1] X.[2] X.[3]). { apply s2c_r_pos. intros E. apply H. congruence. }
  assert (Hs := s2c_th_spec X.[1] X.[2] X.[3] H). cbv zeta in Hs. destruct Hs as (_ & _ & Hs).
  apply mod_consistent; [|now apply s2c_inverse].
  apply mono_consistent; unfold mapped; cbn.
  - now apply Rgt_not_eq.
  - now apply Rgt_not_eq.
  - apply Hp. now apply Rabs_pos_lt, Rgt_not_eq.
  - apply Hp. now apply Rabs_pos_lt, Rgt_not_eq.
Qed.
Print Assumptions C13_monopole_cart.
Example C13_monopole_cart_nonvacuous : consistent_at (Modified (MonopoleSph wprof) SphericalToCartesian true) (pt 1 3 0 4).
Proof.
  apply C13_monopole_cart; [cbn; intros E; injection E; lra|].
  intros r Hr. split; [apply wprof_pos|]. cbn. assert (0 <= r * r) by apply Rle_0_sqr. lra.
Qed.

(** GetCoordsAndDerivatives multiplies by r where the Jacobian divides *)
Theorem C13_sph2cart_derivatives_refuted :
  exists x y z dx dy dz, (x, y) <> (0, 0) /\
    s2c_derivatives x y z dx dy dz 2%nat <>
    sum3 (fun j => tr_Jcov SphericalToCartesian x y z 2%nat j * row3 dx dy dz j).
Proof.
  exists 0, 2, 0, 1, 0, 0. split; [intros E; injection E; lra|]. exact s2c_derivatives_wrong.
Qed.
Print Assumptions C13_sph2cart_derivatives_refuted.

(** the spatial derivatives are central differences: second-order accurate *)
Theorem C13_fd_metric : forall S T X mu nu d f1 f2 f3 M, (1 <= d < 4)%nat ->
  (forall t, X d - fd_dx (X d) <= t <= X d + fd_dx (X d) ->
     is_derive (fun u => SpacetimeMetric (Modified S T false) (moved X d u) mu nu) t (f1 t) /\
     is_derive f1 t (f2 t) /\ is_derive f2 t (f3 t) /\ Rabs (f3 t) <= M) ->
  Rabs (MetricDerivative (Modified S T false) X mu nu d
        - partial (fun Y => SpacetimeMetric (Modified S T false) Y mu nu) d X)
  <= M * fd_dx (X d) ^ 2 / 6.
Proof.
  intros S T X mu nu d f1 f2 f3 M Hd Hs.
  assert (E : partial (fun Y => SpacetimeMetric (Modified S T false) Y mu nu) d X = f1 (X d)).
  { apply is_derive_unique. apply Hs. pose proof (fd_dx_pos (X d)). lra. }
  rewrite E. apply (fd_metric_error (SpacetimeMetric (Modified S T false)) X mu nu d f1 f2 f3 M); [lia|exact Hs].
Qed.
Print Assumptions C13_fd_metric.

Theorem C13_fd_lapse : forall S T X d f1 f2 f3 M2 M3 m, (1 <= d < 4)%nat -> 0 < m ->
  (forall t, X d - fd_dx (X d) <= t <= X d + fd_dx (X d) ->
     m <= Lapse (Modified S T false) (moved X d t)) ->
  (forall t, X d - fd_dx (X d) <= t <= X d + fd_dx (X d) ->
     is_derive (fun u => Lapse (Modified S T false) (moved X d u)) t (f1 t) /\
     is_derive f1 t (f2 t) /\ is_derive f2 t (f3 t) /\ Rabs (f3 t) <= M3) ->
  (forall t, X d - fd_dx (X d) <= t <= X d + fd_dx (X d) -> Rabs (f2 t) <= M2) ->
  Rabs (GradLnAlpha (Modified S T false) X d - partial (fun Y => ln (Lapse (Modified S T false) Y)) d X)
  <= fd_dx (X d) ^ 2 * (M3 / (6 * m) + Rabs (f1 (X d)) * M2 / (2 * (m * m))).
Proof.
  intros S T X d f1 f2 f3 M2 M3 m Hd Hm Hpos Hs H2.
  pose proof (fd_dx_pos (X d)) as Hh.
  assert (E : partial (fun Y => ln (Lapse (Modified S T false) Y)) d X = f1 (X d) / Lapse (Modified S T false) (moved X d (X d))).
  { apply is_derive_unique. destruct (Hs (X d) ltac:(lra)) as (D & _).
    set (al := fun u => Lapse (Modified S T false) (moved X d u)) in *.
    change (is_derive (fun u => ln (al u)) (X d) (f1 (X d) / al (X d))).
    assert (P : 0 < al (X d)) by (specialize (Hpos (X d) ltac:(lra)); unfold al; lra).
    auto_derive.
    - split; [now exists (f1 (X d))|]. split; [assumption|exact I].
    - assert (E : Derive (fun x : R => al x) (X d) = f1 (X d)) by now apply is_derive_unique.
      rewrite E. unfold Rdiv. ring. }
  rewrite E.
  apply (fd_lapse_error (Lapse (Modified S T false)) X d f1 f2 f3 M2 M3 m); try assumption; lia.
Qed.
Print Assumptions C13_fd_lapse.
(** for affine metric components the difference is exact, so the bound is attained with M = 0 *)
Example C13_fd_nonvacuous : forall t,
  is_derive (fun u : R => 3 * u) t 3 /\ is_derive (fun _ : R => 3) t 0 /\ is_derive (fun _ : R => 0) t 0 /\ Rabs 0 <= 0.
Proof.
  intros t. split; [auto_derive; trivial; ring|]. split; [auto_derive; trivial|]. split; [auto_derive; trivial|].
  rewrite Rabs_R0. lra.
Qed.

(** time derivative of a static system is zero, and is returned as zero *)
Theorem C13_static_time_derivative : forall S T X mu nu,
  (forall Y Y', Y.[1] = Y'.[1] -> Y.[2] = Y'.[2] -> Y.[3] = Y'.[3] ->
     SpacetimeMetric S Y = SpacetimeMetric S Y') ->
  is_partial (fun Y => SpacetimeMetric (Modified S T false) Y mu nu) 0 X
    (MetricDerivative (Modified S T false) X mu nu 0%nat).
Proof.
  intros S T X mu nu H. unfold is_partial. cbn [MetricDerivative Modified]. unfold mod_MetricDerivative, SetMetricGradientByFD.
  cbn [Nat.eqb].
  apply is_derive_ext with (fun _ => SpacetimeMetric (Modified S T false) X mu nu); [|apply (is_derive_const (V:=R_NormedModule))].
  intros t. cbn [SpacetimeMetric Modified]. unfold mod_SpacetimeMetric.
  rewrite (H (mapped T (moved X 0 t)) (mapped T X)); reflexivity.
Qed.
Print Assumptions C13_static_time_derivative.

(** a time-dependent base system (MonopoleCart): the lapse gradient and the metric
    derivative in time are taken at (x,y,z) instead of (r,theta,phi) *)
Theorem C13_time_dependent_refuted :
  exists P X, (X.[1], X.[2]) <> (0, 0) /\
    (forall Y, 0 < Y.[1] -> derivatives_at (MonopoleSph P) Y) /\
    let S := Modified (MonopoleSph P) SphericalToCartesian true in
    ~ is_partial (fun Y => SpacetimeMetric S Y 0%nat 0%nat) 0 X (MetricDerivative S X 0%nat 0%nat 0%nat) /\
    ~ is_partial (fun Y => ln (Lapse S Y)) 0 X (GradLnAlpha S X 0%nat).
Proof.
  exists wprof, (pt 1 3 0 4). split; [cbn; intros E; injection E; lra|]. split; [exact wprof_deriv|].
  cbv zeta.
  assert (Er : s2c_r 3 0 4 = 5).
  { unfold s2c_r. replace (3 * 3 + 0 * 0 + 4 * 4) with (5 * 5) by ring. apply sqrt_square; lra. }
  split; intros H; apply is_partial_unique in H; cbn [SpacetimeMetric MetricDerivative Lapse GradLnAlpha Modified] in H.
  - assert (D : is_partial (fun Y => mod_SpacetimeMetric (MonopoleSph wprof) SphericalToCartesian Y 0%nat 0%nat) 0 (pt 1 3 0 4)
               (- 2 * (1 + 1 * 1 * (5 * 5)) * (2 * 1 * (5 * 5)) + 2 * ((1 + 5 * 5) * (1 + 5 * 5)) * (1 * 5 * 5))).
    { unfold is_partial. cbn.
      apply is_derive_ext with (fun t => - (1 + t * t * (5 * 5)) * (1 + t * t * (5 * 5)) + (1 + 5 * 5) * (1 + 5 * 5) * (t * 5) * (t * 5)).
      { intros t. unfold mod_SpacetimeMetric, mapped, moved. cbn. rewrite Er, !(Rabs_pos_eq 5) by lra.
        unfold sum4, S2ST. cbn. ring. }
      auto_derive; trivial; ring. }
    apply is_partial_unique in D. rewrite D in H. clear D.
    unfold mod_MetricDerivative, sum4, S2ST in H. cbn in H. rewrite !(Rabs_pos_eq 3) in H by lra. lra.
  - assert (D : is_partial (fun Y => ln (mod_Lapse (MonopoleSph wprof) SphericalToCartesian Y)) 0 (pt 1 3 0 4) (50 / 26)).
    { unfold is_partial. cbn.
      apply is_derive_ext with (fun t => ln (1 + t * t * (5 * 5))).
      { intros t. unfold mod_Lapse, mapped, moved. cbn. rewrite Er, !(Rabs_pos_eq 5) by lra. reflexivity. }
      auto_derive; [lra|field]. }
    apply is_partial_unique in D. rewrite D in H. clear D.
    cbn in H. rewrite !(Rabs_pos_eq 3) in H by lra. lra.
Qed.
Print Assumptions C13_time_dependent_refuted.

(** * C36: Boyer-Lindquist and Kerr-Schild are the same spacetime *)
Theorem C36_bl_is_kerr_schild : forall a X, X.[1] <> 0 ->
  X.[1] * X.[1] - 2 * Rabs X.[1] + a * a <> 0 ->
  (forall mu nu, (mu < 4)%nat -> (nu < 4)%nat ->
    BL_SpacetimeMetric a X mu nu =
    sum4 (fun l => sum4 (fun k => SpacetimeMetric (SphericalKerrSchild a) X l k
      * bl_to_ks_trans a (Rabs X.[1]) l mu * bl_to_ks_trans a (Rabs X.[1]) k nu))) /\
  (forall u, dot4 (SpacetimeMetric (SphericalKerrSchild a) X)
                  (bl_to_ks a (Rabs X.[1]) u) (bl_to_ks a (Rabs X.[1]) u)
             = dot4 (BL_SpacetimeMetric a X) u u).
Proof. intros a X H1 H2. split; [now apply bl_pullback|intros u; now apply bl_to_ks_norm]. Qed.
Print Assumptions C36_bl_is_kerr_schild.
Example C36_nonvacuous : 4 * 4 - 2 * Rabs 4 + 9 / 10 * (9 / 10) <> 0.
Proof. rewrite Rabs_pos_eq by lra. lra. Qed.

(** * C37: flat systems really are flat *)
Theorem C37_flat : forall X,
  flat_at Minkowski X /\
  (forall vx vy vz, flat_at (BoostedMinkowski vx vy vz) X) /\
  (0 < X.[1] -> flat_at SphericalMinkowski X).
Proof. intros X. split; [apply minkowski_flat|]. split; [intros; apply boosted_flat|apply sph_flat]. Qed.
Print Assumptions C37_flat.

(** Snake and Inchworm are flat space in wiggled coordinates, with Cartesian coordinates
    (alpha t, x, y - a sin(k x) + vy t, z) and (t, x - a sin(k x), y, z) *)
Theorem C37_wiggled_flat : forall X a k,
  (forall alpha vy, is_pullback_of_flat (SpacetimeMetric (Snake a k alpha vy))
     (fun Y => row4 (alpha * Y.[0]) Y.[1] (Y.[2] - a * sin (k * Y.[1]) + vy * Y.[0]) Y.[3]) X) /\
  is_pullback_of_flat (SpacetimeMetric (Inchworm a k))
     (fun Y => row4 Y.[0] (Y.[1] - a * sin (k * Y.[1])) Y.[2] Y.[3]) X.
Proof.
  intros X a k. split.
  - intros alpha vy.
    exists (rows4 (row4 alpha 0 0 0) (row4 0 1 0 0) (row4 vy (- (a * k * cos (k * X.[1]))) 1 0) (row4 0 0 0 1)). split.
    + intros m s Hm Hs. idx; unfold is_partial, moved; cbn; try constpart; auto_derive; trivial; ring.
    + intros mu nu Hm Hn. sysunf. unfold GetDelta. idx; tensor; unfold eta; cbn; ring.
  - exists (rows4 (row4 1 0 0 0) (row4 0 (1 - a * k * cos (k * X.[1])) 0 0) (row4 0 0 1 0) (row4 0 0 0 1)). split.
    + intros m s Hm Hs. idx; unfold is_partial, moved; cbn; try constpart; auto_derive; trivial; ring.
    + intros mu nu Hm Hn. sysunf. unfold GetDelta. idx; tensor; unfold eta; cbn; ring.
Qed.
Print Assumptions C37_wiggled_flat.

(** Kerr-Schild: Coords maps the chart to oblate spheroidal Cartesian coordinates, and
    without spin the metric is the flat metric in these coordinates plus
    (2/r) l l with the ingoing null one-form l = dt + dr. *)
Theorem C37_kerr_schild_embedding : forall a X, let C := Coords (SphericalKerrSchild a) X in
  C 0%nat = X.[0] /\
  C 1%nat * C 1%nat + C 2%nat * C 2%nat = (X.[1] * X.[1] + a * a) * (sin X.[2] * sin X.[2]) /\
  C 3%nat = Rabs X.[1] * cos X.[2] /\
  C 1%nat * sin X.[3] = C 2%nat * cos X.[3] /\
  C 1%nat * cos X.[3] + C 2%nat * sin X.[3] = sqrt (X.[1] * X.[1] + a * a) * sin X.[2].
Proof.
  intros a X C. unfold C. cbn [SphericalKerrSchild Coords row4].
  assert (S : sin X.[3] * sin X.[3] = 1 - cos X.[3] * cos X.[3]).
  { pose proof (sin2_cos2 X.[3]) as H. unfold Rsqr in H. lra. }
  assert (A : Rabs X.[1] * Rabs X.[1] = X.[1] * X.[1]) by (rewrite <- Rabs_mult; apply Rabs_pos_eq, Rle_0_sqr).
  rewrite A.
  assert (Q : sqrt (X.[1] * X.[1] + a * a) * sqrt (X.[1] * X.[1] + a * a) = X.[1] * X.[1] + a * a).
  { apply sqrt_sqrt. apply Rplus_le_le_0_compat; apply Rle_0_sqr. }
  set (q := sqrt (X.[1] * X.[1] + a * a)) in *. rewrite <- Q.
  repeat split; ring [S].
Qed.
Print Assumptions C37_kerr_schild_embedding.

Theorem C37_kerr_schild_form : forall X, X.[1] <> 0 ->
  let l : vec := row4 1 1 0 0 in
  (forall mu nu, (mu < 4)%nat -> (nu < 4)%nat ->
    SpacetimeMetric (SphericalKerrSchild 0) X mu nu
    = SpacetimeMetric SphericalMinkowski X mu nu + 2 / Rabs X.[1] * l mu * l nu) /\
  (0 < X.[1] -> forall m, (m < 4)%nat -> Coords (SphericalKerrSchild 0) X m = Coords SphericalMinkowski X m).
Proof.
  intros X H l.
  assert (P : 0 < Rabs X.[1]) by now apply Rabs_pos_lt.
  assert (A : Rabs X.[1] * Rabs X.[1] = X.[1] * X.[1]) by (rewrite <- Rabs_mult; apply Rabs_pos_eq, Rle_0_sqr).
  split.
  - intros mu nu Hm Hn. unfold l. unfold SphericalKerrSchild, SphericalMinkowski. cbn [SpacetimeMetric].
    assert (E : sks_rho2 (0 * 0) (Rabs X.[1]) (cos X.[2]) = X.[1] * X.[1]) by (unfold sks_rho2; rewrite A; ring).
    rewrite E. assert (X.[1] * X.[1] <> 0) by (intros E0; apply Rmult_integral in E0; tauto).
    rewrite !gratio_nz by assumption. rewrite <- A. idx; cbn; try (field; lra).
  - intros Hp m Hm. unfold SphericalKerrSchild, SphericalMinkowski. cbn [Coords]. unfold sph_Coords.
    rewrite (Rabs_pos_eq X.[1]) by lra. replace (X.[1] * X.[1] + 0 * 0) with (X.[1] * X.[1]) by ring.
    rewrite sqrt_square by lra. idx; cbn; reflexivity.
Qed.
Print Assumptions C37_kerr_schild_form.
