From Coq Require Import Reals Arith Lra Lia.
From Flocq Require Import Core.
From Coquelicot Require Import Coquelicot.
From Verif.Model Require Import Num Robust Geometry.
From Verif.Spec Require Import Tensor GeomSpec SystemSpec.
From Verif.Proofs Require Import TensorTac GeomBase GeomSystems.
Local Open Scope R_scope.

Lemma sin2 x : sin (2 * x) = 2 * sin x * cos x.
Proof. apply sin_2a. Qed.
Lemma sc1 x : sin x * sin x = 1 - cos x * cos x.
Proof. pose proof (sin2_cos2 x) as H. unfold Rsqr in H. lra. Qed.

(** close the goals about constant functions, by syntactic matching only *)
Ltac constpart := match goal with
  | |- is_partial (fun _ => ?c) _ _ _ => exact (is_partial_const c _ _)
  | |- is_derive (fun _ => ?c) _ _ => exact (is_derive_const c _)
  end.

Lemma ln1_gradient X : is_gradient (fun _ => ln 1) X (fun _ => 0).
Proof. intros s Hs. apply is_partial_const. Qed.
Lemma lnc_gradient c X : is_gradient (fun _ => ln c) X (fun _ => 0).
Proof. intros s Hs. apply is_partial_const. Qed.

Lemma minkowski_deriv X : derivatives_at Minkowski X.
Proof. split; sysunf; [|apply lnc_gradient]. intros mu nu s H1 H2 H3. apply is_partial_const. Qed.

Lemma boosted_deriv vx vy vz X : derivatives_at (BoostedMinkowski vx vy vz) X.
Proof. split; sysunf; [|apply lnc_gradient]. intros mu nu s H1 H2 H3. apply is_partial_const. Qed.

Lemma flrw_deriv a0 dadt X : derivatives_at (FLRW a0 dadt) X.
Proof.
  split; sysunf; [|apply lnc_gradient]. intros mu nu s H1 H2 H3. idx; cbn; try constpart;
  unfold is_partial, flrw_a; cbn; auto_derive; trivial; ring.
Qed.

Lemma snake_deriv a k alpha vy X : derivatives_at (Snake a k alpha vy) X.
Proof.
  split; sysunf; [|apply lnc_gradient]. intros mu nu s H1 H2 H3. idx; cbn; try constpart;
  unfold is_partial, GetDelta; cbn; try constpart;
  auto_derive; trivial; try ring.
  replace (2 * k * X 1%nat) with (2 * (k * X 1%nat)) by ring. rewrite sin2. ring.
Qed.

Lemma inchworm_deriv a k X : derivatives_at (Inchworm a k) X.
Proof.
  split; sysunf; [|apply lnc_gradient]. intros mu nu s H1 H2 H3. idx; cbn; try constpart;
  unfold is_partial, GetDelta; cbn; try constpart;
  auto_derive; trivial; try ring.
Qed.

Lemma sphmink_deriv X : 0 <= X.[1] -> derivatives_at SphericalMinkowski X.
Proof.
  intros Hr. split; sysunf; [|apply lnc_gradient]. unfold SphMink_MetricDerivative. rewrite (Rabs_pos_eq _ Hr).
  intros mu nu s H1 H2 H3. idx; cbn; try constpart;
  unfold is_partial; cbn; try constpart;
  auto_derive; trivial; try ring.
  rewrite sin2. ring.
Qed.

(** for X1 < 0 the radial derivatives have the wrong sign: the metric does not use |X1| *)
Lemma sphmink_deriv_neg X : X.[1] < 0 -> ~ derivatives_at SphericalMinkowski X.
Proof.
  intros Hr [H _]. specialize (H 2 2 1)%nat. 
  assert (is_partial (fun Y => SpacetimeMetric SphericalMinkowski Y 2%nat 2%nat) 1 X (2 * X.[1])) as D.
  { unfold is_partial. cbn. auto_derive; trivial. ring. }
  apply is_partial_unique in D. specialize (H ltac:(lia) ltac:(lia) ltac:(lia)).
  apply is_partial_unique in H. rewrite D in H. cbn in H.
  rewrite (Rabs_left _ Hr) in H. lra.
Qed.

(** Kerr-Schild *)
Lemma sks_metric_nice a Y mu nu : 0 < Y.[1] -> (mu < 4)%nat -> (nu < 4)%nat ->
  SpacetimeMetric (SphericalKerrSchild a) Y mu nu =
    let r := Y.[1] in let s := sin Y.[2] in let c := cos Y.[2] in
    let p := r * r + a * a * c * c in
    rows4 (row4 (-1 + 2 * r / p) (2 * r / p) 0 (- (2 * a * r * (s * s) / p)))
          (row4 (2 * r / p) (1 + 2 * r / p) 0 (- a * (1 + 2 * r / p) * (s * s)))
          (row4 0 0 p 0)
          (row4 (- (2 * a * r * (s * s) / p)) (- a * (1 + 2 * r / p) * (s * s)) 0
                ((p + a * a * (1 + 2 * r / p) * (s * s)) * (s * s))) mu nu.
Proof.
  intros Hr Hm Hn. sysunf. rewrite (Rabs_pos_eq Y.[1]) by lra.
  assert (P : 0 < sks_rho2 (a * a) Y.[1] (cos Y.[2])).
  { apply sks_rho2_pos; [apply Rle_0_sqr|lra]. }
  rewrite !gratio_nz by lra. reflexivity.
Qed.

Lemma sks_deriv_metric a X : 0 < X.[1] ->
  is_metric_derivative (SpacetimeMetric (SphericalKerrSchild a)) X (MetricDerivative (SphericalKerrSchild a) X).
Proof.
  intros Hr mu nu s Hm Hn Hs.
  assert (Q : forall h, (s <> 1)%nat \/ 0 < h -> 0 < moved X s h 1%nat).
  { intros h H. unfold moved. destruct (Nat.eqb_spec 1 s); [|assumption]. destruct H; [congruence|assumption]. }
  cut (is_partial (fun Y => let r := Y.[1] in let s := sin Y.[2] in let c := cos Y.[2] in
    let p := r * r + a * a * c * c in
    rows4 (row4 (-1 + 2 * r / p) (2 * r / p) 0 (- (2 * a * r * (s * s) / p)))
          (row4 (2 * r / p) (1 + 2 * r / p) 0 (- a * (1 + 2 * r / p) * (s * s)))
          (row4 0 0 p 0)
          (row4 (- (2 * a * r * (s * s) / p)) (- a * (1 + 2 * r / p) * (s * s)) 0
                ((p + a * a * (1 + 2 * r / p) * (s * s)) * (s * s))) mu nu) s X
      (MetricDerivative (SphericalKerrSchild a) X mu nu s)).
  { destruct (Nat.eq_dec s 1) as [->|Ns].
    - apply is_partial_ext_pos; [assumption|]. intros h Hh. symmetry. apply sks_metric_nice; auto.
    - apply is_partial_ext. intros h. symmetry. apply sks_metric_nice; auto. }
  clear Q. sysunf. unfold SKS_MetricDerivative. rewrite (Rabs_pos_eq X.[1]) by lra.
  assert (P : 0 < sks_rho2 (a * a) X.[1] (cos X.[2])).
  { apply sks_rho2_pos; [apply Rle_0_sqr|lra]. }
  assert (P' : X.[1] * X.[1] + a * a * cos X.[2] * cos X.[2] <> 0) by (unfold sks_rho2 in P; lra).
  assert (PP : sks_rho2 (a * a) X.[1] (cos X.[2]) * sks_rho2 (a * a) X.[1] (cos X.[2]) <> 0).
  { apply Rmult_integral_contrapositive_currified; lra. }
  set (D002 := gratio (4 * X.[1] * (sks_rho2 (a * a) X.[1] (cos X.[2]) - X.[1] * X.[1]) * sin X.[2])
      (sks_rho2 (a * a) X.[1] (cos X.[2]) * sks_rho2 (a * a) X.[1] (cos X.[2]) * cos X.[2])).
  assert (E002 : D002 = 4 * X.[1] * (a * a * cos X.[2]) * sin X.[2]
     / (sks_rho2 (a * a) X.[1] (cos X.[2]) * sks_rho2 (a * a) X.[1] (cos X.[2]))).
  { unfold D002. destruct (Req_dec (cos X.[2]) 0) as [Z|Z].
    - rewrite Z. unfold sks_rho2. 
      match goal with |- gratio ?n _ = _ => replace n with 0 by ring end.
      rewrite gratio_num0. unfold Rdiv. ring.
    - rewrite gratio_nz by now apply Rmult_integral_contrapositive_currified.
      unfold sks_rho2 in *. field. split; assumption. }
  rewrite E002. clearbody D002. clear E002.
  rewrite !gratio_nz by assumption. rewrite cos_2a, sin2.
  unfold sks_rho2 in *.
  pose proof (sc1 X.[2]) as SC.
  idx; cbn; try constpart; unfold is_partial; cbn;
  try constpart;
  (auto_derive; trivial; try (repeat split; assumption)).
  all: set (c := cos X.[2]) in *; set (sn := sin X.[2]) in *; set (r := X.[1]) in *; clearbody c sn r.
  all: try solve [field [SC]; repeat split; assumption].
Qed.

Lemma sks_lapse_nice a Y : 0 < Y.[1] ->
  ln (Lapse (SphericalKerrSchild a) Y) =
  (ln (Y.[1] * Y.[1] + a * a * cos Y.[2] * cos Y.[2])
   - ln (2 * Y.[1] + (Y.[1] * Y.[1] + a * a * cos Y.[2] * cos Y.[2]))) / 2.
Proof.
  intros Hr. sysunf. rewrite (Rabs_pos_eq Y.[1]) by lra.
  assert (P : 0 < sks_rho2 (a * a) Y.[1] (cos Y.[2])).
  { apply sks_rho2_pos; [apply Rle_0_sqr|lra]. }
  unfold sks_rho2 in *. set (p := _ + _ * cos Y.[2]) in *.
  rewrite gratio_nz by lra.
  assert (Q : 0 < p / (2 * Y.[1] + p)) by (apply Rdiv_lt_0_compat; lra).
  rewrite <- Rpower_sqrt by assumption. unfold Rpower. rewrite ln_exp.
  rewrite ln_div by lra. field.
Qed.

Lemma sks_grad a X : 0 < X.[1] ->
  is_gradient (fun Y => ln (Lapse (SphericalKerrSchild a) Y)) X (GradLnAlpha (SphericalKerrSchild a) X).
Proof.
  intros Hr s Hs.
  assert (Q : forall h, (s <> 1)%nat \/ 0 < h -> 0 < moved X s h 1%nat).
  { intros h H. unfold moved. destruct (Nat.eqb_spec 1 s); [|assumption]. destruct H; [congruence|assumption]. }
  cut (is_partial (fun Y => (ln (Y.[1] * Y.[1] + a * a * cos Y.[2] * cos Y.[2])
   - ln (2 * Y.[1] + (Y.[1] * Y.[1] + a * a * cos Y.[2] * cos Y.[2]))) / 2) s X
    (GradLnAlpha (SphericalKerrSchild a) X s)).
  { destruct (Nat.eq_dec s 1) as [->|Ns].
    - apply is_partial_ext_pos; [assumption|]. intros h Hh. symmetry. apply sks_lapse_nice; auto.
    - apply is_partial_ext. intros h. symmetry. apply sks_lapse_nice; auto. }
  clear Q. sysunf. rewrite (Rabs_pos_eq X.[1]) by lra.
  assert (P : 0 < sks_rho2 (a * a) X.[1] (cos X.[2])).
  { apply sks_rho2_pos; [apply Rle_0_sqr|lra]. }
  set (r := X.[1]) in *. unfold sks_rho2 in *. set (p := _ + _ * cos X.[2]) in *.
  assert (P2 : 2 * r * p + p * p <> 0).
  { assert (0 < 2 * r * p) by (repeat apply Rmult_lt_0_compat; lra).
    assert (0 < p * p) by (apply Rmult_lt_0_compat; lra). lra. }
  rewrite !gratio_nz by lra.
  idx; unfold is_partial; cbn; try constpart; fold r; auto_derive; fold r; fold p.
  - repeat split; try lra; trivial.
  - field. lra.
  - repeat split; try lra; trivial.
  - field. repeat split; lra.
Qed.

Lemma sks_deriv a X : 0 < X.[1] -> derivatives_at (SphericalKerrSchild a) X.
Proof. intros H. split; [now apply sks_deriv_metric|now apply sks_grad]. Qed.

(** spherically symmetric, dynamical metric with tabulated profiles *)
Definition profiles_differentiable (P : MonopoleProfiles) (t r : R) : Prop :=
  is_derive (fun u => mp_alpha P u r) t (mp_dalphadt P t r) /\
  is_derive (fun u => mp_beta P u r) t (mp_dbetadt P t r) /\
  is_derive (fun u => mp_a P u r) t (mp_dadt P t r) /\
  is_derive (fun u => mp_alpha P t u) r (mp_dalphadr P t r) /\
  is_derive (fun u => mp_beta P t u) r (mp_dbetadr P t r) /\
  is_derive (fun u => mp_a P t u) r (mp_dadr P t r).

Lemma mono_metric_nice P Y mu nu : 0 < Y.[1] ->
  SpacetimeMetric (MonopoleSph P) Y mu nu =
    let r := Y.[1] in let s := sin Y.[2] in
    let al := mp_alpha P Y.[0] r in let b := mp_beta P Y.[0] r in let a := mp_a P Y.[0] r in
    rows4 (row4 (- al * al + a * a * b * b) (a * a * b) 0 0)
          (row4 (a * a * b) (a * a) 0 0) (row4 0 0 (r * r) 0) (row4 0 0 0 (r * r * s * s)) mu nu.
Proof. intros H. sysunf. rewrite (Rabs_pos_eq Y.[1]) by lra. reflexivity. Qed.

Lemma mono_deriv P X : 0 < X.[1] -> (forall r, 0 < r -> 0 < mp_alpha P X.[0] r) ->
  (forall t, 0 < mp_alpha P t X.[1]) ->
  profiles_differentiable P X.[0] X.[1] -> derivatives_at (MonopoleSph P) X.
Proof.
  intros Hr Hal Halt (D1 & D2 & D3 & D4 & D5 & D6).
  assert (Q : forall s h, (s <> 1)%nat \/ 0 < h -> 0 < moved X s h 1%nat).
  { intros s h H. unfold moved. destruct (Nat.eqb_spec 1 s); [|assumption]. destruct H; [congruence|assumption]. }
  assert (E1 : Derive (fun x : R => mp_alpha P x X.[1]) X.[0] = mp_dalphadt P X.[0] X.[1]) by now apply is_derive_unique.
  assert (E2 : Derive (fun x : R => mp_beta P x X.[1]) X.[0] = mp_dbetadt P X.[0] X.[1]) by now apply is_derive_unique.
  assert (E3 : Derive (fun x : R => mp_a P x X.[1]) X.[0] = mp_dadt P X.[0] X.[1]) by now apply is_derive_unique.
  assert (E4 : Derive (fun x : R => mp_alpha P X.[0] x) X.[1] = mp_dalphadr P X.[0] X.[1]) by now apply is_derive_unique.
  assert (E5 : Derive (fun x : R => mp_beta P X.[0] x) X.[1] = mp_dbetadr P X.[0] X.[1]) by now apply is_derive_unique.
  assert (E6 : Derive (fun x : R => mp_a P X.[0] x) X.[1] = mp_dadr P X.[0] X.[1]) by now apply is_derive_unique.
  split.
  - intros mu nu s Hm Hn Hs.
    cut (is_partial (fun Y => let r := Y.[1] in let s := sin Y.[2] in
    let al := mp_alpha P Y.[0] r in let b := mp_beta P Y.[0] r in let a := mp_a P Y.[0] r in
    rows4 (row4 (- al * al + a * a * b * b) (a * a * b) 0 0)
          (row4 (a * a * b) (a * a) 0 0) (row4 0 0 (r * r) 0) (row4 0 0 0 (r * r * s * s)) mu nu)
      s X (MetricDerivative (MonopoleSph P) X mu nu s)).
    { destruct (Nat.eq_dec s 1) as [->|Ns].
      - apply is_partial_ext_pos; [assumption|]. intros h Hh. symmetry. apply mono_metric_nice; auto.
      - apply is_partial_ext. intros h. symmetry. apply mono_metric_nice; auto. }
    sysunf. unfold Mono_MetricDerivative. rewrite (Rabs_pos_eq X.[1]) by lra.
    idx; cbn; try constpart; unfold is_partial; cbn; try constpart;
      (auto_derive; [repeat split; trivial; eexists; eassumption|
        rewrite ?E1, ?E2, ?E3, ?E4, ?E5, ?E6; try rewrite sin2; ring]).
  - intros s Hs.
    cut (is_partial (fun Y => ln (mp_alpha P Y.[0] Y.[1])) s X (GradLnAlpha (MonopoleSph P) X s)).
    { destruct (Nat.eq_dec s 1) as [->|Ns].
      - apply is_partial_ext_pos; [assumption|]. intros h Hh. sysunf.
        rewrite (Rabs_pos_eq (moved X 1 h 1%nat)); [reflexivity|]. left. apply Q. now right.
      - apply is_partial_ext. intros h. sysunf.
        rewrite (Rabs_pos_eq (moved X s h 1%nat)); [reflexivity|]. left. apply Q. now left. }
    sysunf. rewrite (Rabs_pos_eq X.[1]) by lra.
    idx; unfold is_partial; cbn; try constpart.
    + auto_derive; [repeat split; trivial; first [apply Halt|eexists; eassumption]|]. rewrite E1. field. apply Rgt_not_eq, Halt.
    + auto_derive; [repeat split; trivial; first [now apply Hal|eexists; eassumption]|]. rewrite E4. field. now apply Rgt_not_eq, Hal.
Qed.

(** ** C12: connection coefficients *)
Lemma metric_sym_sys S X : consistent_at S X -> symmetric4 (SpacetimeMetric S X).
Proof. now intros []. Qed.

Lemma conn_from_derivs S X :
  (forall Y, symmetric4 (SpacetimeMetric S Y)) ->
  is_metric_derivative (SpacetimeMetric S) X (MetricDerivative S X) ->
  (forall a b c, (a < 4)%nat -> (b < 4)%nat -> (c < 4)%nat -> ConnectionCoefficient S X a b c
     = SetConnectionCoeffFromMetricDerivs (MetricDerivative S X) a b c) ->
  connection_at S X.
Proof.
  intros Hs Hd He.
  assert (C : is_christoffel1 (SpacetimeMetric S) X (ConnectionCoefficient S X)).
  { intros a b c Ha Hb Hc. rewrite He by assumption. now apply christoffel_of_derivative. }
  split; [exact C|]. split; [eapply christoffel_torsion_free|apply christoffel_compatible]; eassumption.
Qed.

Ltac conn := let a := fresh "a" in intros a ? ? ? ? ?; sysunf; idx; cbn;
  unfold SetConnectionCoeffFromMetricDerivs; cbn.
Lemma minkowski_conn X : connection_at Minkowski X.
Proof.
  apply conn_from_derivs; [|apply minkowski_deriv|].
  - sysunf; allidx; ring.
  - conn; ring.
Qed.
Lemma boosted_conn vx vy vz X : connection_at (BoostedMinkowski vx vy vz) X.
Proof.
  apply conn_from_derivs; [|apply boosted_deriv|].
  - sysunf; allidx; ring.
  - conn; ring.
Qed.
Lemma sphmink_conn X : 0 <= X.[1] -> connection_at SphericalMinkowski X.
Proof.
  intros H. apply conn_from_derivs; [|now apply sphmink_deriv|].
  - sysunf; allidx; ring.
  - sysunf. reflexivity.
Qed.
Lemma flrw_conn a0 dadt X : connection_at (FLRW a0 dadt) X.
Proof.
  apply conn_from_derivs; [|apply flrw_deriv|].
  - sysunf; allidx; ring.
  - conn; field.
Qed.
Lemma snake_conn a k alpha vy X : connection_at (Snake a k alpha vy) X.
Proof.
  apply conn_from_derivs; [|apply snake_deriv|].
  - sysunf; allidx; ring.
  - conn; field.
Qed.
Lemma inchworm_conn a k X : connection_at (Inchworm a k) X.
Proof.
  apply conn_from_derivs; [|apply inchworm_deriv|].
  - sysunf; allidx; ring.
  - conn; field.
Qed.
Lemma sks_conn a X : 0 < X.[1] -> connection_at (SphericalKerrSchild a) X.
Proof.
  intros H. apply conn_from_derivs; [|now apply sks_deriv|].
  - sysunf; allidx; ring.
  - conn; field.
Qed.
Lemma mono_conn P X : 0 < X.[1] -> (forall r, 0 < r -> 0 < mp_alpha P X.[0] r) ->
  (forall t, 0 < mp_alpha P t X.[1]) ->
  profiles_differentiable P X.[0] X.[1] -> connection_at (MonopoleSph P) X.
Proof.
  intros H1 H2 H3 H4. apply conn_from_derivs; [|now apply mono_deriv|].
  - sysunf; allidx; ring.
  - sysunf. reflexivity.
Qed.

(** ** Coords *)
Lemma minkowski_flat X : flat_at Minkowski X.
Proof.
  exists delta. split.
  - intros m s Hm Hs. sysunf. idx; unfold is_partial, delta; cbn; try constpart;
      auto_derive; trivial; ring.
  - intros mu nu Hm Hn. sysunf. idx; tensor; unfold eta; cbn; ring.
Qed.
Lemma boosted_flat vx vy vz X : flat_at (BoostedMinkowski vx vy vz) X.
Proof.
  exists (rows4 (row4 1 0 0 0) (row4 vx 1 0 0) (row4 vy 0 1 0) (row4 vz 0 0 1)). split.
  - intros m s Hm Hs. sysunf. idx; unfold is_partial; cbn; try constpart; auto_derive; trivial; ring.
  - intros mu nu Hm Hn. sysunf. idx; tensor; unfold eta; cbn; ring.
Qed.
Lemma sph_flat X : 0 < X.[1] -> flat_at SphericalMinkowski X.
Proof.
  intros Hr.
  exists (rows4 (row4 1 0 0 0)
    (row4 0 (sin X.[2] * cos X.[3]) (X.[1] * cos X.[2] * cos X.[3]) (- X.[1] * sin X.[2] * sin X.[3]))
    (row4 0 (sin X.[2] * sin X.[3]) (X.[1] * cos X.[2] * sin X.[3]) (X.[1] * sin X.[2] * cos X.[3]))
    (row4 0 (cos X.[2]) (- X.[1] * sin X.[2]) 0)). split.
  - intros m s Hm Hs. sysunf.
    cut (is_partial (fun Y => row4 Y.[0] (Y.[1] * sin Y.[2] * cos Y.[3]) (Y.[1] * sin Y.[2] * sin Y.[3])
           (Y.[1] * cos Y.[2]) m) s X (rows4 (row4 1 0 0 0)
    (row4 0 (sin X.[2] * cos X.[3]) (X.[1] * cos X.[2] * cos X.[3]) (- X.[1] * sin X.[2] * sin X.[3]))
    (row4 0 (sin X.[2] * sin X.[3]) (X.[1] * cos X.[2] * sin X.[3]) (X.[1] * sin X.[2] * cos X.[3]))
    (row4 0 (cos X.[2]) (- X.[1] * sin X.[2]) 0) m s)).
    { destruct (Nat.eq_dec s 1) as [->|Ns].
      - apply is_partial_ext_pos; [assumption|]. intros h Hh. unfold sph_Coords.
        rewrite (Rabs_pos_eq (moved X 1 h 1%nat)); [reflexivity|]. cbn. lra.
      - apply is_partial_ext. intros h. unfold sph_Coords.
        rewrite (Rabs_pos_eq (moved X s h 1%nat)); [reflexivity|]. unfold moved.
        destruct (Nat.eqb_spec 1 s); [congruence|lra]. }
    idx; unfold is_partial; cbn; try constpart; auto_derive; trivial; ring.
  - intros mu nu Hm Hn. sysunf. pose proof (sc1 X.[2]) as S2. pose proof (sc1 X.[3]) as S3.
    idx; tensor; unfold eta; cbn; ring [S2 S3].
Qed.
