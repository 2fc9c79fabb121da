(** C40: the geometric source terms are those of covariant energy-momentum conservation. *)
From Coq Require Import Reals Arith Lia Lra Psatz.
From Coquelicot Require Import Coquelicot.
From Verif.Spec Require Import Tensor GeomSpec SystemSpec Relativity GRMHD Conservation.
From Verif.Model Require Import Num Robust Geometry Relativity Prim2Con FluidSource.
From Verif.Proofs Require Import NumR TensorTac LinearAlgebraProofs GeomBase AdmProofs RelProofs RelativityProofs Prim2ConProofs
  GeomSystems GeomDeriv SourceProofs.
From Verif.Properties Require Import P_GRMHD.
Local Open Scope R_scope.

(** the tensor handed to the source terms is T^{mu nu} of ideal GRMHD *)
Theorem C40_stress_energy : forall S X rho uu P (vp bf : vec) mu nu, consistent_at S X -> (mu < 4)%nat -> (nu < 4)%nat ->
  let u := GetFourVelocity vp (Metric S X) (Lapse S X) (ContravariantShift S X) in
  let b := comoving_field (SpacetimeMetric S X) (GetLorentzFactor vp (Metric S X)) u bf in
  StressEnergyTensorCon S X rho uu P vp bf mu nu = Tcon (SpacetimeMetric S X) (SpacetimeMetricInverse S X) rho uu P u b mu nu.
Proof.
  intros S X rho uu P vp bf mu nu H Hm Hn u b. unfold consistent_at in H.
  pose proof (adm_tpo _ _ _ _ _ _ _ _ H) as T3. pose proof (adm_lapse_pos _ _ _ _ _ _ _ _ H) as ap.
  set (gamma := Metric S X) in *. set (W := GetLorentzFactor vp gamma) in *.
  pose proof (lorentz_ge1 _ _ _ _ vp T3) as W1. fold W in W1.
  unfold StressEnergyTensorCon, GetTmunuTerms. fold gamma. fold W.
  assert (E0 : gratio W (Rabs (Lapse S X)) = W / Lapse S X) by (rewrite (Rabs_pos_eq (Lapse S X)) by lra; apply gratio_nz; lra).
  rewrite E0, (gratio_nz 1 W) by lra.
  assert (Bv : sum3 (fun ii => sum3 (fun jj => bf ii * (vp jj / W) * gamma ii jj)) = dot3 gamma bf vp / W) by (unfold dot3, sum3; field; lra).
  assert (Bs : sum3 (fun ii => sum3 (fun jj => bf ii * bf jj * gamma ii jj)) = dot3 gamma bf bf) by (unfold dot3, sum3; ring).
  rewrite Bv, Bs.
  assert (U : forall k, (match k with O => W / Lapse S X | Datatypes.S l' => vp l' - W / Lapse S X * ContravariantShift S X l' end) = u k).
  { intros k. unfold u, GetFourVelocity. fold W. rewrite E0. destruct k; reflexivity. }
  assert (BB : forall k, (k < 4)%nat -> (match k with O => W / Lapse S X * (dot3 gamma bf vp / W)
      | Datatypes.S l' => 1 / W * (bf l' + Lapse S X * (W / Lapse S X * (dot3 gamma bf vp / W)) * (match k with O => W / Lapse S X | Datatypes.S l' => vp l' - W / Lapse S X * ContravariantShift S X l' end)) end) = b k).
  { intros k Hk. unfold b, comoving_field. assert (SU : dot4 (SpacetimeMetric S X) (spatial4 bf) u = dot3 gamma bf vp) by exact (spatial_u _ _ _ _ vp T3 bf). rewrite SU, U. destruct k as [|l'].
    - rewrite <- U. cbn [spatial4]. field. lra.
    - cbn [spatial4]. field. split; lra. }
  rewrite !BB by assumption. rewrite !U. unfold Tcon.
  assert (Q : dot3 gamma bf bf * (1 / W) * (1 / W) + dot3 gamma bf vp / W * (dot3 gamma bf vp / W) = bsquared (SpacetimeMetric S X) b).
  { unfold bsquared, b. pose proof (b_b _ _ _ _ vp T3 bf) as K. fold gamma W in K. cbv zeta in K. fold u in K. rewrite K. field. lra. }
  rewrite Q. field.
Qed.
Print Assumptions C40_stress_energy.

(** hypotheses on the coordinate system at the cell: C10 and C11 *)
Definition smooth_at (S : System) (X : point) : Prop :=
  consistent_at S X /\ derivatives_at S X /\ (forall Y, symmetric4 (SpacetimeMetric S Y)) /\
  (forall s, (s < 4)%nat -> locally (X s) (fun h => 0 < Lapse S (moved X s h))).

Lemma smooth_volume S X : smooth_at S X -> det4 (SpacetimeMetric S X) < 0 /\ volume (SpacetimeMetric S) X = DetG S X.
Proof.
  intros (H & _). destruct (adm_det4 _ _ _ _ _ _ _ _ H) as [P E]. split; [nra|].
  unfold volume. rewrite <- E. rewrite sqrt_square by lra. reflexivity.
Qed.

(** For every smooth symmetric tensor field: the momentum source is what turns the covariant
    divergence into the divergence of the densitised momentum current.  In particular for
    nabla_mu T^{mu nu} = 0 the code's source is d_mu (sqrt(-g) T^mu_l). *)
Theorem C40_momentum : forall S X (T : point -> mat) l, smooth_at S X -> symmetric4 (T X) -> differentiable_at T X -> (l < 3)%nat ->
  flat_divergence (mixed_density (SpacetimeMetric S) T (Datatypes.S l)) X =
  source_momentum S X (T X) l +
  DetG S X * sum4 (fun k => SpacetimeMetric S X k (Datatypes.S l) * divergence (SpacetimeMetric S) (SpacetimeMetricInverse S X) T X k).
Proof.
  intros S X T l Hs Sy D Hl. pose proof (smooth_volume S X Hs) as [Dn V]. destruct Hs as (H & [Hd _] & Hg & _).
  pose proof (adm_inv4 _ _ _ _ _ _ _ _ H) as I.
  rewrite (mixed_div (SpacetimeMetric S) (SpacetimeMetricInverse S X) X (MetricDerivative S X) Hg I Dn Hd T D (Datatypes.S l)) by lia.
  rewrite V, Rmult_plus_distr_l. f_equal. unfold source_momentum, SetConnectionCoeffFromMetricDerivs, gam1.
  rewrite (Nat.add_comm l 1). cbn [Nat.add]. f_equal. pose proof (dg_sym _ _ _ Hg Hd) as Sd.
  apply sum4_ext'. intros m Hm. apply sum4_ext'. intros n Hn. f_equal.
  rewrite (Sd n (Datatypes.S l) m), (Sd m (Datatypes.S l) n), (Sd n m (Datatypes.S l)) by lia. field.
Qed.
Print Assumptions C40_momentum.

(** Valencia energy source: the same for the energy measured by the normal observers *)
Theorem C40_energy_valencia : forall S X (T : point -> mat), smooth_at S X -> symmetric4 (T X) -> differentiable_at T X ->
  flat_divergence (normal_density (SpacetimeMetric S) (Lapse S) T) X =
  source_energy true S X (T X) + DetG S X * (Lapse S X * divergence (SpacetimeMetric S) (SpacetimeMetricInverse S X) T X 0).
Proof.
  intros S X T Hs Sy D. pose proof (smooth_volume S X Hs) as [Dn V]. destruct Hs as (H & [Hd Ha] & Hg & Hp).
  pose proof (adm_inv4 _ _ _ _ _ _ _ _ H) as I. pose proof (adm_lapse_pos _ _ _ _ _ _ _ _ H) as ap.
  rewrite (normal_div (SpacetimeMetric S) (SpacetimeMetricInverse S X) X (MetricDerivative S X) Hg I Dn Hd T D (Lapse S) (GradLnAlpha S X) ap Ha Hp).
  rewrite V. unfold source_energy. rewrite (gratio_nz 1) by nra.
  assert (E : sum4 (fun m => sum4 (fun n => T X m n * sum4 (fun r => (match r with O => - (1 / (Lapse S X * Lapse S X)) | Datatypes.S r' => 1 / (Lapse S X * Lapse S X) * ContravariantShift S X r' end) * SetConnectionCoeffFromMetricDerivs (MetricDerivative S X) r m n))) =
    sum4 (fun m => sum4 (fun n => christoffel2 (SpacetimeMetric S) (SpacetimeMetricInverse S X) X 0 m n * T X m n))).
  { apply sum4_ext'. intros m Hm. apply sum4_ext'. intros n Hn. rewrite Rmult_comm. f_equal.
    rewrite (chr2_val _ _ _ _ Hd) by assumption. apply sum4_ext'. intros r Hr. f_equal.
    - rewrite (adm_inverse _ _ _ _ _ _ _ _ H 0 r) by lia. destruct r as [|r]; cbn [adm_inv_mat]; [reflexivity|]. field. lra.
    - unfold SetConnectionCoeffFromMetricDerivs, gam1. pose proof (dg_sym _ _ _ Hg Hd) as Sd.
      rewrite (Sd m r n), (Sd n r m) by lia. field. }
  rewrite E. ring.
Qed.
Print Assumptions C40_energy_valencia.

(** covariant energy source *)
Theorem C40_energy_covariant : forall S X (T : point -> mat), smooth_at S X -> symmetric4 (T X) -> differentiable_at T X ->
  flat_divergence (mixed_density (SpacetimeMetric S) T 0) X =
  source_energy false S X (T X) +
  DetG S X * sum4 (fun k => SpacetimeMetric S X k 0%nat * divergence (SpacetimeMetric S) (SpacetimeMetricInverse S X) T X k).
Proof.
  intros S X T Hs Sy D. pose proof (smooth_volume S X Hs) as [Dn V]. destruct Hs as (H & [Hd _] & Hg & _).
  pose proof (adm_inv4 _ _ _ _ _ _ _ _ H) as I.
  rewrite (mixed_div (SpacetimeMetric S) (SpacetimeMetricInverse S X) X (MetricDerivative S X) Hg I Dn Hd T D 0%nat) by lia.
  rewrite V, Rmult_plus_distr_l. f_equal. unfold source_energy, SetConnectionCoeffFromMetricDerivs, gam1. f_equal.
  pose proof (dg_sym _ _ _ Hg Hd) as Sd. set (dg := MetricDerivative S X) in *. clearbody dg. unfold sum4.
  rewrite (Sy 1 0)%nat, (Sy 2 0)%nat, (Sy 3 0)%nat, (Sy 2 1)%nat, (Sy 3 1)%nat, (Sy 3 2)%nat by lia.
  rewrite !(Sd 1 0)%nat, !(Sd 2 0)%nat, !(Sd 3 0)%nat, !(Sd 2 1)%nat, !(Sd 3 1)%nat, !(Sd 3 2)%nat by lia. field.
Qed.
Print Assumptions C40_energy_covariant.

(** closed form: half the tensor contracted with the derivative of the metric; so a
    coordinate the metric does not depend on has a conserved momentum (energy) *)
Theorem C40_closed_form : forall S X (T : mat), smooth_at S X -> symmetric4 T ->
  (forall l, (l < 3)%nat -> source_momentum S X T l =
     DetG S X * (sum4 (fun m => sum4 (fun n => T m n * partial (fun Y => SpacetimeMetric S Y m n) (Datatypes.S l) X)) / 2)) /\
  source_energy false S X T = DetG S X * (sum4 (fun m => sum4 (fun n => T m n * partial (fun Y => SpacetimeMetric S Y m n) 0 X)) / 2) /\
  (forall l, (l < 3)%nat -> ignorable (SpacetimeMetric S) (Datatypes.S l) X -> source_momentum S X T l = 0) /\
  (ignorable (SpacetimeMetric S) 0 X -> source_energy false S X T = 0).
Proof.
  intros S X T Hs Sy. destruct Hs as (H & [Hd _] & Hg & _).
  pose proof (dg_sym _ _ _ Hg Hd) as Sd. pose proof (pdg _ _ _ Hd) as Pd.
  assert (M : forall l, (l < 3)%nat -> source_momentum S X T l =
     DetG S X * (sum4 (fun m => sum4 (fun n => T m n * partial (fun Y => SpacetimeMetric S Y m n) (Datatypes.S l) X)) / 2)).
  { intros l Hl. unfold source_momentum, SetConnectionCoeffFromMetricDerivs. rewrite (Nat.add_comm l 1). cbn [Nat.add]. f_equal.
    set (dg := MetricDerivative S X) in *. clearbody dg. unfold sum4. rewrite !Pd by lia.
    rewrite (Sy 1 0)%nat, (Sy 2 0)%nat, (Sy 3 0)%nat, (Sy 2 1)%nat, (Sy 3 1)%nat, (Sy 3 2)%nat by lia.
    rewrite !(Sd 1 0)%nat, !(Sd 2 0)%nat, !(Sd 3 0)%nat, !(Sd 2 1)%nat, !(Sd 3 1)%nat, !(Sd 3 2)%nat by lia. field. }
  assert (E : source_energy false S X T = DetG S X * (sum4 (fun m => sum4 (fun n => T m n * partial (fun Y => SpacetimeMetric S Y m n) 0 X)) / 2)).
  { unfold source_energy, SetConnectionCoeffFromMetricDerivs. f_equal.
    set (dg := MetricDerivative S X) in *. clearbody dg. unfold sum4. rewrite !Pd by lia.
    rewrite (Sy 1 0)%nat, (Sy 2 0)%nat, (Sy 3 0)%nat, (Sy 2 1)%nat, (Sy 3 1)%nat, (Sy 3 2)%nat by lia.
    rewrite !(Sd 1 0)%nat, !(Sd 2 0)%nat, !(Sd 3 0)%nat, !(Sd 2 1)%nat, !(Sd 3 1)%nat, !(Sd 3 2)%nat by lia. field. }
  split; [exact M|]. split; [exact E|]. split.
  - intros l Hl Ig. rewrite M by exact Hl. unfold sum4. rewrite !(fun m n Hm Hn => is_partial_unique _ _ _ _ (Ig m n Hm Hn)) by lia. field.
  - intros Ig. rewrite E. unfold sum4. rewrite !(fun m n Hm Hn => is_partial_unique _ _ _ _ (Ig m n Hm Hn)) by lia. field.
Qed.
Print Assumptions C40_closed_form.

(** Put together with C17: for primitive fields whose stress-energy is covariantly conserved,
    the conserved variables stored by the code change at the rate given by the divergence of
    the current and the code's source terms. *)
Record PrimField := { f_rho : point -> R; f_u : point -> R; f_p : point -> R; f_v : point -> vec; f_b : point -> vec; f_ye : point -> R; f_g1 : point -> R }.
Definition T_of (S : System) (q : PrimField) (Y : point) : mat := StressEnergyTensorCon S Y (f_rho q Y) (f_u q Y) (f_p q Y) (f_v q Y) (f_b q Y).
Definition stored (valencia : bool) (S : System) (q : PrimField) (Y : point) : Cons :=
  p2c valencia (f_rho q Y) (f_v q Y) (f_b q Y) (f_u q Y) (f_ye q Y) (f_p q Y) (f_g1 q Y) (SpacetimeMetric S Y) (MetricInverse S Y) (ContravariantShift S Y) (Lapse S Y) (DetGamma S Y).
Lemma T_of_sym S q X : consistent_at S X -> symmetric4 (T_of S q X).
Proof.
  intros H mu nu Hm Hn. unfold T_of. rewrite !(C40_stress_energy S X) by assumption. unfold Tcon.
  assert (Sg : SpacetimeMetricInverse S X mu nu = SpacetimeMetricInverse S X nu mu).
  { unfold consistent_at in H. rewrite !(adm_inverse _ _ _ _ _ _ _ _ H) by assumption.
    pose proof (inverse3_symmetric _ _ (adm_gamma_sym _ _ _ _ _ _ _ _ H) (adm_inv3 _ _ _ _ _ _ _ _ H)) as S3.
    destruct mu as [|m], nu as [|n]; cbn [adm_inv_mat]; try reflexivity. rewrite (S3 m n) by lia. ring. }
  rewrite Sg. ring.
Qed.
Theorem C40_evolution : forall S X q, smooth_at S X -> (forall h, consistent_at S (moved X 0 h)) -> differentiable_at (T_of S q) X ->
  (forall nu, (nu < 4)%nat -> divergence (SpacetimeMetric S) (SpacetimeMetricInverse S X) (T_of S q) X nu = 0) ->
  let src := CalculateFluidSourceTerms true S X (f_rho q X) (f_u q X) (f_p q X) (f_v q X) (f_b q X) in
  (forall l, (l < 3)%nat -> partial (fun Y => cS (stored true S q Y) l) 0 X =
     fst src l - sum3 (fun i => partial (fun Y => mixed_density (SpacetimeMetric S) (T_of S q) (Datatypes.S l) Y (Datatypes.S i)) (Datatypes.S i) X)) /\
  partial (fun Y => cD (stored true S q Y) + ctau (stored true S q Y)) 0 X =
     snd src - sum3 (fun i => partial (fun Y => normal_density (SpacetimeMetric S) (Lapse S) (T_of S q) Y (Datatypes.S i)) (Datatypes.S i) X).
Proof.
  intros S X q Hs Hc D Z src. pose proof Hs as (H & _ & Hg & _).
  assert (Vh : forall h, volume (SpacetimeMetric S) (moved X 0 h) = DetG S (moved X 0 h)).
  { intros h. destruct (adm_det4 _ _ _ _ _ _ _ _ (Hc h)) as [P E]. unfold volume. rewrite <- E. apply sqrt_square. lra. }
  split.
  - intros l Hl. pose proof (C40_momentum S X (T_of S q) l Hs (T_of_sym S q X H) D Hl) as M.
    assert (Z0 : sum4 (fun k => SpacetimeMetric S X k (Datatypes.S l) * divergence (SpacetimeMetric S) (SpacetimeMetricInverse S X) (T_of S q) X k) = 0)
      by (unfold sum4; rewrite !Z by lia; ring).
    rewrite Z0 in M. unfold flat_divergence, sum4 in M. fold (T_of S q) in src.
    change (fst src l) with (source_momentum S X (T_of S q X) l).
    assert (E : partial (fun Y => cS (stored true S q Y) l) 0 X = partial (fun Y => mixed_density (SpacetimeMetric S) (T_of S q) (Datatypes.S l) Y 0%nat) 0 X).
    { apply Derive_ext. intros h. set (Y := moved X 0 h). pose proof (Hc h) as HY. fold Y in HY.
      unfold stored. destruct (C17_conserved _ _ _ _ _ _ _ _ HY (f_rho q Y) (f_v q Y) (f_b q Y) (f_u q Y) (f_ye q Y) (f_p q Y) (f_g1 q Y) true) as (_ & ES & _).
      rewrite ES by exact Hl. unfold mixed_density. pose proof (Vh h) as VY. fold Y in VY. rewrite VY. f_equal.
      rewrite (C17_spec_mixed _ _ _ _ _ _ _ _ _ (Hg Y) (adm_inv4 _ _ _ _ _ _ _ _ HY)) by lia.
      apply sum4_ext'. intros k Hk. f_equal. unfold T_of. symmetry. apply C40_stress_energy; [exact HY|lia|lia]. }
    rewrite E. unfold sum3. lra.
  - pose proof (C40_energy_valencia S X (T_of S q) Hs (T_of_sym S q X H) D) as M. rewrite Z in M by lia.
    unfold flat_divergence, sum4 in M. change (snd src) with (source_energy true S X (T_of S q X)).
    assert (E : partial (fun Y => cD (stored true S q Y) + ctau (stored true S q Y)) 0 X = partial (fun Y => normal_density (SpacetimeMetric S) (Lapse S) (T_of S q) Y 0%nat) 0 X).
    { apply Derive_ext. intros h. set (Y := moved X 0 h). pose proof (Hc h) as HY. fold Y in HY.
      unfold stored. destruct (C17_conserved _ _ _ _ _ _ _ _ HY (f_rho q Y) (f_v q Y) (f_b q Y) (f_u q Y) (f_ye q Y) (f_p q Y) (f_g1 q Y) true) as (ED & _ & _ & ET & _).
      rewrite ED, ET. cbn [normal_density]. unfold normal_density. pose proof (Vh h) as VY. fold Y in VY. rewrite VY.
      unfold T_of. rewrite (C40_stress_energy S Y) by (first [exact HY|lia]). ring. }
    rewrite E. unfold sum3. lra.
Qed.
Print Assumptions C40_evolution.

(** gas at rest at pressure P in spherical coordinates: the radial source is the pressure on
    the sides of the wedge, 2 P r sin(theta) *)
Definition ptS (t r th ph : R) : vec := row4 t r th ph.
Example C40_nonvacuous : forall rho uu P, let X := ptS 0 4 (PI / 2) 0 in
  smooth_at SphericalMinkowski X /\
  source_momentum SphericalMinkowski X (StressEnergyTensorCon SphericalMinkowski X rho uu P (fun _ => 0) (fun _ => 0)) 0 = 2 * P * 4.
Proof.
  intros rho uu P X.
  assert (s1 : sin (X 2%nat) = 1) by (cbn; apply sin_PI2).
  assert (SM : smooth_at SphericalMinkowski X).
  { split; [apply sphmink_consistent; [cbn; lra|rewrite s1; lra]|]. split; [apply sphmink_deriv; cbn; lra|]. split.
    - intros Y mu nu Hm Hn. idx; reflexivity.
    - intros s Hs. apply filter_forall. intros h. cbn. lra. }
  split; [exact SM|].
  assert (L : GetLorentzFactor (fun _ => 0) (Metric SphericalMinkowski X) = 1).
  { unfold GetLorentzFactor, sum3. match goal with |- sqrt ?a = 1 => replace a with 1 by ring end. apply sqrt_1. }
  destruct SM as (H & _).
  set (T := StressEnergyTensorCon SphericalMinkowski X rho uu P (fun _ => 0) (fun _ => 0)).
  assert (T22 : T 2%nat 2%nat = P / 16).
  { unfold T, StressEnergyTensorCon, GetTmunuTerms. rewrite L. unfold sum3. cbn.
    rewrite (gratio_nz 1 1), (gratio_nz 1 (4 * 4)), (gratio_nz 1 (Rabs 1)) by (rewrite ?Rabs_R1; lra). rewrite ?Rabs_R1. field. }
  assert (T33 : T 3%nat 3%nat = P / 16).
  { unfold T, StressEnergyTensorCon, GetTmunuTerms. rewrite L. unfold sum3. cbn. rewrite sin_PI2.
    rewrite (gratio_nz 1 1), (gratio_nz 1 (4 * 4 * 1 * 1)), (gratio_nz 1 (Rabs 1)) by (rewrite ?Rabs_R1; lra). rewrite ?Rabs_R1. field. }
  clearbody T. unfold source_momentum, SetConnectionCoeffFromMetricDerivs, sum4. cbn. rewrite sin_PI2, Rabs_R1, (Rabs_pos_eq 4), T22, T33 by lra. field.
Qed.
Print Assumptions C40_nonvacuous.
