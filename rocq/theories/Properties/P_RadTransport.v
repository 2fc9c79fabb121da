(** C42: transport of the radiation moments. *)
From Coq Require Import Reals Arith Lia Lra Psatz Bool FunctionalExtensionality.
From Flocq Require Import Core.
From Coquelicot Require Import Coquelicot.
From Verif.Spec Require Import Tensor GeomSpec SystemSpec Relativity Conservation RadSpec RadTransportSpec.
From Verif.Model Require Import Num Robust Geometry LinearAlgebra Relativity RadClosure FluidSource RadTransport.
From Verif.Proofs Require Import NumR RobustProofs TensorTac LinearAlgebraProofs GeomBase AdmProofs RelProofs RelativityProofs GeomSystems GeomDeriv SourceProofs RadProofs FlatWitness.
From Verif.Properties Require Import P_Source P_RadClosure.
Local Open Scope R_scope.

(** *** the tensor built for the geometric source is the stress-energy of the radiation *)
(** energy, momentum and pressure of the normal observers determine a symmetric tensor, and
    the code puts it together correctly, in every spacetime *)
Theorem C42_assemble : forall alpha beta g ginv gamma gi sg sgg (T : mat) mu nu,
  adm_consistent alpha beta g ginv gamma gi sg sgg -> symmetric4 T -> (mu < 4)%nat -> (nu < 4)%nat ->
  assemble alpha beta (eulerian_energy alpha T) (fun i => sum3 (fun j => gi i j * eulerian_momentum alpha g T j)) (fun i j => eulerian_pressure alpha beta T i j) mu nu = T mu nu.
Proof.
  intros alpha beta g ginv gamma gi sg sgg T mu nu A Sy Hm Hn.
  pose proof (adm_lapse_pos _ _ _ _ _ _ _ _ A) as ap.
  assert (F : forall i, (i < 3)%nat -> sum3 (fun j => gi i j * eulerian_momentum alpha g T j) = alpha * (T 0%nat (S i) + beta i * T 0%nat 0%nat)).
  { intros i Hi. transitivity (alpha * sum3 (fun j => lower3 gamma (hat beta (T 0%nat)) j * gi i j)).
    - unfold sum3. rewrite !(momentum_low _ _ _ _ _ _ _ _ A) by lia. ring.
    - rewrite (raise_low _ _ _ _ _ _ _ _ A) by exact Hi. reflexivity. }
  assert (E : eulerian_energy alpha T = alpha * (alpha * T 0%nat 0%nat)) by (unfold eulerian_energy, sum4, normal_cov; ring).
  assert (P : forall i j, (i < 3)%nat -> (j < 3)%nat -> eulerian_pressure alpha beta T i j = T (S i) (S j) + beta i * T 0%nat (S j) + beta j * T (S i) 0%nat + beta i * beta j * T 0%nat 0%nat).
  { intros i j Hi Hj. unfold eulerian_pressure, proj, sum4, normal_cov, delta. idx; cbn [Nat.eqb]; field; lra. }
  unfold assemble. rewrite E.
  destruct mu as [|i], nu as [|j].
  - field. lra.
  - rewrite F by lia. field. lra.
  - rewrite F by lia. rewrite (Sy (S i) 0%nat) by lia. field. lra.
  - rewrite !F, P by lia. rewrite (Sy (S i) 0%nat) by lia. field. lra.
Qed.
Print Assumptions C42_assemble.

(** the radiation sources are the Valencia sources of C40 for that tensor *)
Lemma source_agrees S X T : consistent_at S X ->
  fst (radiation_source S X T) = source_energy true S X T /\ forall l, snd (radiation_source S X T) l = source_momentum S X T l.
Proof.
  intros H. pose proof (adm_lapse_pos _ _ _ _ _ _ _ _ H) as ap. pose proof (adm_dets _ _ _ _ _ _ _ _ H) as Dt. unfold radiation_source. cbn [fst snd]. split.
  - unfold source_energy. rewrite Dt, (gratio_nz 1) by nra.
    assert (E : forall m n, sum4 (fun r => SpacetimeMetricInverse S X 0%nat r * SetConnectionCoeffFromMetricDerivs (MetricDerivative S X) r m n) =
      sum4 (fun r => (match r with O => - (1 / (Lapse S X * Lapse S X)) | Datatypes.S r' => 1 / (Lapse S X * Lapse S X) * ContravariantShift S X r' end) * SetConnectionCoeffFromMetricDerivs (MetricDerivative S X) r m n)).
    { intros m n. apply sum4_ext'. intros r Hr. f_equal. rewrite (adm_inverse _ _ _ _ _ _ _ _ H 0 r) by lia. destruct r; cbn [adm_inv_mat]; field; lra. }
    assert (TG : sum4 (fun m => sum4 (fun n => T m n * sum4 (fun r => SpacetimeMetricInverse S X 0%nat r * SetConnectionCoeffFromMetricDerivs (MetricDerivative S X) r m n))) =
      sum4 (fun m => sum4 (fun n => T m n * sum4 (fun r => (match r with O => - (1 / (Lapse S X * Lapse S X)) | Datatypes.S r' => 1 / (Lapse S X * Lapse S X) * ContravariantShift S X r' end) * SetConnectionCoeffFromMetricDerivs (MetricDerivative S X) r m n)))).
    { apply sum4_ext'. intros m _. apply sum4_ext'. intros n _. rewrite E. reflexivity. }
    rewrite TG. ring.
  - intros l. unfold source_momentum. rewrite Dt. reflexivity.
Qed.

(** *** the balance laws: for every smooth radiation field T with nabla T = 0 in every smooth
    spacetime, the densities of E and F change by the code's sources minus the divergence of
    the fluxes alpha F^i - beta^i E and alpha P^i_l - beta^i F_l *)
Definition near (S : System) (X : point) : Prop :=
  forall s, (s < 4)%nat -> locally (X s) (fun h => consistent_at S (moved X s h) /\ symmetric4 (SpacetimeMetric S (moved X s h))).
Definition eulerian_tensor (S : System) (X : point) (T : mat) : mat :=
  assemble (Lapse S X) (ContravariantShift S X) (eulerian_energy (Lapse S X) T)
    (fun i => sum3 (fun j => MetricInverse S X i j * eulerian_momentum (Lapse S X) (SpacetimeMetric S X) T j)) (fun i j => eulerian_pressure (Lapse S X) (ContravariantShift S X) T i j).
Lemma source_ext S X T T' : (forall m n, (m < 4)%nat -> (n < 4)%nat -> T m n = T' m n) -> fst (radiation_source S X T) = fst (radiation_source S X T') /\
  forall l, snd (radiation_source S X T) l = snd (radiation_source S X T') l.
Proof.
  intros E. unfold radiation_source. cbn [fst snd]. split.
  - apply f_equal. apply f_equal2; apply sum4_ext'; intros m Hm; [|apply sum4_ext'; intros n Hn]; rewrite E by (assumption || lia); reflexivity.
  - intros l. apply f_equal. apply sum4_ext'; intros m Hm. apply sum4_ext'; intros n Hn. rewrite E by assumption. reflexivity.
Qed.
Lemma eulerian_tensor_val S X T mu nu : consistent_at S X -> symmetric4 T -> (mu < 4)%nat -> (nu < 4)%nat -> eulerian_tensor S X T mu nu = T mu nu.
Proof. intros H Sy Hm Hn. exact (C42_assemble _ _ _ _ _ _ _ _ T mu nu H Sy Hm Hn). Qed.
Lemma vol_near S X : consistent_at S X -> volume (SpacetimeMetric S) X = Lapse S X * DetGamma S X.
Proof. intros H. destruct (adm_det4 _ _ _ _ _ _ _ _ H) as [P E]. unfold volume. rewrite <- E, sqrt_square by lra. exact (adm_dets _ _ _ _ _ _ _ _ H). Qed.
Lemma normal_time S X (T : point -> mat) : consistent_at S X -> normal_density (SpacetimeMetric S) (Lapse S) T X 0%nat = DetGamma S X * eulerian_energy (Lapse S X) (T X).
Proof. intros H. unfold normal_density. rewrite (vol_near S X H). unfold eulerian_energy, sum4, normal_cov. ring. Qed.
Lemma normal_space S X (T : point -> mat) i : consistent_at S X -> symmetric4 (T X) -> (i < 3)%nat -> normal_density (SpacetimeMetric S) (Lapse S) T X (Datatypes.S i) =
  DetGamma S X * energy_flux (Lapse S X) (ContravariantShift S X) (SpacetimeMetric S X) (MetricInverse S X) (T X) i.
Proof.
  intros H Sy Hi. pose proof (adm_lapse_pos _ _ _ _ _ _ _ _ H) as ap. unfold normal_density. rewrite (vol_near S X H).
  unfold energy_flux. set (alpha := Lapse S X) in *. set (beta := ContravariantShift S X) in *.
  assert (F : sum3 (fun j => MetricInverse S X i j * eulerian_momentum alpha (SpacetimeMetric S X) (T X) j) = alpha * (T X 0%nat (Datatypes.S i) + beta i * T X 0%nat 0%nat)).
  { transitivity (alpha * sum3 (fun j => lower3 (Metric S X) (hat beta (T X 0%nat)) j * MetricInverse S X i j)).
    - unfold sum3. rewrite !(momentum_low _ _ _ _ _ _ _ _ H) by lia. unfold alpha, beta. ring.
    - rewrite (raise_low _ _ _ _ _ _ _ _ H) by exact Hi. reflexivity. }
  rewrite F, (Sy (Datatypes.S i) 0%nat) by lia. unfold eulerian_energy, sum4, normal_cov. ring.
Qed.
Lemma mixed_time S X (T : point -> mat) l : consistent_at S X -> (l < 3)%nat -> mixed_density (SpacetimeMetric S) T (Datatypes.S l) X 0%nat =
  DetGamma S X * eulerian_momentum (Lapse S X) (SpacetimeMetric S X) (T X) l.
Proof. intros H Hl. unfold mixed_density. rewrite (vol_near S X H). unfold eulerian_momentum, sum4, normal_cov. ring. Qed.
Lemma mixed_space S X (T : point -> mat) l i : consistent_at S X -> symmetric4 (T X) -> (l < 3)%nat -> (i < 3)%nat -> mixed_density (SpacetimeMetric S) T (Datatypes.S l) X (Datatypes.S i) =
  DetGamma S X * momentum_flux (Lapse S X) (ContravariantShift S X) (SpacetimeMetric S X) (Metric S X) (T X) i l.
Proof.
  intros H Sy Hl Hi. pose proof (adm_lapse_pos _ _ _ _ _ _ _ _ H) as ap. unfold mixed_density. rewrite (vol_near S X H).
  unfold momentum_flux. rewrite (momentum_low _ _ _ _ _ _ _ _ H _ l Hl).
  pose proof (adm_tpo _ _ _ _ _ _ _ _ H) as T3.
  assert (P : forall j, (j < 3)%nat -> eulerian_pressure (Lapse S X) (ContravariantShift S X) (T X) i j = T X (Datatypes.S i) (Datatypes.S j) + ContravariantShift S X i * T X 0%nat (Datatypes.S j) + ContravariantShift S X j * T X (Datatypes.S i) 0%nat + ContravariantShift S X i * ContravariantShift S X j * T X 0%nat 0%nat).
  { intros j Hj. unfold eulerian_pressure, proj, sum4, normal_cov, delta. clear Hl Sy T3. idx; cbn [Nat.eqb]; field; lra. }
  unfold sum3 at 1. rewrite !P by lia. unfold sum4.
  rewrite (tpo_sym _ _ _ _ T3 0 (Datatypes.S l))%nat by lia. rewrite (tpo_i0 _ _ _ _ T3 l Hl), !(tpo_ij _ _ _ _ T3) by lia.
  pose proof (adm_gamma_sym _ _ _ _ _ _ _ _ H) as Gs.
  rewrite (Gs 0 l)%nat, (Gs 1 l)%nat, (Gs 2 l)%nat by lia. rewrite (Sy (Datatypes.S i) 0%nat) by lia. unfold lower3, hat, sum3. ring.
Qed.
Lemma partial_ext_near S X (f h : vec -> R) s : near S X -> (s < 4)%nat -> (forall Y, consistent_at S Y -> f Y = h Y) -> partial f s X = partial h s X.
Proof. intros N Hs E. apply Derive_ext_loc. generalize (N s Hs). apply filter_imp. intros y [C _]. apply E, C. Qed.

Theorem C42_balance : forall S X (T : point -> mat), smooth_at S X -> near S X -> (forall Y, symmetric4 (T Y)) -> differentiable_at T X ->
  (forall nu, (nu < 4)%nat -> divergence (SpacetimeMetric S) (SpacetimeMetricInverse S X) T X nu = 0) ->
  let E Y := eulerian_energy (Lapse S Y) (T Y) in
  let F Y := eulerian_momentum (Lapse S Y) (SpacetimeMetric S Y) (T Y) in
  let src := radiation_source S X (assemble (Lapse S X) (ContravariantShift S X) (E X) (fun i => sum3 (fun j => MetricInverse S X i j * F X j))
               (fun i j => eulerian_pressure (Lapse S X) (ContravariantShift S X) (T X) i j)) in
  partial (fun Y => DetGamma S Y * E Y) 0 X = fst src -
    sum3 (fun i => partial (fun Y => DetGamma S Y * energy_flux (Lapse S Y) (ContravariantShift S Y) (SpacetimeMetric S Y) (MetricInverse S Y) (T Y) i) (Datatypes.S i) X) /\
  forall l, (l < 3)%nat -> partial (fun Y => DetGamma S Y * F Y l) 0 X = snd src l -
    sum3 (fun i => partial (fun Y => DetGamma S Y * momentum_flux (Lapse S Y) (ContravariantShift S Y) (SpacetimeMetric S Y) (Metric S Y) (T Y) i l) (Datatypes.S i) X).
Proof.
  intros S X T Hs N Sy D Z E F src. pose proof Hs as (H & _).
  assert (TX : forall m n, (m < 4)%nat -> (n < 4)%nat -> eulerian_tensor S X (T X) m n = T X m n) by (intros; apply eulerian_tensor_val; auto).
  destruct (source_ext S X _ _ TX) as [SE SM]. destruct (source_agrees S X (T X) H) as [AE AM].
  change (fst (radiation_source S X (eulerian_tensor S X (T X)))) with (fst src) in SE.
  assert (SM' : forall l, snd src l = snd (radiation_source S X (T X)) l) by exact SM.
  split.
  - rewrite SE, AE. pose proof (C40_energy_valencia S X T Hs (Sy X) D) as M. rewrite Z in M by lia. unfold flat_divergence, sum4 in M.
    rewrite (partial_ext_near S X _ _ 0 N ltac:(lia) (fun (Y : vec) C => normal_time S Y T C)) in M.
    unfold sum3.
    rewrite (partial_ext_near S X _ _ 1 N ltac:(lia) (fun (Y : vec) C => normal_space S Y T 0 C (Sy Y) ltac:(lia))) in M.
    rewrite (partial_ext_near S X _ _ 2 N ltac:(lia) (fun (Y : vec) C => normal_space S Y T 1 C (Sy Y) ltac:(lia))) in M.
    rewrite (partial_ext_near S X _ _ 3 N ltac:(lia) (fun (Y : vec) C => normal_space S Y T 2 C (Sy Y) ltac:(lia))) in M.
    unfold E. lra.
  - intros l Hl. rewrite SM', AM. pose proof (C40_momentum S X T l Hs (Sy X) D Hl) as M.
    assert (Z0 : sum4 (fun k => SpacetimeMetric S X k (Datatypes.S l) * divergence (SpacetimeMetric S) (SpacetimeMetricInverse S X) T X k) = 0)
      by (unfold sum4; rewrite !Z by lia; ring).
    rewrite Z0 in M. unfold flat_divergence, sum4 in M.
    rewrite (partial_ext_near S X _ _ 0 N ltac:(lia) (fun (Y : vec) C => mixed_time S Y T l C Hl)) in M.
    unfold sum3.
    rewrite (partial_ext_near S X _ _ 1 N ltac:(lia) (fun (Y : vec) C => mixed_space S Y T l 0 C (Sy Y) Hl ltac:(lia))) in M.
    rewrite (partial_ext_near S X _ _ 2 N ltac:(lia) (fun (Y : vec) C => mixed_space S Y T l 1 C (Sy Y) Hl ltac:(lia))) in M.
    rewrite (partial_ext_near S X _ _ 3 N ltac:(lia) (fun (Y : vec) C => mixed_space S Y T l 2 C (Sy Y) Hl ltac:(lia))) in M.
    unfold F. lra.
Qed.
Print Assumptions C42_balance.

(** *** the zone's source: stored moments of a radiation field give the sources of its tensor *)
Lemma stored_velocity : forall gamma vp, symmetric3 gamma -> positive_definite3 gamma ->
  let W := GetLorentzFactor vp gamma in
  1 <= W /\ W * W = 1 + dot3 gamma vp vp /\ lorentz_of gamma (fun i => vp i / W) W /\ (W <= 100 -> dot3 gamma (fun i => vp i / W) (fun i => vp i / W) <= 9999 / 10000).
Proof.
  intros gamma vp Gs Gp W. pose proof (pd_nonneg gamma Gp vp) as P.
  assert (W2 : W * W = 1 + dot3 gamma vp vp) by (unfold W, GetLorentzFactor; rewrite sqrt_sqrt; [reflexivity|unfold dot3 in P; lra]).
  assert (W0 : 0 <= W) by apply sqrt_pos. assert (W1 : 1 <= W) by nra.
  assert (E : dot3 gamma (fun i => vp i / W) (fun i => vp i / W) = dot3 gamma vp vp / (W * W)) by (unfold dot3, sum3; field; lra).
  split; [exact W1|]. split; [exact W2|]. split.
  - split; [lra|]. rewrite E. replace (dot3 gamma vp vp) with (W * W - 1) by lra. field. lra.
  - intros W100. rewrite E. replace (dot3 gamma vp vp) with (W * W - 1) by lra. apply (Rmult_le_reg_r (W * W)); [nra|]. unfold Rdiv at 1. rewrite Rmult_assoc, Rinv_l by nra. nra.
Qed.
(** the closure computes the projection of the anisotropic pressure Pi *)
Definition closes (pi_of : PiOf) (alpha : R) (beta : vec) (g gamma : mat) (v : vec) (rs : Strategy) (J : R) (H : vec) (Pi : mat) : Prop :=
  forall i j, (i < 3)%nat -> (j < 3)%nat -> pi_of (mkClosure v gamma alpha rs) J (fun k => low g H (S k)) i j = eulerian_pressure alpha beta Pi i j.
Lemma closes_eddington alpha beta g gamma v rs J H : closes pi_eddington alpha beta g gamma v rs J H (fun _ _ => 0).
Proof. intros i j _ _. unfold pi_eddington, eulerian_pressure, sum4. ring. Qed.
Lemma closes_m1 alpha beta g ginv gamma gi sg sgg v W rs J H : adm_consistent alpha beta g ginv gamma gi sg sgg -> lorentz_of gamma v W -> dot3 gamma v v <= 9999 / 10000 ->
  let u := moving alpha beta W v in transverse g u H -> 0 < J -> 0 < dot4 g H H ->
  let Pi := eddington_tensor ginv u (closure (Rmin 1 (flux_factor g J H))) (direction g H) in
  transverse2 g u Pi /\ closes pi_m1 alpha beta g gamma v rs J H Pi.
Proof.
  intros A L Hv u HH Jp Hp Pi. destruct (C28_m1_tensor _ _ _ _ _ _ _ _ v W rs J H A L Hv HH Jp) as (_ & K & _). destruct (K Hp) as (K1 & _ & K2).
  split; [exact K1|]. intros i j Hi Hj. exact (K2 i j Hi Hj).
Qed.

Lemma conP_ext c J H Pi Pi' i j : (forall a b, (a < 3)%nat -> (b < 3)%nat -> Pi a b = Pi' a b) -> (i < 3)%nat -> (j < 3)%nat -> getConPFromPrim c J H Pi i j = getConPFromPrim c J H Pi' i j.
Proof. intros E Hi Hj. unfold getConPFromPrim. rewrite E by assumption. reflexivity. Qed.
Lemma radiation_tensor_sym ginv u J H Pi : symmetric4 ginv -> symmetric4 Pi -> symmetric4 (radiation_tensor ginv u J H Pi).
Proof. intros S1 S2 m n Hm Hn. unfold radiation_tensor. rewrite (S1 m n), (S2 m n) by assumption. ring. Qed.
Lemma ginv_sym alpha beta g ginv gamma gi sg sgg : adm_consistent alpha beta g ginv gamma gi sg sgg -> symmetric4 ginv.
Proof.
  intros A mu nu Hm Hn. rewrite !(adm_inverse _ _ _ _ _ _ _ _ A) by assumption.
  pose proof (inverse3_symmetric _ _ (adm_gamma_sym _ _ _ _ _ _ _ _ A) (adm_inv3 _ _ _ _ _ _ _ _ A)) as S3.
  destruct mu as [|m], nu as [|n]; cbn [adm_inv_mat]; try reflexivity. rewrite (S3 m n) by lia. ring.
Qed.
Theorem C42_source : forall pi_of S X rs vp J (H : vec) (Pi : mat), consistent_at S X ->
  let W := GetLorentzFactor vp (Metric S X) in let v i := vp i / W in W <= 100 -> J <> 0 ->
  let u := moving (Lapse S X) (ContravariantShift S X) W v in
  transverse (SpacetimeMetric S X) u H -> transverse2 (SpacetimeMetric S X) u Pi ->
  closes pi_of (Lapse S X) (ContravariantShift S X) (SpacetimeMetric S X) (Metric S X) v rs J H Pi ->
  let M := radiation_tensor (SpacetimeMetricInverse S X) u J H Pi in
  let dE := DetGamma S X * eulerian_energy (Lapse S X) M in
  let dF l := DetGamma S X * eulerian_momentum (Lapse S X) (SpacetimeMetric S X) M l in
  let out := CalculateGeometricSource pi_of S X rs dE dF J (fun i => low (SpacetimeMetric S X) H (Datatypes.S i) / J) vp in
  fst out = source_energy true S X M /\ forall l, (l < 3)%nat -> snd out l = source_momentum S X M l.
Proof.
  intros pi_of S X rs vp J H Pi A W v W100 Jn u HH HP Cl M dE dF out.
  pose proof A as A0. unfold consistent_at in A.
  destruct (stored_velocity (Metric S X) vp (adm_gamma_sym _ _ _ _ _ _ _ _ A) (adm_gamma_pd _ _ _ _ _ _ _ _ A)) as (W1 & W2 & L & Hv). fold W in W1, W2, L, Hv. specialize (Hv W100). fold v in L, Hv.
  destruct (adm_det3 _ _ _ _ _ _ _ _ A) as [Dp _].
  assert (My : symmetric4 M) by (apply radiation_tensor_sym; [exact (ginv_sym _ _ _ _ _ _ _ _ A)|apply HP]).
  pose proof (C28_projections _ _ _ _ _ _ _ _ v W rs J H Pi A L Hv HH HP) as (_ & PP & _).
  assert (E1 : (fun i => J * (low (SpacetimeMetric S X) H (Datatypes.S i) / J)) = (fun i => low (SpacetimeMetric S X) H (Datatypes.S i))) by (apply functional_extensionality; intros i; field; exact Jn).
  set (T0 := assemble (Lapse S X) (ContravariantShift S X) (dE / DetGamma S X) (raise3Vector (con_gamma (mkClosure v (Metric S X) (Lapse S X) rs)) (fun i => dF i / DetGamma S X))
     (getConPFromPrim (mkClosure v (Metric S X) (Lapse S X) rs) J (fun i => J * (low (SpacetimeMetric S X) H (Datatypes.S i) / J))
        (pi_of (mkClosure v (Metric S X) (Lapse S X) rs) J (fun i => J * (low (SpacetimeMetric S X) H (Datatypes.S i) / J))))).
  assert (TT : forall m n, (m < 4)%nat -> (n < 4)%nat -> T0 m n = M m n).
  { intros m n Hm Hn. rewrite <- (C42_assemble _ _ _ _ _ _ _ _ M m n A My Hm Hn). unfold T0, assemble.
    assert (Ee : dE / DetGamma S X = eulerian_energy (Lapse S X) M) by (unfold dE; field; lra). rewrite Ee.
    assert (EF : forall i, (i < 3)%nat -> raise3Vector (con_gamma (mkClosure v (Metric S X) (Lapse S X) rs)) (fun i => dF i / DetGamma S X) i =
       sum3 (fun j => MetricInverse S X i j * eulerian_momentum (Lapse S X) (SpacetimeMetric S X) M j)).
    { intros i Hi. unfold raise3Vector, sum3. rewrite !(con_gamma_c _ _ _ _ _ _ _ _ A v rs) by lia. unfold dF. field. lra. }
    assert (EP : forall i j, (i < 3)%nat -> (j < 3)%nat -> getConPFromPrim (mkClosure v (Metric S X) (Lapse S X) rs) J (fun i => J * (low (SpacetimeMetric S X) H (Datatypes.S i) / J))
        (pi_of (mkClosure v (Metric S X) (Lapse S X) rs) J (fun i => J * (low (SpacetimeMetric S X) H (Datatypes.S i) / J))) i j = eulerian_pressure (Lapse S X) (ContravariantShift S X) M i j).
    { intros i j Hi Hj. rewrite E1. rewrite (conP_ext _ _ _ _ (fun i j => eulerian_pressure (Lapse S X) (ContravariantShift S X) Pi i j) i j) by (first [assumption|exact Cl]). exact (PP i j Hi Hj). }
    destruct m as [|i], n as [|j]; [| | |rewrite EP by lia]; rewrite ?EF by lia; reflexivity. }
  destruct (source_ext S X _ _ TT) as [SE SM]. destruct (source_agrees S X M A0) as [AE AM].
  split; [exact (eq_trans SE AE)|]. intros l Hl. exact (eq_trans (SM l) (AM l)).
Qed.
Print Assumptions C42_source.

(** *** the numerical flux at a face *)
Definition face_of (alpha : R) (beta : vec) (gamma gi : mat) (sg : R) : Face := {| f_gamma := gamma; f_ginv := gi; f_alpha := alpha; f_beta := beta; f_sdetgam := sg |}.
Lemma p2c_ext c eq J H Pi Pi' : (forall a b, (a < 3)%nat -> (b < 3)%nat -> Pi a b = Pi' a b) ->
  fst (Prim2Con c eq J H Pi) = fst (Prim2Con c eq J H Pi') /\ (forall i, (i < 3)%nat -> snd (Prim2Con c eq J H Pi) i = snd (Prim2Con c eq J H Pi') i) /\
  (forall i, (i < 3)%nat -> fst (getFluxesFromPrim c energy_conserve J H Pi) i = fst (getFluxesFromPrim c energy_conserve J H Pi') i) /\
  (forall i j, (i < 3)%nat -> (j < 3)%nat -> snd (getFluxesFromPrim c energy_conserve J H Pi) i j = snd (getFluxesFromPrim c energy_conserve J H Pi') i j).
Proof.
  intros E.
  assert (C : forall i, (i < 3)%nat -> con_vTilPi c Pi i = con_vTilPi c Pi' i) by (intros i Hi; unfold con_vTilPi, sum3; rewrite !E by lia; reflexivity).
  assert (V : vvTilPi c Pi = vvTilPi c Pi') by (unfold vvTilPi, sum3; rewrite !C by lia; reflexivity).
  assert (K : forall i, cov_vTilPi c Pi i = cov_vTilPi c Pi' i) by (intros i; unfold cov_vTilPi, lower3Vector, sum3; rewrite !C by lia; reflexivity).
  assert (F : forall e i, snd (Prim2Con c e J H Pi) i = snd (Prim2Con c e J H Pi') i) by (intros e i; unfold Prim2Con; cbn [snd]; rewrite K; reflexivity).
  split; [unfold Prim2Con; cbn [fst]; rewrite V; reflexivity|]. split; [intros i _; apply F|]. split.
  - intros i Hi. unfold getFluxesFromPrim; cbn [fst]. unfold raise3Vector, sum3. rewrite !F. reflexivity.
  - intros i j Hi Hj. unfold getFluxesFromPrim; cbn [snd]. unfold getConCovPFromPrim, sum3. rewrite !E by lia. reflexivity.
Qed.
(** with equal states on the two sides the flux is the exact one: sqrt(gamma) times
    alpha F^d - beta^d E, alpha P^d_l - beta^d F_l, where F and P are blended with those of the
    diffusive flux K with weight a.  (E is off by the C28 term for anisotropic pressure.) *)
Theorem C42_consistent : forall pi_of alpha beta g ginv gamma gi sg sgg rs v W d a J (H K : vec) (PiH PiK : mat),
  adm_consistent alpha beta g ginv gamma gi sg sgg -> SMALL (T:=R) <= sg -> lorentz_of gamma v W -> dot3 gamma v v <= 9999 / 10000 -> (d < 3)%nat ->
  let u := moving alpha beta W v in
  transverse g u H -> transverse g u K -> transverse2 g u PiH -> transverse2 g u PiK ->
  closes pi_of alpha beta g gamma v rs J H PiH -> closes pi_of alpha beta g gamma v rs J K PiK ->
  let MH := radiation_tensor ginv u J H PiH in let MK := radiation_tensor ginv u J K PiK in
  let cov X (i : nat) := low g X (S i) in
  let out := face_flux pi_of (face_of alpha beta gamma gi sg) d rs a v v J J (cov H) (cov H) (cov K) in
  fst out = sg * (a * energy_flux alpha beta g gi MH d + (1 - a) * (alpha * sum3 (fun j => gi d j * eulerian_momentum alpha g MK j) - beta d * eulerian_energy alpha MH)
                  - beta d * ((W * W - 1) * J * eulerian_energy alpha PiH)) /\
  forall l, (l < 3)%nat -> snd out l = sg * (a * momentum_flux alpha beta g gamma MH d l + (1 - a) * (alpha * sum3 (fun k => eulerian_pressure alpha beta MK d k * gamma k l) - beta d * eulerian_momentum alpha g MH l)).
Proof.
  intros pi_of alpha beta g ginv gamma gi sg sgg rs v W d a J H K PiH PiK A Hs L Hv Hd u TH TK PH PK CH CK MH MK cov out.
  pose proof (C28_projections _ _ _ _ _ _ _ _ v W rs J H PiH A L Hv TH PH) as (QF & _ & QF' & QP & _ & QE).
  pose proof (C28_projections _ _ _ _ _ _ _ _ v W rs J K PiK A L Hv TK PK) as (_ & _ & RF' & RP & _ & _).
  cbv zeta in QF, QF', QP, QE, RF', RP. fold u in QF, QF', QP, QE, RF', RP. fold MH in QF, QF', QP, QE. fold MK in RF', RP.
  set (c := mkClosure v gamma alpha rs) in *.
  destruct (p2c_ext c energy_conserve J (cov H) (pi_of c J (cov H)) _ CH) as (XE & XF & XF' & XP). destruct (p2c_ext c energy_conserve J (cov K) (pi_of c J (cov K)) _ CK) as (_ & _ & YF' & YP).
  unfold out, face_flux. unfold side_flux. cbn [f_gamma f_alpha f_beta f_sdetgam face_of]. fold c.
  destruct (getFluxesFromPrim c energy_conserve J (cov K) (pi_of c J (cov K))) as [conFK PK'] eqn:EK.
  destruct (getFluxesFromPrim c energy_conserve J (cov H) (pi_of c J (cov H))) as [conFH PH'] eqn:EH.
  destruct (Prim2Con c energy_conserve J (cov H) (pi_of c J (cov H))) as [E covF] eqn:EP. cbn [fst snd] in XE, XF, XF', XP, YF', YP.
  rewrite (Rlt_bool_false sg SMALL Hs). cbn [fst snd]. unfold llf.
  assert (Z : E = eulerian_energy alpha MH + (W * W - 1) * J * eulerian_energy alpha PiH) by (rewrite XE; exact QE).
  assert (ZF : forall i, (i < 3)%nat -> covF i = eulerian_momentum alpha g MH i) by (intros i Hi; rewrite (XF i Hi); exact (QF i Hi)).
  assert (ZF' : conFH d = alpha * sum3 (fun j => gi d j * eulerian_momentum alpha g MH j)) by (rewrite (XF' d Hd); exact (QF' d Hd)).
  assert (ZK' : conFK d = alpha * sum3 (fun j => gi d j * eulerian_momentum alpha g MK j)) by (rewrite (YF' d Hd); exact (RF' d Hd)).
  split.
  - rewrite ZF', ZK', Z. unfold energy_flux. field.
  - intros l Hl. rewrite (ZF l Hl). rewrite (XP d l Hd Hl), (YP d l Hd Hl).
    assert (Z1 : snd (getFluxesFromPrim c energy_conserve J (cov H) (fun i j => eulerian_pressure alpha beta PiH i j)) d l = alpha * sum3 (fun k => eulerian_pressure alpha beta MH d k * gamma k l)) by exact (QP d l Hd Hl).
    assert (Z2 : snd (getFluxesFromPrim c energy_conserve J (cov K) (fun i j => eulerian_pressure alpha beta PiK i j)) d l = alpha * sum3 (fun k => eulerian_pressure alpha beta MK d k * gamma k l)) by exact (RP d l Hd Hl).
    change (eulerian_pressure alpha beta PiH) with (fun i j => eulerian_pressure alpha beta PiH i j). change (eulerian_pressure alpha beta PiK) with (fun i j => eulerian_pressure alpha beta PiK i j).
    rewrite Z1, Z2. unfold momentum_flux. field.
Qed.
Print Assumptions C42_consistent.

(** radiation at rest in spherical coordinates: the radial source is 2 (J/3) r *)
Example C42_source_nonvacuous : forall rs J, J <> 0 -> let X := ptS 0 4 (PI / 2) 0 in let z : vec := fun _ => 0 in
  snd (CalculateGeometricSource pi_eddington SphericalMinkowski X rs (16 * J) z J z z) 0%nat = 2 * (J / 3) * 4.
Proof.
  intros rs J Jn X z.
  assert (s1 : sin (X 2%nat) = 1) by (cbn; apply sin_PI2).
  assert (A : consistent_at SphericalMinkowski X) by (apply sphmink_consistent; [cbn; lra|rewrite s1; lra]).
  assert (L : GetLorentzFactor z (Metric SphericalMinkowski X) = 1).
  { unfold GetLorentzFactor, sum3, z. match goal with |- sqrt ?a = 1 => replace a with 1 by ring end. apply sqrt_1. }
  pose proof (C42_source pi_eddington SphericalMinkowski X rs z J z (fun _ _ => 0) A) as K. cbv zeta in K. rewrite L in K.
  specialize (K ltac:(lra) Jn).
  assert (V : (fun i => z i / 1) = z) by (apply functional_extensionality; intros i; unfold z; field). rewrite V in K.
  set (u := moving (Lapse SphericalMinkowski X) (ContravariantShift SphericalMinkowski X) 1 z) in *.
  specialize (K ltac:(unfold transverse, dot4, sum4, z; ring)).
  specialize (K ltac:(split; [intros; unfold dot4, sum4; ring|intros ? ? _ _; reflexivity])).
  specialize (K (closes_eddington _ _ _ _ _ _ _ _)). destruct K as [_ K]. specialize (K 0%nat ltac:(lia)).
  set (M := radiation_tensor (SpacetimeMetricInverse SphericalMinkowski X) u J z (fun _ _ => 0)) in *.
  assert (M2 : forall m n, M m n = J * u m * u n + J / 3 * (SpacetimeMetricInverse SphericalMinkowski X m n + u m * u n)) by (intros m n; unfold M, radiation_tensor, z; ring).
  assert (E0 : eulerian_energy (Lapse SphericalMinkowski X) M = J).
  { unfold eulerian_energy, sum4, normal_cov. rewrite !M2. unfold u, moving, z. cbn. field. }
  assert (F0 : forall l, eulerian_momentum (Lapse SphericalMinkowski X) (SpacetimeMetric SphericalMinkowski X) M l = 0).
  { intros l. unfold eulerian_momentum, sum4, normal_cov. rewrite !M2. unfold u, moving, z. cbn. destruct l as [|[|[|l]]]; cbn; field. }
  assert (DG : DetGamma SphericalMinkowski X = 16) by (cbn; rewrite sin_PI2; rewrite ?Rabs_R1; rewrite ?(Rabs_pos_eq 1), ?(Rabs_pos_eq (4 * 4 * 1)) by lra; ring).
  rewrite E0, DG in K.
  assert (Z1 : (fun l => 16 * eulerian_momentum (Lapse SphericalMinkowski X) (SpacetimeMetric SphericalMinkowski X) M l) = z) by (apply functional_extensionality; intros l; rewrite F0; unfold z; ring).
  assert (Z2 : (fun i => low (SpacetimeMetric SphericalMinkowski X) z (Datatypes.S i) / J) = z) by (apply functional_extensionality; intros l; unfold low, lower4, sum4, z; field; exact Jn).
  rewrite Z1, Z2 in K. rewrite K.
  assert (T22 : M 2%nat 2%nat = J / 3 / 16) by (rewrite M2; unfold u, moving, z; cbn; rewrite ?(gratio_nz 1 (4 * 4)) by lra; field).
  assert (T33 : M 3%nat 3%nat = J / 3 / 16) by (rewrite M2; unfold u, moving, z; cbn; rewrite ?sin_PI2, ?(gratio_nz 1 (4 * 4 * 1 * 1)) by lra; field).
  clearbody M. unfold source_momentum, SetConnectionCoeffFromMetricDerivs, sum4. cbn. rewrite sin_PI2, Rabs_R1, (Rabs_pos_eq 4), T22, T33 by lra. field.
Qed.
(** a beam along x in flat space, T = (2 + sin(t - x)) k k: energy and flux agree and the sources vanish *)
Definition beam (Y : vec) : mat := fun m n => (2 + sin (Y 0%nat - Y 1%nat)) * (if Nat.ltb m 2 then 1 else 0) * (if Nat.ltb n 2 then 1 else 0).
Example C42_balance_nonvacuous : forall X, smooth_at Minkowski X /\ near Minkowski X /\ (forall Y, symmetric4 (beam Y)) /\ differentiable_at beam X /\
  (forall nu, (nu < 4)%nat -> divergence (SpacetimeMetric Minkowski) (SpacetimeMetricInverse Minkowski X) beam X nu = 0) /\
  eulerian_energy (Lapse Minkowski X) (beam X) = 2 + sin (X 0%nat - X 1%nat).
Proof.
  intros X.
  assert (SyM : forall Y, symmetric4 (SpacetimeMetric Minkowski Y)) by (intros Y m n Hm Hn; idx; reflexivity).
  assert (Dt : is_derive (fun h => 2 + sin (h - X 1%nat)) (X 0%nat) (cos (X 0%nat - X 1%nat))) by (auto_derive; [trivial|unfold Rminus; ring]).
  assert (Dx : is_derive (fun h => 2 + sin (X 0%nat - h)) (X 1%nat) (- cos (X 0%nat - X 1%nat))) by (auto_derive; [trivial|unfold Rminus; ring]).
  assert (PB : forall m n s, (s < 4)%nat -> is_partial (fun Y => beam Y m n) s X (match s with 0%nat => cos (X 0%nat - X 1%nat) | 1%nat => - cos (X 0%nat - X 1%nat) | _ => 0 end * (if Nat.ltb m 2 then 1 else 0) * (if Nat.ltb n 2 then 1 else 0))).
  { intros m n s Hs. unfold is_partial, beam, moved. destruct s as [|[|[|[|]]]]; try lia; cbn [Nat.eqb].
    - apply (is_derive_ext (fun h => scal (scal (if Nat.ltb n 2 then 1 else 0) (if Nat.ltb m 2 then 1 else 0)) (2 + sin (h - X 1%nat)))); [intros t; unfold scal; cbn; unfold mult; cbn; ring|].
      evar_last; [apply is_derive_scal; exact Dt|]. unfold scal; cbn; unfold mult; cbn; ring.
    - apply (is_derive_ext (fun h => scal (scal (if Nat.ltb n 2 then 1 else 0) (if Nat.ltb m 2 then 1 else 0)) (2 + sin (X 0%nat - h)))); [intros t; unfold scal; cbn; unfold mult; cbn; ring|].
      evar_last; [apply is_derive_scal; exact Dx|]. unfold scal; cbn; unfold mult; cbn; ring.
    - rewrite !Rmult_0_l. apply (is_derive_const (V := R_NormedModule)).
    - rewrite !Rmult_0_l. apply (is_derive_const (V := R_NormedModule)). }
  assert (PG : forall m n s, partial (fun Y => SpacetimeMetric Minkowski Y m n) s X = 0) by (intros m n s; unfold partial; cbn [SpacetimeMetric Minkowski]; apply Derive_const).
  split. { split; [apply minkowski_consistent|]. split; [apply minkowski_deriv|]. split; [exact SyM|]. intros s Hs. apply filter_forall. intros h. cbn. lra. }
  split. { intros s Hs. apply filter_forall. intros h. split; [apply minkowski_consistent|apply SyM]. }
  split. { intros Y m n Hm Hn. unfold beam. ring. }
  split. { intros m n s Hm Hn Hs. eexists. apply PB. exact Hs. }
  split.
  - intros nu Hn. unfold divergence, christoffel2.
    assert (C : forall a b c, sum4 (fun d => SpacetimeMetricInverse Minkowski X a d * ((partial (fun Y => SpacetimeMetric Minkowski Y d b) c X + partial (fun Y => SpacetimeMetric Minkowski Y d c) b X - partial (fun Y => SpacetimeMetric Minkowski Y b c) d X) / 2)) = 0).
    { intros a b c. unfold sum4. rewrite !PG. field. }
    assert (PV : forall m n s, (s < 4)%nat -> partial (fun Y => beam Y m n) s X = match s with 0%nat => cos (X 0%nat - X 1%nat) | 1%nat => - cos (X 0%nat - X 1%nat) | _ => 0 end * (if Nat.ltb m 2 then 1 else 0) * (if Nat.ltb n 2 then 1 else 0))
      by (intros m n s Hs; exact (is_derive_unique _ _ _ (PB m n s Hs))).
    transitivity (sum4 (fun mu => partial (fun Y => beam Y mu nu) mu X)).
    { rewrite Rplus_assoc. rewrite <- (Rplus_0_r (sum4 (fun mu => partial _ mu X))) at 2. apply f_equal. 
      transitivity (0 + 0); [|ring]. apply f_equal2; (transitivity (sum4 (fun _ => sum4 (fun _ => 0))); [|unfold sum4; ring]); apply sum4_ext'; intros mu _; apply sum4_ext'; intros l _; rewrite C; ring. }
    unfold sum4. rewrite !PV by lia.
    cbn [Nat.ltb Nat.leb]. ring.
  - unfold eulerian_energy, sum4, normal_cov, beam. cbn. ring.
Qed.
Print Assumptions C42_balance_nonvacuous.
