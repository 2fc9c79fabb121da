(** C43: photons follow the geodesics of the spacetime. *)
From Coq Require Import Reals Arith Lra Lia List FunctionalExtensionality.
From Flocq Require Import Core.
From Coquelicot Require Import Coquelicot.
From Verif.Model Require Import Num Geometry Tetrads Modified Geodesics.
From Verif.Spec Require Import Tensor GeomSpec SystemSpec GeodesicSpec.
From Verif.Proofs Require Import TensorTac GeomBase FDProofs GeomDeriv GeomSystems SourceProofs.
Local Open Scope R_scope.

Lemma nudged_moved X mu d : nudged X mu d = moved X mu (X mu + d).
Proof. apply functional_extensionality. intros i. unfold nudged, moved. destruct (Nat.eqb_spec i mu) as [->|]; reflexivity. Qed.
Lemma nudged_same X mu d : nudged X mu d mu = X mu + d.
Proof. unfold nudged. now rewrite Nat.eqb_refl. Qed.
Lemma DELTA_pos : 0 < DELTA.
Proof. unfold DELTA. lra. Qed.
Lemma Raise_raised K G : Raise K G = raised G K.
Proof. reflexivity. Qed.
Lemma ksource_width X mu : nudged X mu DELTA mu - nudged X mu (- DELTA) mu = 2 * DELTA.
Proof. rewrite !nudged_same. ring. Qed.

(** *** conserved momenta *)
Lemma ksource_symmetry flat geom X K K0 mu : (mu < 4)%nat -> symmetry (SpacetimeMetricInverse geom) mu -> GetKSource flat geom X K K0 mu = 0.
Proof.
  intros Hm Sy. unfold GetKSource. destruct flat; [reflexivity|]. rewrite !nudged_moved. unfold sum4. rewrite !Sy by lia. unfold Rminus. rewrite !Rplus_opp_r. unfold Rdiv. ring.
Qed.
(** Every geometry, particle and sequence of steps: the momentum along a coordinate on which
    the (inverse) metric does not depend never changes. *)
Theorem C43_conserved_momentum : forall flat geom mu dts X K, (mu < 4)%nat -> symmetry (SpacetimeMetricInverse geom) mu ->
  snd (push_all flat geom dts (X, K)) mu = K mu.
Proof.
  intros flat geom mu dts X K Hm Sy. revert X K. induction dts as [|dt r IH]; intros X K; [reflexivity|].
  cbn [push_all]. destruct (PushParticle flat geom dt (X, K)) as [X' K'] eqn:E. rewrite IH.
  unfold PushParticle in E. injection E as _ <-. cbv beta. rewrite !ksource_symmetry by assumption. ring.
Qed.
Print Assumptions C43_conserved_momentum.

(** Stationary systems conserve the energy, axisymmetric ones the angular momentum, homogeneous
    ones the momentum, for every spin, scale factor and boost. *)
Theorem C43_conserved : forall flat dts X K,
  (forall mu, (mu < 4)%nat -> snd (push_all flat Minkowski dts (X, K)) mu = K mu) /\
  (forall vx vy vz mu, (mu < 4)%nat -> snd (push_all flat (BoostedMinkowski vx vy vz) dts (X, K)) mu = K mu) /\
  snd (push_all flat SphericalMinkowski dts (X, K)) 0%nat = K 0%nat /\ snd (push_all flat SphericalMinkowski dts (X, K)) 3%nat = K 3%nat /\
  (forall a0 dadt i, (i < 3)%nat -> snd (push_all flat (FLRW a0 dadt) dts (X, K)) (S i) = K (S i)) /\
  (forall a, snd (push_all flat (SphericalKerrSchild a) dts (X, K)) 0%nat = K 0%nat /\ snd (push_all flat (SphericalKerrSchild a) dts (X, K)) 3%nat = K 3%nat).
Proof.
  intros flat dts X K.
  repeat match goal with |- _ /\ _ => split | |- forall _, _ => intro end; apply C43_conserved_momentum; try lia; intros Y h a0' b Ha Hb; try reflexivity;
  unfold SpacetimeMetricInverse; cbv beta iota delta [SphericalMinkowski SphericalKerrSchild FLRW moved Nat.eqb]; try reflexivity.
Qed.
Print Assumptions C43_conserved.

(** *** coordinate time *)
(** Every geometry: a push of dt advances the particle's time by exactly dt. *)
Theorem C43_time : forall flat geom dts X K, fst (push_all flat geom dts (X, K)) 0%nat = X 0%nat + total dts.
Proof.
  intros flat geom dts. induction dts as [|dt r IH]; intros X K; [cbn; ring|].
  cbn [push_all]. destruct (PushParticle flat geom dt (X, K)) as [X' K'] eqn:E. rewrite IH.
  unfold PushParticle in E. injection E as <- _. cbv beta. unfold total. cbn [fold_right GetXSource]. fold (total r). field.
Qed.
Print Assumptions C43_time.

(** *** flat space: straight lines at the speed of light *)
Theorem C43_flat : forall flat dts X K, K 0%nat < 0 ->
  let '(X', K') := push_all flat Minkowski dts (X, K) in
  (forall mu, (mu < 4)%nat -> K' mu = K mu) /\
  (forall i, (i < 3)%nat -> X' (S i) = X (S i) + total dts * (K (S i) / - K 0%nat)) /\
  (null eta K -> (X' 1%nat - X 1%nat) ^ 2 + (X' 2%nat - X 2%nat) ^ 2 + (X' 3%nat - X 3%nat) ^ 2 = (X' 0%nat - X 0%nat) ^ 2).
Proof.
  intros flat dts X K HK. destruct (push_all flat Minkowski dts (X, K)) as [X' K'] eqn:E.
  assert (A : forall mu, (mu < 4)%nat -> K' mu = K mu) by (intros mu Hm; change K' with (snd (X', K')); rewrite <- E; exact (proj1 (C43_conserved flat dts X K) mu Hm)).
  assert (T0 : X' 0%nat = X 0%nat + total dts) by (change X' with (fst (X', K')); rewrite <- E; exact (C43_time flat Minkowski dts X K)).
  assert (B : forall i, (i < 3)%nat -> X' (S i) = X (S i) + total dts * (K (S i) / - K 0%nat)).
  { intros i Hi. clear A T0. assert (KK : forall mu, (mu < 4)%nat -> K mu = K mu) by reflexivity.
    assert (G : forall ds Y P, (forall mu, (mu < 4)%nat -> P mu = K mu) -> fst (push_all flat Minkowski ds (Y, P)) (S i) = Y (S i) + total ds * (K (S i) / - K 0%nat)).
    { induction ds as [|dt r IH]; intros Y P HP; [cbn; ring|]. cbn [push_all].
      pose proof (proj1 (C43_conserved flat (dt :: nil) Y P)) as Q. unfold push_all in Q.
      destruct (PushParticle flat Minkowski dt (Y, P)) as [Y' P'] eqn:F. rewrite IH; [|intros mu Hm; rewrite <- (HP mu Hm); change P' with (snd (Y', P')); rewrite <- F; exact (Q mu Hm)].
      unfold PushParticle in F. injection F as <- FP. cbv beta.
      assert (R0 : forall V : vec, Raise V (fun mu nu => if Nat.eqb mu nu then if Nat.eqb mu 0 then -1 else 1 else 0) 0%nat = - V 0%nat) by (intros V; unfold Raise, sum4; cbn; ring).
      assert (R1 : forall V : vec, Raise V (fun mu nu => if Nat.eqb mu nu then if Nat.eqb mu 0 then -1 else 1 else 0) (S i) = V (S i)) by (intros V; destruct i as [|[|[|i]]]; try lia; unfold Raise, sum4; cbn; ring).
      assert (Z0 : forall W Kc mu, (mu < 4)%nat -> GetKSource flat Minkowski Y W Kc mu = 0) by (intros W Kc mu Hm; apply ksource_symmetry; [exact Hm|intros ? ? ? ? _ _; reflexivity]).
      unfold GetXSource. rewrite !R0, !R1. rewrite !Z0 by lia. rewrite !HP by lia. unfold total. cbn [fold_right]. fold (total r). field. lra. }
    change X' with (fst (X', K')). rewrite <- E. exact (G dts X K KK). }
  split; [exact A|split; [exact B|]]. intros N. rewrite T0, (B 0%nat), (B 1%nat), (B 2%nat) by lia.
  assert (N' : K 1%nat ^ 2 + K 2%nat ^ 2 + K 3%nat ^ 2 = K 0%nat ^ 2) by (unfold null, sum4, eta in N; cbn in N; lra).
  transitivity (total dts ^ 2 * ((K 1%nat ^ 2 + K 2%nat ^ 2 + K 3%nat ^ 2) / K 0%nat ^ 2)); [field; lra|rewrite N'; field; lra].
Qed.
Print Assumptions C43_flat.
Example C43_flat_nonvacuous : exists K, K 0%nat < 0 /\ null eta K /\ K 1%nat <> 0 /\ K 2%nat <> 0.
Proof. exists (row4 (-5) 3 4 0). unfold null, sum4, eta, row4. cbn. lra. Qed.

(** *** the momentum source *)
(** derivative of the inverse of a matrix, contracted twice *)
Lemma inverse_derivative (g ginv dg dgi : mat) (K : vec) : inverse4 g ginv -> (forall a b, (a < 4)%nat -> (b < 4)%nat -> ginv a b = ginv b a) ->
  (forall a b, (a < 4)%nat -> (b < 4)%nat -> sum4 (fun c => dg a c * ginv c b + g a c * dgi c b) = 0) ->
  sum4 (fun a => sum4 (fun b => dg a b * raised ginv K a * raised ginv K b)) = - sum4 (fun a => sum4 (fun b => K a * K b * dgi a b)).
Proof.
  intros I Sg Hd.
  assert (L : forall c, (c < 4)%nat -> sum4 (fun a => raised ginv K a * g a c) = K c).
  { intros c Hc. transitivity (sum4 (fun n => K n * sum4 (fun a => ginv n a * g a c))).
    - unfold raised, sum4. rewrite (Sg 1%nat 0%nat), (Sg 2%nat 0%nat), (Sg 2%nat 1%nat), (Sg 3%nat 0%nat), (Sg 3%nat 1%nat), (Sg 3%nat 2%nat) by lia. ring.
    - assert (D : forall n, (n < 4)%nat -> sum4 (fun a => ginv n a * g a c) = if Nat.eqb n c then 1 else 0) by (intros n Hn; exact (proj2 (I n c Hn Hc))).
      rewrite (sum4_ext' _ (fun n => K n * if Nat.eqb n c then 1 else 0)) by (intros n Hn; rewrite D by exact Hn; reflexivity).
      unfold sum4. destruct c as [|[|[|[|c]]]]; try lia; cbn; ring. }
  assert (A : sum4 (fun a => raised ginv K a * sum4 (fun b => K b * sum4 (fun c => dg a c * ginv c b + g a c * dgi c b))) = 0).
  { rewrite (sum4_ext' _ (fun _ => 0)); [unfold sum4; ring|]. intros a Ha. rewrite (sum4_ext' _ (fun _ => 0)); [unfold sum4; ring|]. intros b Hb. rewrite Hd by assumption. ring. }
  assert (B : sum4 (fun a => raised ginv K a * sum4 (fun b => K b * sum4 (fun c => dg a c * ginv c b + g a c * dgi c b)))
    = sum4 (fun a => sum4 (fun b => dg a b * raised ginv K a * raised ginv K b)) + sum4 (fun c => sum4 (fun b => sum4 (fun a => raised ginv K a * g a c) * K b * dgi c b))).
  { set (R := raised ginv K). transitivity (sum4 (fun a => R a * sum4 (fun c => dg a c * sum4 (fun b => ginv c b * K b))) + sum4 (fun c => sum4 (fun b => sum4 (fun a => R a * g a c) * K b * dgi c b))); [unfold sum4; ring|].
    apply f_equal2; [|reflexivity]. unfold sum4 at 1 4. unfold sum4 at 1 3 5 7. change (fun mu => sum4 (fun nu => ginv mu nu * K nu)) with R.
    change (sum4 (fun b => ginv 0%nat b * K b)) with (R 0%nat). change (sum4 (fun b => ginv 1%nat b * K b)) with (R 1%nat). change (sum4 (fun b => ginv 2%nat b * K b)) with (R 2%nat). change (sum4 (fun b => ginv 3%nat b * K b)) with (R 3%nat).
    unfold sum4. ring. }
  rewrite A in B. rewrite (sum4_ext' (fun c => sum4 (fun b => sum4 (fun a => raised ginv K a * g a c) * K b * dgi c b)) (fun a => sum4 (fun b => K a * K b * dgi a b))) in B; [lra|].
  intros c Hc. apply sum4_ext'. intros b Hb. rewrite L by exact Hc. reflexivity.
Qed.

(** Every geometry consistent along the difference stencil, every particle: the momentum source
    is the force of the geodesic equation up to the error of a central difference of step
    1e-6. *)
Theorem C43_source : forall geom X K mu dg f1 f2 f3 M, (mu < 4)%nat ->
  (forall h, Rabs (h - X mu) <= DELTA -> consistent_at geom (moved X mu h)) -> is_metric_derivative (SpacetimeMetric geom) X dg ->
  (forall a b, (a < 4)%nat -> (b < 4)%nat -> smooth3 (fun h => SpacetimeMetricInverse geom (moved X mu h) a b) (f1 a b) (f2 a b) (f3 a b) (X mu) DELTA M) ->
  let kcon := raised (SpacetimeMetricInverse geom X) K in kcon 0%nat <> 0 ->
  Rabs (GetKSource false geom X K (kcon 0%nat) mu - geodesic_force dg kcon mu)
    <= M * DELTA ^ 2 / 6 * (Rabs (K 0%nat) + Rabs (K 1%nat) + Rabs (K 2%nat) + Rabs (K 3%nat)) ^ 2 / (2 * Rabs (kcon 0%nat)).
Proof.
  intros geom X K mu dg f1 f2 f3 M Hm Hc Hg Hs kcon Hk0. set (g := SpacetimeMetric geom) in *. set (gi := SpacetimeMetricInverse geom) in *.
  pose proof DELTA_pos as Dp.
  assert (CX : consistent_at geom X) by (rewrite <- (moved_same X mu); apply Hc; rewrite Rminus_diag_eq by reflexivity; rewrite Rabs_R0; lra).
  assert (IX : inverse4 (g X) (gi X)) by exact (adm_inv4 _ _ _ _ _ _ _ _ CX).
  assert (Sg : forall a b, (a < 4)%nat -> (b < 4)%nat -> gi X a b = gi X b a).
  { exact (ginv_sym (fun _ => g X) (gi X) X (fun _ => adm_g_sym _ _ _ _ _ _ _ _ CX) IX). }
  set (d1 := fun a b => f1 a b (X mu)).
  assert (Sm : forall a b, (a < 4)%nat -> (b < 4)%nat -> is_derive (fun h => gi (moved X mu h) a b) (X mu) (d1 a b)).
  { intros a b Ha Hb. exact (proj1 (Hs a b Ha Hb (X mu) ltac:(lra))). }
  assert (Z : forall a b, (a < 4)%nat -> (b < 4)%nat -> sum4 (fun c => dg a c mu * gi X c b + g X a c * d1 c b) = 0).
  { intros a b Ha Hb.
    assert (D1 : is_derive (fun h => sum4 (fun c => g (moved X mu h) a c * gi (moved X mu h) c b)) (X mu) (sum4 (fun c => dg a c mu * gi X c b + g X a c * d1 c b))).
    { unfold sum4. pose proof (moved_same X mu) as Ms.
      assert (Q : forall c, (c < 4)%nat -> is_derive (fun h => g (moved X mu h) a c * gi (moved X mu h) c b) (X mu) (dg a c mu * gi X c b + g X a c * d1 c b)).
      { intros c Hcc. pose proof (is_derive_mul _ _ _ _ _ (Hg a c mu Ha Hcc Hm) (Sm c b Hcc Hb)) as P. cbv beta in P. rewrite Ms in P. exact P. }
      exact (is_derive_add _ _ _ _ _ (is_derive_add _ _ _ _ _ (is_derive_add _ _ _ _ _ (Q 0%nat ltac:(lia)) (Q 1%nat ltac:(lia))) (Q 2%nat ltac:(lia))) (Q 3%nat ltac:(lia))). }
    assert (D0 : is_derive (fun h => sum4 (fun c => g (moved X mu h) a c * gi (moved X mu h) c b)) (X mu) 0).
    { apply (is_derive_ext_loc (fun _ => delta a b)); [|apply (is_derive_const (V := R_NormedModule))].
      exists (mkposreal DELTA Dp). intros h Hh. symmetry. change (sum4 (fun c => g (moved X mu h) a c * gi (moved X mu h) c b)) with (mul4 (g (moved X mu h)) (gi (moved X mu h)) a b).
      apply (proj1 (adm_inv4 _ _ _ _ _ _ _ _ (Hc h ltac:(left; exact Hh)) a b Ha Hb)). }
    exact (eq_trans (eq_sym (is_derive_unique _ _ _ D1)) (is_derive_unique _ _ _ D0)). }
  assert (F : geodesic_force dg kcon mu = - sum4 (fun a => sum4 (fun b => K a * K b * d1 a b)) / (2 * kcon 0%nat)).
  { pose proof (inverse_derivative (g X) (gi X) (fun a b => dg a b mu) d1 K IX Sg Z) as Q. unfold geodesic_force. apply (f_equal (fun u => u / (2 * kcon 0%nat))). exact Q. }
  rewrite F. unfold GetKSource. cbv zeta. fold gi. rewrite ksource_width. rewrite !nudged_moved.
  set (cd := fun a b => (gi (moved X mu (X mu + DELTA)) a b - gi (moved X mu (X mu + - DELTA)) a b) / (2 * DELTA)).
  assert (E : forall a b, (a < 4)%nat -> (b < 4)%nat -> Rabs (cd a b - d1 a b) <= M * DELTA ^ 2 / 6).
  { intros a b Ha Hb. exact (central_difference_error _ _ _ _ _ _ _ Dp (Hs a b Ha Hb)). }
  replace (sum4 (fun nu => sum4 (fun kap => K nu * K kap * ((gi (moved X mu (X mu + DELTA)) nu kap - gi (moved X mu (X mu + - DELTA)) nu kap) / (2 * DELTA)))) * (-1 / (2 * kcon 0%nat)) - - sum4 (fun a => sum4 (fun b => K a * K b * d1 a b)) / (2 * kcon 0%nat))
    with (- sum4 (fun a => sum4 (fun b => K a * K b * (cd a b - d1 a b))) / (2 * kcon 0%nat)) by (unfold sum4, cd; field; lra).
  unfold Rdiv. rewrite Rabs_mult, Rabs_Ropp, Rabs_inv, Rabs_mult, (Rabs_right 2) by lra.
  apply Rmult_le_compat_r; [apply Rlt_le, Rinv_0_lt_compat; apply Rmult_lt_0_compat; [lra|apply Rabs_pos_lt; exact Hk0]|].
  fold (M * DELTA ^ 2 / 6). set (e := M * DELTA ^ 2 / 6) in *.
  assert (T4 : forall f u, (forall a, (a < 4)%nat -> Rabs (f a) <= u a) -> Rabs (sum4 f) <= sum4 u).
  { intros f u Hf. unfold sum4. pose proof (Hf 0%nat ltac:(lia)). pose proof (Hf 1%nat ltac:(lia)). pose proof (Hf 2%nat ltac:(lia)). pose proof (Hf 3%nat ltac:(lia)).
    eapply Rle_trans; [apply Rabs_triang|]. apply Rplus_le_compat; [|assumption]. eapply Rle_trans; [apply Rabs_triang|]. apply Rplus_le_compat; [|assumption]. eapply Rle_trans; [apply Rabs_triang|]. apply Rplus_le_compat; assumption. }
  apply (Rle_trans _ (sum4 (fun a => sum4 (fun b => Rabs (K a) * Rabs (K b) * e)))).
  - apply T4. intros a Ha. apply T4. intros b Hb. rewrite !Rabs_mult. apply Rmult_le_compat_l; [apply Rmult_le_pos; apply Rabs_pos|apply E; assumption].
  - unfold sum4. apply Req_le. ring.
Qed.
Print Assumptions C43_source.

(** *** order of accuracy *)
(** rates the code computes at (Y,P); the momentum source of both stages is taken at X *)
Definition xrate (geom : System) (Y P : vec) : vec := GetXSource (Raise P (SpacetimeMetricInverse geom Y)).
Definition krate (flat : bool) (geom : System) (X Y P : vec) : vec := GetKSource flat geom X P (Raise P (SpacetimeMetricInverse geom Y) 0%nat).
(** a light ray with bounded derivatives *)
Definition smooth_ray (x k : R -> vec) (T M : R) : Prop := forall mu, (mu < 4)%nat -> exists x1 x2 x3 k1 k2 : R -> R, forall t, 0 <= t <= T ->
  is_derive (fun s => x s mu) t (x1 t) /\ is_derive x1 t (x2 t) /\ is_derive x2 t (x3 t) /\
  is_derive (fun s => k s mu) t (k1 t) /\ is_derive k1 t (k2 t) /\ Rabs (x1 t) <= M /\ Rabs (x2 t) <= M /\ Rabs (x3 t) <= M /\ Rabs (k1 t) <= M /\ Rabs (k2 t) <= M.

Lemma shift0 (psi dpsi : R -> R) h c n : (forall u, 0 <= u <= h -> is_derive psi u (dpsi u)) -> (forall u, 0 <= u <= h -> Rabs (dpsi u) <= c * u ^ n) ->
  forall u, 0 <= u <= h -> Rabs (psi u - psi 0) <= c * u ^ S n / INR (S n).
Proof.
  intros Hd Hb. apply (bound_by_derivative (fun u => psi u - psi 0) dpsi c n h); [ring| |exact Hb].
  intros u Hu. replace (dpsi u) with (dpsi u - 0) by ring. apply is_derive_sub; [apply Hd, Hu|apply (is_derive_const (V := R_NormedModule))].
Qed.
Lemma taylor1 (f f1 f2 : R -> R) T M : (forall t, 0 <= t <= T -> is_derive f t (f1 t) /\ is_derive f1 t (f2 t) /\ Rabs (f2 t) <= M) ->
  forall t, 0 <= t <= T -> Rabs (f t - f 0 - t * f1 0) <= M * t ^ 2 / 2 /\ Rabs (f1 t - f1 0) <= M * t.
Proof.
  intros H.
  assert (A : forall u, 0 <= u <= T -> Rabs (f1 u - f1 0) <= M * u).
  { intros u Hu. pose proof (shift0 f1 f2 T M 0%nat (fun v Hv => proj1 (proj2 (H v Hv))) (fun v Hv => ltac:(rewrite pow_O, Rmult_1_r; exact (proj2 (proj2 (H v Hv))))) u Hu) as Q.
    cbn [INR] in Q. rewrite pow_1 in Q. lra. }
  intros t Ht. split; [|apply A, Ht].
  pose proof (shift0 (fun u => f u - u * f1 0) (fun u => f1 u - f1 0) T M 1%nat) as Q. cbv beta in Q.
  replace (f t - f 0 - t * f1 0) with (f t - t * f1 0 - (f 0 - 0 * f1 0)) by ring.
  replace (M * t ^ 2 / 2) with (M * t ^ 2 / INR 2) by (cbn [INR]; lra). apply Q; [| |exact Ht].
  - intros u Hu. apply is_derive_sub; [exact (proj1 (H u Hu))|]. auto_derive; [exact I|ring].
  - intros u Hu. rewrite pow_1. apply A, Hu.
Qed.
Lemma trapezoid (f f1 f2 f3 : R -> R) T M : (forall t, 0 <= t <= T -> is_derive f t (f1 t) /\ is_derive f1 t (f2 t) /\ is_derive f2 t (f3 t) /\ Rabs (f3 t) <= M) ->
  forall t, 0 <= t <= T -> Rabs (f t - f 0 - t / 2 * (f1 0 + f1 t)) <= M * t ^ 3 / 12.
Proof.
  intros H.
  assert (A : forall u, 0 <= u <= T -> Rabs (f1 u - f1 0 - u * f2 u) <= M * u ^ 2 / 2).
  { intros u Hu. pose proof (shift0 (fun v => f1 v - v * f2 v) (fun v => - (v * f3 v)) T M 1%nat) as Q. cbv beta in Q.
    replace (f1 u - f1 0 - u * f2 u) with (f1 u - u * f2 u - (f1 0 - 0 * f2 0)) by ring. replace (M * u ^ 2 / 2) with (M * u ^ 2 / INR 2) by (cbn [INR]; lra). apply Q; [| |exact Hu].
    - intros v Hv. destruct (H v Hv) as (_ & D1 & D2 & _). replace (- (v * f3 v)) with (f2 v - (1 * f2 v + v * f3 v)) by ring. apply is_derive_sub; [exact D1|]. apply is_derive_mul; [apply (is_derive_id (K := R_AbsRing))|exact D2].
    - intros v Hv. destruct (H v Hv) as (_ & _ & _ & B). rewrite Rabs_Ropp, Rabs_mult, pow_1, Rmult_comm. rewrite (Rabs_right v) by lra. apply Rmult_le_compat_r; lra. }
  intros t Ht. pose proof (shift0 (fun u => f u - u / 2 * (f1 0 + f1 u)) (fun u => (f1 u - f1 0 - u * f2 u) / 2) T (M / 4) 2%nat) as Q. cbv beta in Q.
  replace (f t - f 0 - t / 2 * (f1 0 + f1 t)) with (f t - t / 2 * (f1 0 + f1 t) - (f 0 - 0 / 2 * (f1 0 + f1 0))) by field.
  replace (M * t ^ 3 / 12) with (M / 4 * t ^ 3 / INR 3) by (cbn [INR]; field). apply Q; [| |exact Ht].
  - intros u Hu. destruct (H u Hu) as (D0 & D1 & _ & _). replace ((f1 u - f1 0 - u * f2 u) / 2) with (f1 u - (/ 2 * (f1 0 + f1 u) + u / 2 * (0 + f2 u))) by field.
    apply is_derive_sub; [exact D0|]. apply (is_derive_mul (fun v => v / 2) (fun v => f1 0 + f1 v)); [auto_derive; [exact I|field]|].
    apply is_derive_add; [apply (is_derive_const (V := R_NormedModule))|exact D1].
  - intros u Hu. unfold Rdiv. rewrite Rabs_mult, (Rabs_right (/ 2)) by lra. pose proof (A u Hu). lra.
Qed.

(** Every geometry, light ray and step: if the momentum source is accurate to eps and the rates
    are Lipschitz on a region holding the ray and the predicted points, the pushed position
    differs from the ray by O(dt^3 + eps dt^2), the momentum by O(dt^2 + eps dt), with a
    constant depending only on the bounds. *)
Theorem C43_order : forall M L T, 0 <= M -> 0 <= L -> 0 <= T -> exists C, 0 <= C /\
  forall flat geom x k eps dt (D : vec -> vec -> Prop), 0 <= dt <= T -> 0 <= eps ->
  light_ray (SpacetimeMetric geom) (SpacetimeMetricInverse geom) T x k -> smooth_ray x k T M ->
  (forall t, 0 <= t <= T -> raised (SpacetimeMetricInverse geom (x t)) (k t) 0%nat <> 0) ->
  (forall mu dg, (mu < 4)%nat -> is_metric_derivative (SpacetimeMetric geom) (x 0) dg ->
     Rabs (krate flat geom (x 0) (x 0) (k 0) mu - geodesic_force dg (raised (SpacetimeMetricInverse geom (x 0)) (k 0)) mu) <= eps) ->
  D (x 0) (k 0) -> D (x dt) (k dt) -> D (fun mu => x 0 mu + dt * xrate geom (x 0) (k 0) mu) (fun mu => k 0 mu + dt * krate flat geom (x 0) (x 0) (k 0) mu) ->
  (forall Y P Y' P' mu, D Y P -> D Y' P' -> (mu < 4)%nat ->
     Rabs (xrate geom Y P mu - xrate geom Y' P' mu) <= L * (dist4 Y Y' + dist4 P P') /\
     Rabs (krate flat geom (x 0) Y P mu - krate flat geom (x 0) Y' P' mu) <= L * (dist4 Y Y' + dist4 P P')) ->
  forall mu, (mu < 4)%nat ->
    Rabs (fst (PushParticle flat geom dt (x 0, k 0)) mu - x dt mu) <= C * (dt ^ 3 + eps * dt ^ 2) /\
    Rabs (snd (PushParticle flat geom dt (x 0, k 0)) mu - k dt mu) <= C * (dt ^ 2 + eps * dt).
Proof.
  intros M L T HM HL HT. exists (M + 4 * L * M + 2 * L + 1 + 2 * L * T). split; [assert (0 <= L * M) by (apply Rmult_le_pos; assumption); assert (0 <= L * T) by (apply Rmult_le_pos; assumption); nra|].
  intros flat geom x k eps dt D Hdt He Ray Sm K0 Acc D0 D1 Dp Lip.
  set (gi := SpacetimeMetricInverse geom) in *.
  set (c1 := xrate geom (x 0) (k 0)) in *. set (d1 := krate flat geom (x 0) (x 0) (k 0)) in *.
  set (Xp := fun mu => x 0 mu + dt * c1 mu) in *. set (Kp := fun mu => k 0 mu + dt * d1 mu) in *.
  assert (PE : PushParticle flat geom dt (x 0, k 0) = (fun mu => x 0 mu + / 2 * dt * (c1 mu + xrate geom Xp Kp mu), fun mu => k 0 mu + / 2 * dt * (d1 mu + krate flat geom (x 0) Xp Kp mu))) by reflexivity.
  rewrite PE. cbn [fst snd]. clear PE.
  assert (XR : forall t mu x1, 0 <= t <= T -> (mu < 4)%nat -> is_derive (fun s => x s mu) t x1 -> xrate geom (x t) (k t) mu = x1).
  { intros t mu x1 Ht Hm Hd. destruct (Ray t Ht) as (dg & _ & R). destruct (R mu Hm) as [R1 _]. pose proof (eq_trans (eq_sym (is_derive_unique _ _ _ R1)) (is_derive_unique _ _ _ Hd)) as Q. rewrite <- Q.
    unfold xrate, GetXSource. rewrite Raise_raised. fold gi. destruct mu; [|reflexivity]. field. exact (K0 t Ht). }
  assert (KR : forall mu k1, (mu < 4)%nat -> is_derive (fun s => k s mu) 0 k1 -> Rabs (d1 mu - k1) <= eps).
  { intros mu k1 Hm Hd. destruct (Ray 0 ltac:(lra)) as (dg & Hg & R). destruct (R mu Hm) as [_ R1]. rewrite (eq_sym (eq_trans (eq_sym (is_derive_unique _ _ _ R1)) (is_derive_unique _ _ _ Hd))). exact (Acc mu dg Hm Hg). }
  (* predictor *)
  assert (PX : forall mu, (mu < 4)%nat -> Rabs (Xp mu - x dt mu) <= M * dt ^ 2 / 2 /\ Rabs (Xp mu - x 0 mu) <= M * dt /\ Rabs (Kp mu - k dt mu) <= M * dt ^ 2 / 2 + eps * dt /\ Rabs (Kp mu - k 0 mu) <= (M + eps) * dt).
  { intros mu Hm. destruct (Sm mu Hm) as (x1 & x2 & x3 & k1 & k2 & S).
    assert (C1 : c1 mu = x1 0) by (apply (XR 0 mu); [lra|exact Hm|exact (proj1 (S 0 ltac:(lra)))]).
    assert (E1 : Rabs (d1 mu - k1 0) <= eps) by (apply KR; [exact Hm|exact (proj1 (proj2 (proj2 (proj2 (S 0 ltac:(lra))))))]).
    destruct (taylor1 (fun t => x t mu) x1 x2 T M ltac:(intros t Ht; destruct (S t Ht) as (A1 & A2 & _ & _ & _ & _ & A3 & _); auto) dt Hdt) as [Tx _].
    destruct (taylor1 (fun t => k t mu) k1 k2 T M ltac:(intros t Ht; destruct (S t Ht) as (_ & _ & _ & A1 & A2 & _ & _ & _ & _ & A3); auto) dt Hdt) as [Tk _].
    destruct (S 0 ltac:(lra)) as (_ & _ & _ & _ & _ & B1 & _ & _ & B2 & _).
    unfold Xp, Kp. rewrite C1. split; [|split; [|split]].
    - rewrite <- Rabs_Ropp. replace (- (x 0 mu + dt * x1 0 - x dt mu)) with (x dt mu - x 0 mu - dt * x1 0) by ring. exact Tx.
    - replace (x 0 mu + dt * x1 0 - x 0 mu) with (dt * x1 0) by ring. rewrite Rabs_mult, (Rabs_right dt) by lra. rewrite Rmult_comm. apply Rmult_le_compat_r; lra.
    - replace (k 0 mu + dt * d1 mu - k dt mu) with (- (k dt mu - k 0 mu - dt * k1 0) + dt * (d1 mu - k1 0)) by ring.
      eapply Rle_trans; [apply Rabs_triang|]. rewrite Rabs_Ropp, Rabs_mult, (Rabs_right dt) by lra. apply Rplus_le_compat; [exact Tk|]. rewrite Rmult_comm. apply Rmult_le_compat_r; lra.
    - replace (k 0 mu + dt * d1 mu - k 0 mu) with (dt * (d1 mu - k1 0 + k1 0)) by ring. rewrite Rabs_mult, (Rabs_right dt) by lra. rewrite Rmult_comm. apply Rmult_le_compat_r; [lra|].
      eapply Rle_trans; [apply Rabs_triang|]. lra. }
  assert (DX : dist4 Xp (x dt) + dist4 Kp (k dt) <= 4 * M * dt ^ 2 + 4 * eps * dt).
  { unfold dist4. destruct (PX 0%nat ltac:(lia)) as (? & _ & ? & _). destruct (PX 1%nat ltac:(lia)) as (? & _ & ? & _). destruct (PX 2%nat ltac:(lia)) as (? & _ & ? & _). destruct (PX 3%nat ltac:(lia)) as (? & _ & ? & _). lra. }
  assert (DK : dist4 Xp (x 0) + dist4 Kp (k 0) <= (8 * M + 4 * eps) * dt).
  { unfold dist4. destruct (PX 0%nat ltac:(lia)) as (_ & ? & _ & ?). destruct (PX 1%nat ltac:(lia)) as (_ & ? & _ & ?). destruct (PX 2%nat ltac:(lia)) as (_ & ? & _ & ?). destruct (PX 3%nat ltac:(lia)) as (_ & ? & _ & ?). lra. }
  intros mu Hm. destruct (Sm mu Hm) as (x1 & x2 & x3 & k1 & k2 & S).
  destruct (Lip Xp Kp (x dt) (k dt) mu Dp D1 Hm) as [LX _]. destruct (Lip Xp Kp (x 0) (k 0) mu Dp D0 Hm) as [_ LK]. fold d1 in LK.
  assert (C1 : c1 mu = x1 0) by (apply (XR 0 mu); [lra|exact Hm|exact (proj1 (S 0 ltac:(lra)))]).
  assert (C2 : xrate geom (x dt) (k dt) mu = x1 dt) by (apply (XR dt mu); [exact Hdt|exact Hm|exact (proj1 (S dt Hdt))]).
  rewrite C2 in LX.
  assert (E1 : Rabs (d1 mu - k1 0) <= eps) by (apply KR; [exact Hm|exact (proj1 (proj2 (proj2 (proj2 (S 0 ltac:(lra))))))]).
  pose proof (trapezoid (fun t => x t mu) x1 x2 x3 T M ltac:(intros t Ht; destruct (S t Ht) as (A1 & A2 & A4 & _ & _ & _ & _ & A3 & _); auto) dt Hdt) as Tz.
  destruct (taylor1 (fun t => k t mu) k1 k2 T M ltac:(intros t Ht; destruct (S t Ht) as (_ & _ & _ & A1 & A2 & _ & _ & _ & _ & A3); auto) dt Hdt) as [Tk _].
  set (c2 := xrate geom Xp Kp mu) in *. set (d2 := krate flat geom (x 0) Xp Kp mu) in *. cbv beta in Tz, Tk.
  assert (LX' : Rabs (c2 - x1 dt) <= L * (4 * M * dt ^ 2 + 4 * eps * dt)) by (eapply Rle_trans; [exact LX|apply Rmult_le_compat_l; assumption]).
  assert (LK' : Rabs (d2 - d1 mu) <= L * ((8 * M + 4 * eps) * dt)) by (eapply Rle_trans; [exact LK|apply Rmult_le_compat_l; assumption]).
  assert (P2 : 0 <= dt ^ 2) by (apply pow_le; lra). assert (P3 : 0 <= dt ^ 3) by (apply pow_le; lra).
  assert (Le : 0 <= L * eps) by (apply Rmult_le_pos; assumption). assert (LM : 0 <= L * M) by (apply Rmult_le_pos; assumption). assert (LT : 0 <= L * T) by (apply Rmult_le_pos; assumption).
  split.
  - rewrite C1. replace (x 0 mu + / 2 * dt * (x1 0 + c2) - x dt mu) with (- (x dt mu - x 0 mu - dt / 2 * (x1 0 + x1 dt)) + dt / 2 * (c2 - x1 dt)) by field.
    eapply Rle_trans; [apply Rabs_triang|]. rewrite Rabs_Ropp, Rabs_mult, (Rabs_right (dt / 2)) by lra.
    apply (Rle_trans _ (M * dt ^ 3 / 12 + dt / 2 * (L * (4 * M * dt ^ 2 + 4 * eps * dt)))); [apply Rplus_le_compat; [exact Tz|apply Rmult_le_compat_l; [lra|exact LX']]|].
    replace (M * dt ^ 3 / 12 + dt / 2 * (L * (4 * M * dt ^ 2 + 4 * eps * dt))) with ((M / 12 + 2 * (L * M)) * dt ^ 3 + 2 * L * (eps * dt ^ 2)) by field.
    assert (Q1 : (M / 12 + 2 * (L * M)) * dt ^ 3 <= (M + 4 * L * M + 2 * L + 1 + 2 * L * T) * dt ^ 3) by (apply Rmult_le_compat_r; lra).
    assert (Q2 : 2 * L * (eps * dt ^ 2) <= (M + 4 * L * M + 2 * L + 1 + 2 * L * T) * (eps * dt ^ 2)) by (apply Rmult_le_compat_r; [apply Rmult_le_pos; assumption|lra]). lra.
  - replace (k 0 mu + / 2 * dt * (d1 mu + d2) - k dt mu) with (- (k dt mu - k 0 mu - dt * k1 0) + (dt * (d1 mu - k1 0) + dt / 2 * (d2 - d1 mu))) by field.
    eapply Rle_trans; [apply Rabs_triang|]. rewrite Rabs_Ropp.
    apply (Rle_trans _ (M * dt ^ 2 / 2 + (dt * eps + dt / 2 * (L * ((8 * M + 4 * eps) * dt))))).
    + apply Rplus_le_compat; [exact Tk|]. eapply Rle_trans; [apply Rabs_triang|]. rewrite !Rabs_mult, (Rabs_right (dt / 2)), (Rabs_right dt) by lra. apply Rplus_le_compat; apply Rmult_le_compat_l; lra.
    + replace (M * dt ^ 2 / 2 + (dt * eps + dt / 2 * (L * ((8 * M + 4 * eps) * dt)))) with ((M / 2 + 4 * (L * M)) * dt ^ 2 + (1 + 2 * (L * dt)) * (eps * dt)) by field.
      assert (Ld : L * dt <= L * T) by (apply Rmult_le_compat_l; lra).
      assert (Q1 : (M / 2 + 4 * (L * M)) * dt ^ 2 <= (M + 4 * L * M + 2 * L + 1 + 2 * L * T) * dt ^ 2) by (apply Rmult_le_compat_r; lra).
      assert (Q2 : (1 + 2 * (L * dt)) * (eps * dt) <= (M + 4 * L * M + 2 * L + 1 + 2 * L * T) * (eps * dt)) by (apply Rmult_le_compat_r; [apply Rmult_le_pos; lra|lra]). lra.
Qed.
Print Assumptions C43_order.

(** *** a ray in the expanding universe a = 1 + t *)
Definition ray_x (t : R) : vec := row4 t (ln (1 + t)) 0 0.
Definition ray_k (t : R) : vec := row4 (- (1 / (1 + t))) 1 0 0.
Lemma gratio_pos a b : 0 < b -> gratio a b = a / b.
Proof. intros H. unfold gratio. rewrite Req_bool_false by lra. reflexivity. Qed.
Lemma flrw_inv X : -1 < X 0%nat -> let a := 1 + X 0%nat in forall P : vec,
  Raise P (SpacetimeMetricInverse (FLRW 1 1) X) 0%nat = - P 0%nat /\ forall i, (i < 3)%nat -> Raise P (SpacetimeMetricInverse (FLRW 1 1) X) (S i) = P (S i) / (a * a).
Proof.
  intros H a P. assert (0 < a * a) by (unfold a; nra). assert (F : flrw_a 1 1 (X 0%nat) = a) by (unfold flrw_a, a; ring).
  split; [|intros i Hi; destruct i as [|[|[|i]]]; try lia]; unfold Raise, sum4; cbv beta iota zeta delta [SpacetimeMetricInverse FLRW rows4 row4]; rewrite ?F, ?gratio_pos by assumption; field; unfold a in *; nra.
Qed.
Lemma flrw_ksource X (P : vec) p0 : 0 <= X 0%nat -> p0 <> 0 -> let a := 1 + X 0%nat in
  GetKSource false (FLRW 1 1) X P p0 0%nat = (P 1%nat ^ 2 + P 2%nat ^ 2 + P 3%nat ^ 2) * a / (p0 * ((a + DELTA) ^ 2 * (a - DELTA) ^ 2)).
Proof.
  intros H Hp a. unfold GetKSource. cbv zeta. rewrite ksource_width.
  assert (D1 : 0 < DELTA < 1) by (unfold DELTA; lra).
  assert (Fp : flrw_a 1 1 (nudged X 0 DELTA 0%nat) = a + DELTA) by (rewrite nudged_same; unfold flrw_a, a; ring).
  assert (Fm : flrw_a 1 1 (nudged X 0 (- DELTA) 0%nat) = a - DELTA) by (rewrite nudged_same; unfold flrw_a, a; ring).
  set (Yp := nudged X 0 DELTA) in *. set (Ym := nudged X 0 (- DELTA)) in *. clearbody Yp Ym.
  unfold sum4; cbv beta iota zeta delta [SpacetimeMetricInverse FLRW rows4 row4]. rewrite Fp, Fm.
  assert (0 < a + DELTA) by (unfold a; lra). assert (0 < a - DELTA) by (unfold a; lra).
  rewrite !gratio_pos by (apply Rmult_lt_0_compat; assumption). field. repeat split; lra.
Qed.
Lemma flrw_ray T : 0 <= T -> light_ray (SpacetimeMetric (FLRW 1 1)) (SpacetimeMetricInverse (FLRW 1 1)) T ray_x ray_k.
Proof.
  intros HT t Ht. cbv zeta. exists (MetricDerivative (FLRW 1 1) (ray_x t)). split.
  { exact (proj1 (flrw_deriv 1 1 (ray_x t))). }
  assert (H0 : ray_x t 0%nat = t) by reflexivity.
  destruct (flrw_inv (ray_x t) ltac:(rewrite H0; lra) (ray_k t)) as [R0 Ri]. rewrite H0 in Ri.
  change (Raise (ray_k t) (SpacetimeMetricInverse (FLRW 1 1) (ray_x t))) with (raised (SpacetimeMetricInverse (FLRW 1 1) (ray_x t)) (ray_k t)) in R0, Ri.
  set (kc := raised (SpacetimeMetricInverse (FLRW 1 1) (ray_x t)) (ray_k t)) in *. cbv beta iota delta [ray_k row4] in R0, Ri.
  assert (Pt : 0 < 1 + t) by lra.
  intros mu Hm. destruct mu as [|[|[|[|mu]]]]; try lia; (split; [unfold ray_x, row4|unfold ray_k, row4]); cbv iota.
  - rewrite R0. auto_derive; [exact I|field; lra].
  - unfold geodesic_force, sum4. cbv beta iota zeta delta [MetricDerivative FLRW]. rewrite R0, !Ri by lia. unfold flrw_a. rewrite !H0. auto_derive; [lra|field; lra].
  - rewrite R0, (Ri 0%nat) by lia. auto_derive; [lra|field; lra].
  - unfold geodesic_force, sum4. cbv beta iota zeta delta [MetricDerivative FLRW]. rewrite R0. auto_derive; [exact I|field; lra].
  - rewrite R0, (Ri 1%nat) by lia. auto_derive; [exact I|field; lra].
  - unfold geodesic_force, sum4. cbv beta iota zeta delta [MetricDerivative FLRW]. rewrite R0. auto_derive; [exact I|field; lra].
  - rewrite R0, (Ri 2%nat) by lia. auto_derive; [exact I|field; lra].
  - unfold geodesic_force, sum4. cbv beta iota zeta delta [MetricDerivative FLRW]. rewrite R0. auto_derive; [exact I|field; lra].
Qed.

Definition phi_fd : R := / ((1 + DELTA) ^ 2 * (1 - DELTA) ^ 2).
Lemma phi_fd_bounds : 1 <= phi_fd <= 1 + / 1000000.
Proof.
  unfold phi_fd, DELTA. set (q := (1 + 1 / 1000000) ^ 2 * (1 - 1 / 1000000) ^ 2).
  assert (B : 1 - / 10000000 <= q <= 1) by (unfold q; lra). split.
  - replace 1 with (/ 1) at 1 by field. apply Rinv_le_contravar; lra.
  - apply (Rmult_le_reg_r q); [lra|]. rewrite Rinv_l by lra. nra.
Qed.
Lemma ray_krate (Y P : vec) : -1 < Y 0%nat -> P 0%nat <> 0 -> P 1%nat = 1 -> P 2%nat = 0 -> P 3%nat = 0 ->
  krate false (FLRW 1 1) (ray_x 0) Y P 0%nat = phi_fd / - P 0%nat.
Proof.
  intros HY HP P1 P2 P3. unfold krate. destruct (flrw_inv Y HY P) as [R0 _]. rewrite R0.
  rewrite flrw_ksource; [|cbn; lra|lra]. rewrite P1, P2, P3. change (ray_x 0 0%nat) with 0. unfold phi_fd, DELTA. field. lra.
Qed.
Lemma ray_krate_i flat (X Y P : vec) i : (i < 3)%nat -> krate flat (FLRW 1 1) X Y P (S i) = 0.
Proof. intros Hi. unfold krate. apply ksource_symmetry; [lia|]. intros Z h a b _ _. destruct i as [|[|[|i]]]; try lia; reflexivity. Qed.

(** VIOLATION: the momentum source of the second stage is taken at the old position, so a push
    is only first order: for this ray the momentum is off by at least dt^2, for every step up
    to 1/2 (no bound C dt^3 holds), and the pushed momentum is spacelike. *)
Theorem C43_second_order_refuted : forall dt, 0 < dt <= / 2 ->
  light_ray (SpacetimeMetric (FLRW 1 1)) (SpacetimeMetricInverse (FLRW 1 1)) dt ray_x ray_k /\
  let '(X', K') := PushParticle false (FLRW 1 1) dt (ray_x 0, ray_k 0) in
  dt ^ 2 <= K' 0%nat - ray_k dt 0%nat /\
  0 < sum4 (fun mu => sum4 (fun nu => SpacetimeMetricInverse (FLRW 1 1) X' mu nu * K' mu * K' nu)).
Proof.
  intros dt Hdt. split; [apply flrw_ray; lra|].
  destruct (PushParticle false (FLRW 1 1) dt (ray_x 0, ray_k 0)) as [X' K'] eqn:E.
  set (c1 := xrate (FLRW 1 1) (ray_x 0) (ray_k 0)). set (d1 := krate false (FLRW 1 1) (ray_x 0) (ray_x 0) (ray_k 0)).
  assert (EX : X' 0%nat = dt) by (pose proof (C43_time false (FLRW 1 1) (dt :: nil) (ray_x 0) (ray_k 0)) as Q; cbn [push_all] in Q; unfold total in Q; cbn [fold_right] in Q; change X' with (fst (X', K')); rewrite <- E; etransitivity; [exact Q|unfold ray_x, row4; ring]).
  assert (EK : forall mu, K' mu = ray_k 0 mu + / 2 * dt * (d1 mu + krate false (FLRW 1 1) (ray_x 0) (fun mu => ray_x 0 mu + dt * c1 mu) (fun mu => ray_k 0 mu + dt * d1 mu) mu)).
  { intros mu. change K' with (snd (X', K')). rewrite <- E. reflexivity. }
  pose proof phi_fd_bounds as Pb.
  assert (r00 : ray_k 0 0%nat = -1) by (unfold ray_k, row4; field).
  assert (D1 : d1 0%nat = phi_fd) by (unfold d1; rewrite ray_krate; [rewrite r00; field|cbn; lra|lra|reflexivity|reflexivity|reflexivity]).
  assert (Ki : forall i, (i < 3)%nat -> K' (S i) = ray_k 0 (S i)) by (intros i Hi; rewrite EK; unfold d1; rewrite !ray_krate_i by exact Hi; ring).
  assert (C0 : c1 0%nat = 1) by reflexivity.
  assert (K0 : K' 0%nat = -1 + / 2 * dt * (phi_fd + phi_fd / (1 - dt * phi_fd))).
  { rewrite EK. rewrite ray_krate; cbv beta.
    - rewrite D1, r00. f_equal. f_equal. f_equal. f_equal. ring.
    - rewrite C0. change (ray_x 0 0%nat) with 0. lra.
    - rewrite D1, r00. nra.
    - unfold d1. rewrite ray_krate_i by lia. cbn. ring.
    - unfold d1. rewrite ray_krate_i by lia. cbn. ring.
    - unfold d1. rewrite ray_krate_i by lia. cbn. ring. }
  assert (Dq : dt * phi_fd <= / 2 * (1 + / 1000000)) by (apply Rmult_le_compat; lra).
  assert (Q : 0 < 1 - dt * phi_fd) by lra.
  assert (V : 1 + dt <= / (1 - dt * phi_fd)).
  { apply (Rmult_le_reg_r (1 - dt * phi_fd)); [exact Q|]. rewrite Rinv_l by lra. nra. }
  assert (Lo : -1 + dt + dt ^ 2 / 2 <= K' 0%nat) 
    by (rewrite K0; assert (Z : 1 * (2 + dt) <= phi_fd * (1 + / (1 - dt * phi_fd))) by (apply Rmult_le_compat; lra); replace (phi_fd + phi_fd / (1 - dt * phi_fd)) with (phi_fd * (1 + / (1 - dt * phi_fd))) by (field; lra); assert (Z2 : dt * (1 * (2 + dt)) <= dt * (phi_fd * (1 + / (1 - dt * phi_fd)))) by (apply Rmult_le_compat_l; lra); lra).
  assert (U : / (1 - dt * phi_fd) <= 5 / 2).
  { apply (Rmult_le_reg_r (1 - dt * phi_fd)); [exact Q|]. rewrite Rinv_l by lra. lra. }
  assert (Hi : K' 0%nat < 0).
  { rewrite K0. replace (-1 + / 2 * dt * (phi_fd + phi_fd / (1 - dt * phi_fd))) with (-1 + / 2 * (dt * phi_fd) * (1 + / (1 - dt * phi_fd))) by (field; lra).
    assert (Z : dt * phi_fd * (1 + / (1 - dt * phi_fd)) <= / 2 * (1 + / 1000000) * (1 + 5 / 2)) by (apply Rmult_le_compat; [apply Rmult_le_pos; lra|assert (0 < / (1 - dt * phi_fd)) by (apply Rinv_0_lt_compat; exact Q); lra|exact Dq|lra]). lra. }
  assert (I1 : / (1 + dt) >= 1 - dt + dt ^ 2 / 2). { apply Rle_ge, (Rmult_le_reg_r (1 + dt)); [lra|]. rewrite Rinv_l by lra. nra. }
  assert (I2 : K' 0%nat - - (1 / (1 + dt)) >= dt ^ 2) by (unfold Rdiv; rewrite Rmult_1_l; lra).
  split; [unfold ray_k, row4; lra|].
  assert (B : - (1 / (1 + dt)) < K' 0%nat) by nra.
  assert (Sm : sum4 (fun mu => sum4 (fun nu => SpacetimeMetricInverse (FLRW 1 1) X' mu nu * K' mu * K' nu)) = / ((1 + dt) * (1 + dt)) - K' 0%nat ^ 2).
  { transitivity (sum4 (fun mu => K' mu * Raise K' (SpacetimeMetricInverse (FLRW 1 1) X') mu)); [unfold Raise, sum4; ring|].
    destruct (flrw_inv X' ltac:(rewrite EX; lra) K') as [R0 Ri]. unfold sum4. rewrite R0, !Ri by lia. rewrite EX. rewrite (Ki 0%nat), (Ki 1%nat), (Ki 2%nat) by lia. unfold ray_k, row4. field. lra. }
  rewrite Sm. assert (P0 : 0 < 1 / (1 + dt)) by (apply Rdiv_lt_0_compat; lra). replace (/ ((1 + dt) * (1 + dt))) with (1 / (1 + dt) * (1 / (1 + dt))) by (field; lra). nra.
Qed.
Print Assumptions C43_second_order_refuted.

(** the ray in the expanding universe meets the hypotheses of C43_order, with steps up to 1/8 *)
Definition ray_region (Y P : vec) : Prop := 0 <= Y 0%nat <= / 8 /\ -2 <= P 0%nat <= - / 2 /\ P 1%nat = 1 /\ P 2%nat = 0 /\ P 3%nat = 0.
Lemma inv_diff u v : / 4 <= u -> / 4 <= v -> Rabs (/ u - / v) <= 16 * Rabs (u - v).
Proof.
  intros Hu Hv. replace (/ u - / v) with ((v - u) * (/ u * / v)) by (field; lra). rewrite Rabs_mult, Rabs_minus_sym, Rmult_comm.
  assert (Iu : 0 < / u <= 4) by (split; [apply Rinv_0_lt_compat; lra|replace 4 with (/ / 4) by field; apply Rinv_le_contravar; lra]).
  assert (Iv : 0 < / v <= 4) by (split; [apply Rinv_0_lt_compat; lra|replace 4 with (/ / 4) by field; apply Rinv_le_contravar; lra]).
  apply Rmult_le_compat_r; [apply Rabs_pos|]. rewrite Rabs_right by (apply Rle_ge, Rmult_le_pos; lra). replace 16 with (4 * 4) by ring. apply Rmult_le_compat; lra.
Qed.
Example C43_order_nonvacuous : forall dt, 0 <= dt <= / 8 ->
  light_ray (SpacetimeMetric (FLRW 1 1)) (SpacetimeMetricInverse (FLRW 1 1)) (/ 8) ray_x ray_k /\ smooth_ray ray_x ray_k (/ 8) 2 /\
  (forall t, 0 <= t <= / 8 -> raised (SpacetimeMetricInverse (FLRW 1 1) (ray_x t)) (ray_k t) 0%nat <> 0) /\
  (forall mu dg, (mu < 4)%nat -> is_metric_derivative (SpacetimeMetric (FLRW 1 1)) (ray_x 0) dg ->
     Rabs (krate false (FLRW 1 1) (ray_x 0) (ray_x 0) (ray_k 0) mu - geodesic_force dg (raised (SpacetimeMetricInverse (FLRW 1 1) (ray_x 0)) (ray_k 0)) mu) <= / 1000000) /\
  ray_region (ray_x 0) (ray_k 0) /\ ray_region (ray_x dt) (ray_k dt) /\
  ray_region (fun mu => ray_x 0 mu + dt * xrate (FLRW 1 1) (ray_x 0) (ray_k 0) mu) (fun mu => ray_k 0 mu + dt * krate false (FLRW 1 1) (ray_x 0) (ray_x 0) (ray_k 0) mu) /\
  (forall Y P Y' P' mu, ray_region Y P -> ray_region Y' P' -> (mu < 4)%nat ->
     Rabs (xrate (FLRW 1 1) Y P mu - xrate (FLRW 1 1) Y' P' mu) <= 100 * (dist4 Y Y' + dist4 P P') /\
     Rabs (krate false (FLRW 1 1) (ray_x 0) Y P mu - krate false (FLRW 1 1) (ray_x 0) Y' P' mu) <= 100 * (dist4 Y Y' + dist4 P P')).
Proof.
  intros dt Hdt. pose proof phi_fd_bounds as Pb.
  assert (r00 : ray_k 0 0%nat = -1) by (unfold ray_k, row4; field).
  assert (D1 : krate false (FLRW 1 1) (ray_x 0) (ray_x 0) (ray_k 0) 0%nat = phi_fd) by (rewrite ray_krate; [rewrite r00; field|cbn; lra|lra|reflexivity|reflexivity|reflexivity]).
  assert (Rg : forall t, 0 <= t <= / 8 -> ray_region (ray_x t) (ray_k t)).
  { intros t Ht. unfold ray_region, ray_x, ray_k, row4. assert (I1 : / (1 + t) <= 1) by (replace 1 with (/ 1) at 2 by field; apply Rinv_le_contravar; lra).
    assert (I2 : / 2 <= / (1 + t)) by (apply Rinv_le_contravar; lra). unfold Rdiv. repeat split; lra. }
  split; [apply flrw_ray; lra|]. split; [|split; [|split; [|split; [|split; [|split]]]]].
  - intros mu Hm.
    assert (IB : forall t, 0 <= t <= / 8 -> 0 < / (1 + t) <= 1) by (intros t Ht; split; [apply Rinv_0_lt_compat; lra|replace 1 with (/ 1) at 2 by field; apply Rinv_le_contravar; lra]).
    assert (A0 : forall c, Rabs c <= 2 -> True) by trivial.
    destruct mu as [|[|[|[|mu]]]]; try lia.
    + exists (fun _ => 1), (fun _ => 0), (fun _ => 0), (fun t => / (1 + t) ^ 2), (fun t => -2 * / (1 + t) ^ 3). intros t Ht. unfold ray_x, ray_k, row4. pose proof (IB t Ht) as Bt.
      replace (/ (1 + t) ^ 2) with (/ (1 + t) * / (1 + t)) by (field; lra). replace (/ (1 + t) ^ 3) with (/ (1 + t) * / (1 + t) * / (1 + t)) by (field; lra).
      split; [auto_derive; [exact I|ring]|]. split; [auto_derive; [exact I|ring]|]. split; [auto_derive; [exact I|ring]|]. split; [auto_derive; [lra|field; lra]|]. split; [auto_derive; [assert (0 < (1 + t) ^ 2) by (apply pow_lt; lra); cbn in *; nra|field; lra]|].
      rewrite Rabs_R1, Rabs_R0. rewrite (Rabs_right (/ (1 + t) * / (1 + t))) by nra. rewrite Rabs_mult, (Rabs_left (-2)) by lra. set (q := / (1 + t)) in *. rewrite (Rabs_right (q * q * q)) by (apply Rle_ge; repeat apply Rmult_le_pos; lra). assert (q * q <= 1) by nra. assert (q * q * q <= 1) by nra. repeat split; lra.
    + exists (fun t => / (1 + t)), (fun t => - / (1 + t) ^ 2), (fun t => 2 * / (1 + t) ^ 3), (fun _ => 0), (fun _ => 0). intros t Ht. unfold ray_x, ray_k, row4. pose proof (IB t Ht) as Bt.
      replace (/ (1 + t) ^ 2) with (/ (1 + t) * / (1 + t)) by (field; lra). replace (/ (1 + t) ^ 3) with (/ (1 + t) * / (1 + t) * / (1 + t)) by (field; lra).
      split; [auto_derive; [lra|field; lra]|]. split; [auto_derive; [lra|field; lra]|]. split; [auto_derive; [assert (0 < (1 + t) ^ 2) by (apply pow_lt; lra); cbn in *; nra|field; lra]|]. split; [auto_derive; [exact I|ring]|]. split; [auto_derive; [exact I|ring]|].
      rewrite Rabs_Ropp, Rabs_R0. set (q := / (1 + t)) in *. rewrite (Rabs_right q), (Rabs_right (q * q)) by nra. rewrite Rabs_mult, (Rabs_right 2) by lra. rewrite (Rabs_right (q * q * q)) by (apply Rle_ge; repeat apply Rmult_le_pos; lra). assert (q * q <= 1) by nra. assert (q * q * q <= 1) by nra. repeat split; lra.
    + exists (fun _ => 0), (fun _ => 0), (fun _ => 0), (fun _ => 0), (fun _ => 0). intros t Ht. unfold ray_x, ray_k, row4. rewrite Rabs_R0.
      split; [auto_derive; [exact I|ring]|]. split; [auto_derive; [exact I|ring]|]. split; [auto_derive; [exact I|ring]|]. split; [auto_derive; [exact I|ring]|]. split; [auto_derive; [exact I|ring]|]. repeat split; lra.
    + exists (fun _ => 0), (fun _ => 0), (fun _ => 0), (fun _ => 0), (fun _ => 0). intros t Ht. unfold ray_x, ray_k, row4. rewrite Rabs_R0.
      split; [auto_derive; [exact I|ring]|]. split; [auto_derive; [exact I|ring]|]. split; [auto_derive; [exact I|ring]|]. split; [auto_derive; [exact I|ring]|]. split; [auto_derive; [exact I|ring]|]. repeat split; lra.
  - intros t Ht. destruct (flrw_inv (ray_x t) ltac:(cbn; lra) (ray_k t)) as [R0 _]. rewrite <- Raise_raised, R0. destruct (Rg t Ht) as (_ & B & _). lra.
  - intros mu dg Hm Hg. pose proof (proj1 (flrw_deriv 1 1 (ray_x 0))) as Hf.
    assert (Q : forall a b, (a < 4)%nat -> (b < 4)%nat -> dg a b mu = MetricDerivative (FLRW 1 1) (ray_x 0) a b mu).
    { intros a b Ha Hb. exact (eq_trans (eq_sym (is_derive_unique _ _ _ (Hg a b mu Ha Hb Hm))) (is_derive_unique _ _ _ (Hf a b mu Ha Hb Hm))). }
    destruct (flrw_inv (ray_x 0) ltac:(cbn; lra) (ray_k 0)) as [R0 Ri]. rewrite Raise_raised in R0. change (ray_x 0 0%nat) with 0 in Ri.
    assert (F : geodesic_force dg (raised (SpacetimeMetricInverse (FLRW 1 1) (ray_x 0)) (ray_k 0)) mu = if Nat.eqb mu 0 then 1 else 0).
    { unfold geodesic_force. rewrite (sum4_ext' _ (fun a => sum4 (fun b => MetricDerivative (FLRW 1 1) (ray_x 0) a b mu * raised (SpacetimeMetricInverse (FLRW 1 1) (ray_x 0)) (ray_k 0) a * raised (SpacetimeMetricInverse (FLRW 1 1) (ray_x 0)) (ray_k 0) b))) by (intros a Ha; apply sum4_ext'; intros b Hb; rewrite Q by assumption; reflexivity).
      set (kc := raised (SpacetimeMetricInverse (FLRW 1 1) (ray_x 0)) (ray_k 0)) in *.
      change (Raise (ray_k 0) (SpacetimeMetricInverse (FLRW 1 1) (ray_x 0))) with kc in Ri.
      assert (k0 : kc 0%nat = 1) by (rewrite R0, r00; ring). assert (k1 : kc 1%nat = 1) by (rewrite (Ri 0%nat) by lia; unfold ray_k, row4; field).
      assert (k2 : kc 2%nat = 0) by (rewrite (Ri 1%nat) by lia; unfold ray_k, row4; field). assert (k3 : kc 3%nat = 0) by (rewrite (Ri 2%nat) by lia; unfold ray_k, row4; field).
      clearbody kc. unfold sum4. rewrite k0, k1, k2, k3. destruct mu as [|[|[|[|mu]]]]; try lia; cbv beta iota zeta delta [MetricDerivative FLRW flrw_a Nat.eqb ray_x row4]; field. }
    rewrite F. destruct mu as [|mu]; [rewrite D1|rewrite ray_krate_i by lia]; cbn [Nat.eqb]; [rewrite Rabs_right by lra; lra|rewrite Rminus_0_r, Rabs_R0; lra].
  - apply Rg. lra.
  - apply Rg. exact Hdt.
  - assert (B : 0 <= dt * phi_fd <= / 8 * (1 + / 1000000)) by (split; [apply Rmult_le_pos; lra|apply Rmult_le_compat; lra]).
    unfold ray_region. rewrite D1, !ray_krate_i by lia. unfold xrate, GetXSource, ray_x, ray_k, row4. repeat split; lra.
  - intros Y P Y' P' mu (A1 & A2 & A3 & A4 & A5) (B1 & B2 & B3 & B4 & B5) Hm.
    assert (DD : 0 <= dist4 Y Y' + dist4 P P') by (unfold dist4; repeat apply Rplus_le_le_0_compat; apply Rabs_pos).
    assert (DY : Rabs (Y 0%nat - Y' 0%nat) + Rabs (P 0%nat - P' 0%nat) <= dist4 Y Y' + dist4 P P') by (unfold dist4; pose proof (Rabs_pos (Y 1%nat - Y' 1%nat)); pose proof (Rabs_pos (Y 2%nat - Y' 2%nat)); pose proof (Rabs_pos (Y 3%nat - Y' 3%nat)); pose proof (Rabs_pos (P 1%nat - P' 1%nat)); pose proof (Rabs_pos (P 2%nat - P' 2%nat)); pose proof (Rabs_pos (P 3%nat - P' 3%nat)); lra).
    pose proof (Rabs_pos (Y 0%nat - Y' 0%nat)) as AY. pose proof (Rabs_pos (P 0%nat - P' 0%nat)) as AP.
    assert (Zero : Rabs (0 - 0) <= 100 * (dist4 Y Y' + dist4 P P')) by (rewrite Rminus_0_r, Rabs_R0; lra).
    split.
    + unfold xrate, GetXSource. destruct (flrw_inv Y ltac:(lra) P) as [R0 Ri]. destruct (flrw_inv Y' ltac:(lra) P') as [R0' Ri'].
      destruct mu as [|[|[|[|mu]]]]; try lia; rewrite ?R0, ?R0', ?Ri, ?Ri' by lia.
      * rewrite Rminus_diag_eq by reflexivity. rewrite Rabs_R0. lra.
      * rewrite A3, B3. set (u := (1 + Y 0%nat) * (1 + Y 0%nat) * - P 0%nat). set (v := (1 + Y' 0%nat) * (1 + Y' 0%nat) * - P' 0%nat).
        assert (Hu : 1 * / 2 <= u) by (apply Rmult_le_compat; nra). assert (Hv : 1 * / 2 <= v) by (apply Rmult_le_compat; nra).
        replace (1 / ((1 + Y 0%nat) * (1 + Y 0%nat)) / - P 0%nat) with (/ u) by (unfold u; field; nra). replace (1 / ((1 + Y' 0%nat) * (1 + Y' 0%nat)) / - P' 0%nat) with (/ v) by (unfold v; field; nra).
        eapply Rle_trans; [apply inv_diff; lra|].
        replace (u - v) with ((1 + Y 0%nat) * (1 + Y 0%nat) * - (P 0%nat - P' 0%nat) + - P' 0%nat * (2 + Y 0%nat + Y' 0%nat) * (Y 0%nat - Y' 0%nat)) by (unfold u, v; ring).
        assert (T1 : Rabs ((1 + Y 0%nat) * (1 + Y 0%nat) * - (P 0%nat - P' 0%nat)) <= 2 * Rabs (P 0%nat - P' 0%nat)) by (rewrite Rabs_mult, Rabs_Ropp; apply Rmult_le_compat_r; [exact AP|]; rewrite Rabs_right by nra; nra).
        assert (T2 : Rabs (- P' 0%nat * (2 + Y 0%nat + Y' 0%nat) * (Y 0%nat - Y' 0%nat)) <= 5 * Rabs (Y 0%nat - Y' 0%nat)) by (rewrite Rabs_mult; apply Rmult_le_compat_r; [exact AY|]; rewrite Rabs_right by nra; nra).
        pose proof (Rabs_triang ((1 + Y 0%nat) * (1 + Y 0%nat) * - (P 0%nat - P' 0%nat)) (- P' 0%nat * (2 + Y 0%nat + Y' 0%nat) * (Y 0%nat - Y' 0%nat))). lra.
      * rewrite A4, B4. unfold Rdiv. rewrite !Rmult_0_l. exact Zero.
      * rewrite A5, B5. unfold Rdiv. rewrite !Rmult_0_l. exact Zero.
    + destruct mu as [|mu]; [|rewrite !ray_krate_i by lia; exact Zero].
      rewrite !ray_krate by (lra || assumption). replace (phi_fd / - P 0%nat - phi_fd / - P' 0%nat) with (phi_fd * (/ - P 0%nat - / - P' 0%nat)) by (field; lra).
      rewrite Rabs_mult, (Rabs_right phi_fd) by lra. assert (Z : Rabs (/ - P 0%nat - / - P' 0%nat) <= 16 * Rabs (- P 0%nat - - P' 0%nat)) by (apply inv_diff; lra).
      replace (- P 0%nat - - P' 0%nat) with (- (P 0%nat - P' 0%nat)) in Z by ring. rewrite Rabs_Ropp in Z.
      apply (Rle_trans _ (2 * (16 * Rabs (P 0%nat - P' 0%nat)))); [apply Rmult_le_compat; [lra|apply Rabs_pos|lra|exact Z]|lra].
Qed.
(** and the same ray those of C43_source *)
Example C43_source_nonvacuous : let sp (f : R -> R) (a b : nat) : R -> R := if (Nat.eqb a b && Nat.ltb 0 a)%bool then f else fun _ => 0 in
  (forall h, Rabs (h - ray_x 0 0%nat) <= DELTA -> consistent_at (FLRW 1 1) (moved (ray_x 0) 0 h)) /\
  is_metric_derivative (SpacetimeMetric (FLRW 1 1)) (ray_x 0) (MetricDerivative (FLRW 1 1) (ray_x 0)) /\
  (forall a b, (a < 4)%nat -> (b < 4)%nat -> smooth3 (fun h => SpacetimeMetricInverse (FLRW 1 1) (moved (ray_x 0) 0 h) a b)
     (sp (fun t => -2 * / (1 + t) ^ 3) a b) (sp (fun t => 6 * / (1 + t) ^ 4) a b) (sp (fun t => -24 * / (1 + t) ^ 5) a b) (ray_x 0 0%nat) DELTA 25) /\
  raised (SpacetimeMetricInverse (FLRW 1 1) (ray_x 0)) (ray_k 0) 0%nat = 1.
Proof.
  intros sp. assert (X0 : ray_x 0 0%nat = 0) by reflexivity. pose proof DELTA_pos as Dp. assert (Dl : DELTA <= / 1000000) by (unfold DELTA; lra).
  split; [|split; [|split]].
  - intros h Hh. rewrite X0, Rminus_0_r in Hh. apply flrw_consistent. assert (E : moved (ray_x 0) 0 h 0%nat = h) by reflexivity. rewrite E. unfold flrw_a. apply Rabs_le_inv in Hh. lra.
  - exact (proj1 (flrw_deriv 1 1 (ray_x 0))).
  - intros a b Ha Hb t Ht. rewrite X0 in Ht. unfold sp.
    assert (Pt : 0 < 1 + t) by lra.
    destruct (Nat.eqb a b && Nat.ltb 0 a)%bool eqn:Ed.
    + assert (Fx : locally t (fun h => 1 / ((1 + h) * (1 + h)) = SpacetimeMetricInverse (FLRW 1 1) (moved (ray_x 0) 0 h) a b)).
      { exists (mkposreal (1 + t) Pt). intros h Hh. change (Rabs (h - t) < 1 + t) in Hh. apply Rabs_def2 in Hh.
        assert (E : flrw_a 1 1 (moved (ray_x 0) 0 h 0%nat) = 1 + h) by (unfold moved; cbn [Nat.eqb]; unfold flrw_a; ring).
        assert (0 < (1 + h) * (1 + h)) by nra.
        destruct a as [|[|[|[|a]]]]; try lia; destruct b as [|[|[|[|b]]]]; try lia; try discriminate Ed; cbv beta iota zeta delta [SpacetimeMetricInverse FLRW rows4 row4]; rewrite E, gratio_pos by assumption; reflexivity. }
      assert (U : 0 < (1 + t) * ((1 + t) * 1) * ((1 + t) * (1 + t))) by (repeat apply Rmult_lt_0_compat; lra).
      split; [apply (is_derive_ext_loc _ _ _ _ Fx); auto_derive; [nra|field; lra]|].
      assert (P3 : (1 + t) ^ 3 <> 0) by (apply pow_nonzero; lra). assert (P4 : (1 + t) ^ 4 <> 0) by (apply pow_nonzero; lra).
      split; [auto_derive; [exact P3|field; lra]|]. split; [auto_derive; [exact P4|field; lra]|].
      rewrite Rabs_mult, (Rabs_left (-24)) by lra.
      assert (L5 : 24 / 25 <= (1 + t) ^ 5).
      { apply (Rle_trans _ ((1 - / 1000000) ^ 5)); [lra|]. apply pow_incr. lra. }
      rewrite Rabs_right by (apply Rle_ge, Rlt_le, Rinv_0_lt_compat; lra).
      assert (/ (1 + t) ^ 5 <= / (24 / 25)) by (apply Rinv_le_contravar; lra). lra.
    + assert (Fc : exists c, forall h, SpacetimeMetricInverse (FLRW 1 1) (moved (ray_x 0) 0 h) a b = c).
      { destruct a as [|[|[|[|a]]]]; try lia; destruct b as [|[|[|[|b]]]]; try lia; try discriminate Ed; solve [exists (-1); intros h; reflexivity | exists 0; intros h; reflexivity]. }
      destruct Fc as [c Fc]. split; [apply (is_derive_ext (fun _ => c)); [intros h; symmetry; apply Fc|apply (is_derive_const (V := R_NormedModule))]|].
      split; [apply (is_derive_const (V := R_NormedModule))|]. split; [apply (is_derive_const (V := R_NormedModule))|]. rewrite Rabs_R0. lra.
  - destruct (flrw_inv (ray_x 0) ltac:(cbn; lra) (ray_k 0)) as [R0 _]. rewrite Raise_raised in R0. rewrite R0. unfold ray_k, row4. field.
Qed.
