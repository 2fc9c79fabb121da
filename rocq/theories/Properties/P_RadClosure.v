(** C28: closing the radiation moments. *)
From Coq Require Import Reals Lra Lia Arith Bool Psatz FunctionalExtensionality.
From Flocq Require Import Core.
From Verif.Spec Require Import Tensor GeomSpec Relativity RadSpec.
From Verif.Model Require Import Geometry LinearAlgebra RadClosure.
From Verif.Proofs Require Import TensorTac LinearAlgebraProofs GeomBase AdmProofs RelProofs RadProofs FlatWitness.
Local Open Scope R_scope.

(** *** the Eddington factor *)
Theorem C28_eddington_factor : closure 0 = 1 / 3 /\ closure 1 = 1 /\ forall xi, 0 <= xi <= 1 -> 25 / 81 <= closure xi <= 1.
Proof.
  unfold closure. split; [lra|]. split; [lra|]. intros x [H0 H1].
  assert (P : 0 <= (x - 1/3) * (x - 1/3)) by apply Rle_0_sqr.
  assert (0 <= (x - 1/3) * (x - 1/3) * (4 * x + 2/3)) by (apply Rmult_le_pos; lra).
  assert (0 <= (1 - x) * (4 * x * x + 2 * x + 2)) by (apply Rmult_le_pos; nra).
  split; nra.
Qed.
Print Assumptions C28_eddington_factor.
(** it falls below 1/3: for every flux factor between 0 and 1/2 *)
Theorem C28_lower_bound_refuted : forall xi, 0 < xi < 1 / 2 -> closure xi < 1 / 3.
Proof. intros x [H0 H1]. unfold closure. assert (0 < x * x) by nra. assert (0 < x * x * (1 - 2 * x)) by (apply Rmult_lt_0_compat; lra). nra. Qed.
Print Assumptions C28_lower_bound_refuted.
(** A radiation field with flux factor xi has Eddington factor at least xi^2 (the mean of the
    squared direction cosine is at least the square of its mean).  The closure satisfies this
    for small xi only. *)
Theorem C28_realizable : forall xi, 0 <= xi <= 64 / 100 -> xi * xi <= closure xi.
Proof.
  intros x [H0 H1]. unfold closure. assert (0 <= (1 - x) * (1 + x - 4 * (x * x))) by (apply Rmult_le_pos; nra). nra.
Qed.
Print Assumptions C28_realizable.
Theorem C28_realizable_refuted : forall xi, 65 / 100 <= xi < 1 -> closure xi < xi * xi.
Proof.
  intros x [H0 H1]. unfold closure. assert (0 < (1 - x) * (4 * (x * x) - x - 1)) by (apply Rmult_lt_0_compat; nra). nra.
Qed.
Print Assumptions C28_realizable_refuted.

(** *** the M1 pressure tensor *)
(** flux factor of the moments, and the tensor the closure stands for *)
Definition flux_factor (g : mat) (J : R) (H : vec) : R := sqrt (dot4 g H H) / J.
Definition direction (g : mat) (H : vec) : vec := fun m => H m / sqrt (dot4 g H H).
Definition eddington_tensor (ginv : mat) (u : vec) (chi : R) (f : vec) : mat :=
  fun m n => (3 * chi - 1) / 2 * (f m * f n - (ginv m n + u m * u n) / 3).

Section M1.
Variables (alpha : R) (beta : vec) (g ginv gamma gi : mat) (sg sgg : R).
Hypothesis A : adm_consistent alpha beta g ginv gamma gi sg sgg.
Variable v : vec.
Variable W : R.
Hypothesis HW : lorentz_of gamma v W.
Hypothesis Hv : dot3 gamma v v <= 9999 / 10000.
Variable rs : Strategy.
Let c := mkClosure v gamma alpha rs.
Let u := moving alpha beta W v.
Variable H : vec.
Hypothesis HH : transverse g u H.
Let covH := fun i => low g H (S i).
Let T := adm_tpo _ _ _ _ _ _ _ _ A.
Let Gs := adm_gamma_sym _ _ _ _ _ _ _ _ A.
Lemma m1_raise i : (i < 3)%nat -> raise3Vector (con_gamma c) covH i = hat beta H i.
Proof.
  intros Hi. assert (K : raise3Vector (con_gamma c) covH i = sum3 (fun j => covH j * gi i j)) by exact (raise_c _ _ _ _ _ _ _ _ A v rs covH i Hi).
  rewrite K. unfold sum3, covH. rewrite !(low_hat _ _ _ _ _ _ _ _ A) by lia. exact (raise_low _ _ _ _ _ _ _ _ A (hat beta H) i Hi).
Qed.
Lemma m1_vH : sum3 (fun i => covH i * v i) = alpha * H 0%nat.
Proof.
  pose proof (H0 _ _ _ _ _ _ _ _ A v W HW H HH) as E. rewrite E. rewrite <- (vH_val _ _ _ _ _ _ _ _ A v H). unfold sum3, covH. ring.
Qed.
Lemma m1_hh : sum3 (fun i => covH i * raise3Vector (con_gamma c) covH i) = dot3 gamma (hat beta H) (hat beta H).
Proof.
  unfold sum3. rewrite !m1_raise by lia. unfold covH. rewrite !(low_hat _ _ _ _ _ _ _ _ A) by lia. unfold dot3, lower3, sum3.
  rewrite (Gs 1 0)%nat, (Gs 2 0)%nat, (Gs 2 1)%nat by lia. ring.
Qed.
Lemma m1_flux_val : m1_flux c covH = sqrt (dot4 g H H).
Proof.
  unfold m1_flux. rewrite m1_hh. change (con_v c) with v. rewrite m1_vH. rewrite (dot4_split _ _ _ _ T). f_equal. ring.
Qed.
Lemma u_norm : dot4 g u u = -1.
Proof.
  unfold u. rewrite (trans_split _ _ _ _ _ _ _ _ A v W). destruct HW as [Wp E].
  assert (K : dot3 gamma v (hat beta (moving alpha beta W v)) = W * dot3 gamma v v).
  { unfold dot3, sum3. rewrite !(hat_u _ _ _ _ _ _ _ _ A v W). ring. }
  rewrite K, (u0 _ _ _ _ _ _ _ _ A v W). nra.
Qed.
Lemma u_timelike : timelike g u.
Proof. unfold timelike. rewrite u_norm. lra. Qed.
Lemma H_nonneg : 0 <= dot4 g H H.
Proof.
  destruct (Req_dec (H 0%nat) 0) as [Z0|N]; [destruct (Req_dec (H 1%nat) 0) as [Z1|N]; [destruct (Req_dec (H 2%nat) 0) as [Z2|N]; [destruct (Req_dec (H 3%nat) 0) as [Z3|N]|]|]|].
  2-5: left; apply (orth_spacelike _ _ _ _ T u); [exact u_timelike|exact HH|].
  2: exists 3%nat. 3: exists 2%nat. 4: exists 1%nat. 5: exists 0%nat. 2-5: split; [lia|exact N].
  unfold dot4, sum4. rewrite Z0, Z1, Z2, Z3. lra.
Qed.
Lemma H_zero : dot4 g H H = 0 -> forall m, (m < 4)%nat -> H m = 0.
Proof.
  intros E m Hm. destruct (Req_dec (H m) 0) as [Z|N]; [exact Z|].
  pose proof (orth_spacelike _ _ _ _ T u H u_timelike HH (ex_intro _ m (conj Hm N))). lra.
Qed.
Lemma mix_1 m : (m < 4)%nat -> sum4 (fun n => sum4 (fun k => g n k * u n * ginv m k)) = u m.
Proof.
  intros Hm. pose proof (adm_inv4 _ _ _ _ _ _ _ _ A) as I. pose proof (adm_g_sym _ _ _ _ _ _ _ _ A) as S4.
  transitivity (sum4 (fun n => mul4 ginv g m n * u n)).
  - unfold mul4, sum4. rewrite (S4 1 0)%nat, (S4 2 0)%nat, (S4 3 0)%nat, (S4 2 1)%nat, (S4 3 1)%nat, (S4 3 2)%nat by lia. ring.
  - unfold sum4. rewrite !(inverse4_r _ _ I) by lia. unfold delta. idx; cbn; ring.
Qed.
Lemma trace_ginv : sum4 (fun m => sum4 (fun n => g m n * ginv m n)) = 4.
Proof.
  pose proof (adm_inv4 _ _ _ _ _ _ _ _ A) as I. pose proof (adm_g_sym _ _ _ _ _ _ _ _ A) as S4.
  transitivity (sum4 (fun m => mul4 ginv g m m)).
  - unfold mul4, sum4. rewrite (S4 1 0)%nat, (S4 2 0)%nat, (S4 3 0)%nat, (S4 2 1)%nat, (S4 3 1)%nat, (S4 3 2)%nat by lia. ring.
  - unfold sum4. rewrite !(inverse4_r _ _ I) by lia. unfold delta. cbn. lra.
Qed.
Lemma ginv_symm : symmetric4 ginv.
Proof.
  intros m n Hm Hn. rewrite !(adm_inverse _ _ _ _ _ _ _ _ A) by assumption. destruct m as [|p], n as [|q]; cbn [adm_inv_mat]; try reflexivity.
  rewrite (gi_sym _ _ _ _ _ _ _ _ A p q) by lia. ring.
Qed.
Lemma edd_transverse chi f : dot4 g u f = 0 -> transverse2 g u (eddington_tensor ginv u chi f).
Proof.
  intros F. split.
  - intros m Hm. pose proof (mix_1 m Hm) as K. pose proof u_norm as N.
    transitivity ((3 * chi - 1) / 2 * (f m * dot4 g u f - (sum4 (fun n => sum4 (fun k => g n k * u n * ginv m k)) + u m * dot4 g u u) / 3)).
    + unfold eddington_tensor, dot4, sum4. field.
    + rewrite F, K, N. field.
  - intros m n Hm Hn. unfold eddington_tensor. rewrite (ginv_symm m n Hm Hn). unfold u. field.
Qed.
Lemma edd_trace chi f : dot4 g f f = 1 -> traceless g (eddington_tensor ginv u chi f).
Proof.
  intros F. pose proof trace_ginv as K. pose proof u_norm as N. unfold traceless.
  transitivity ((3 * chi - 1) / 2 * (dot4 g f f - (sum4 (fun n => sum4 (fun k => g n k * ginv n k)) + dot4 g u u) / 3)).
  - unfold eddington_tensor, dot4, sum4. field.
  - rewrite F, K, N. field.
Qed.
Lemma dir_unit : 0 < dot4 g H H -> dot4 g (direction g H) (direction g H) = 1 /\ dot4 g u (direction g H) = 0.
Proof.
  intros P. unfold direction. set (s := sqrt (dot4 g H H)).
  assert (Sp : 0 < s) by (apply sqrt_lt_R0; exact P).
  assert (S2 : s * s = dot4 g H H) by (apply sqrt_sqrt; lra).
  split.
  - transitivity (dot4 g H H / (s * s)); [unfold dot4, sum4; field; lra|]. rewrite S2. field. lra.
  - transitivity (dot4 g u H / s); [unfold dot4, sum4; field; lra|]. rewrite HH. unfold Rdiv. ring.
Qed.
End M1.

(** What GetConTilPiFromPrim returns is the Eulerian projection of the Eddington tensor for
    the flux factor |H|/J (at most 1) along the direction of H; that tensor is orthogonal to
    the fluid velocity and has no trace.  Where the flux vanishes it returns zero. *)
Theorem C28_m1_tensor : forall alpha beta g ginv gamma gi sg sgg v W rs J (H : vec),
  adm_consistent alpha beta g ginv gamma gi sg sgg -> lorentz_of gamma v W -> dot3 gamma v v <= 9999 / 10000 ->
  let u := moving alpha beta W v in transverse g u H -> 0 < J ->
  let tilPi := GetConTilPiFromPrim (mkClosure v gamma alpha rs) J (fun i => low g H (S i)) in
  let Pi := eddington_tensor ginv u (closure (Rmin 1 (flux_factor g J H))) (direction g H) in
  0 <= dot4 g H H /\
  (0 < dot4 g H H -> transverse2 g u Pi /\ traceless g Pi /\ forall i j, (i < 3)%nat -> (j < 3)%nat -> tilPi i j = eulerian_pressure alpha beta Pi i j) /\
  (dot4 g H H = 0 -> forall i j, (i < 3)%nat -> (j < 3)%nat -> tilPi i j = 0).
Proof.
  intros alpha beta g ginv gamma gi sg sgg v W rs J H A HW Hv u HH Jp tilPi Pi.
  set (c := mkClosure v gamma alpha rs) in *. set (covH := fun i => low g H (S i)) in *.
  assert (N0 : 0 <= dot4 g H H) by exact (H_nonneg _ _ _ _ _ _ _ _ A v W HW H HH).
  assert (Fl : m1_flux c covH = sqrt (dot4 g H H)) by exact (m1_flux_val _ _ _ _ _ _ _ _ A v W HW rs H HH).
  assert (W2 : cW2 c = W * W) by exact (W2_val _ gamma v W HW Hv rs).
  assert (Xi : m1_xi c J covH = Rmin 1 (flux_factor g J H)).
  { unfold m1_xi. rewrite Fl. unfold gratio, flux_factor. rewrite Req_bool_false by lra. apply Rmax_left.
    assert (0 <= sqrt (dot4 g H H) / J) by (apply Rmult_le_pos; [apply sqrt_pos|left; apply Rinv_0_lt_compat; exact Jp]).
    apply Rmin_glb; lra. }
  split; [exact N0|]. split.
  - intros Np. destruct (dir_unit alpha beta g v W H HH Np) as [D1 D2]. fold u in D2.
    split; [exact (edd_transverse _ _ _ _ _ _ _ _ A v W HW _ _ D2)|]. split; [exact (edd_trace _ _ _ _ _ _ _ _ A v W HW _ _ D1)|].
    intros i j Hi Hj. assert (Sp : 0 < sqrt (dot4 g H H)) by (apply sqrt_lt_R0; exact Np).
    rewrite (pressure_hat _ _ _ _ _ _ _ _ A Pi i j Hi Hj).
    unfold tilPi, GetConTilPiFromPrim, M1Pi. rewrite Xi, W2. unfold m1_dir. rewrite Fl.
    assert (R : forall k, (k < 3)%nat -> raise3Vector (con_gamma c) covH k = hat beta H k) by (intros k Hk; exact (m1_raise _ _ _ _ _ _ _ _ A v rs H k Hk)).
    rewrite !R by assumption. unfold gratio. rewrite Req_bool_false by lra.
    assert (Cg : con_gamma c i j = gi i j) by exact (con_gamma_c _ _ _ _ _ _ _ _ A v rs i j Hi Hj). rewrite Cg.
    change (con_v c) with v.
    pose proof (ginv_ij _ _ _ _ _ _ _ _ A i j Hi Hj) as Gij.
    pose proof (hat_u _ _ _ _ _ _ _ _ A v W i) as Ui. pose proof (hat_u _ _ _ _ _ _ _ _ A v W j) as Uj. fold u in Ui, Uj.
    transitivity ((3 * closure (Rmin 1 (flux_factor g J H)) - 1) / 2 * (hat beta H i / sqrt (dot4 g H H) * (hat beta H j / sqrt (dot4 g H H))
      - (hat beta (fun m => hat beta (ginv m) j) i + hat beta u i * hat beta u j) / 3)).
    + rewrite Gij, Ui, Uj. unfold athin_of. field. lra.
    + unfold Pi, eddington_tensor, direction, hat. field. lra.
  - intros Z i j Hi Hj. unfold tilPi, GetConTilPiFromPrim, M1Pi. rewrite Xi. unfold flux_factor. rewrite Z, sqrt_0. unfold Rdiv. rewrite Rmult_0_l.
    rewrite Rmin_right by lra. unfold athin_of, closure. field.
Qed.
Print Assumptions C28_m1_tensor.

(** *** optically thick and free-streaming limits *)
(** no flux: the pressure is isotropic in the fluid frame; flux equal to the energy density:
    the stress-energy is that of a beam along the null vector u + f; in general the comoving
    pressure has trace J *)
Theorem C28_limits : forall alpha beta g ginv gamma gi sg sgg v W J (H : vec),
  adm_consistent alpha beta g ginv gamma gi sg sgg -> lorentz_of gamma v W ->
  let u := moving alpha beta W v in transverse g u H -> 0 < J -> 0 < dot4 g H H ->
  let f := direction g H in
  let Pi := eddington_tensor ginv u (closure (Rmin 1 (flux_factor g J H))) f in
  (flux_factor g J H = 1 -> let k := fun m => u m + f m in
     dot4 g k k = 0 /\ forall m n, (m < 4)%nat -> (n < 4)%nat -> radiation_tensor ginv u J H Pi m n = J * (k m * k n)) /\
  sum4 (fun m => sum4 (fun n => g m n * (J / 3 * (ginv m n + u m * u n) + J * Pi m n))) = J.
Proof.
  intros alpha beta g ginv gamma gi sg sgg v W J H A HW u HH Jp Np f Pi.
  destruct (dir_unit alpha beta g v W H HH Np) as [D1 D2]. fold f in D1, D2. fold u in D2.
  assert (N : dot4 g u u = -1) by exact (u_norm _ _ _ _ _ _ _ _ A v W HW).
  pose proof (adm_g_sym _ _ _ _ _ _ _ _ A) as S4.
  assert (Sp : 0 < sqrt (dot4 g H H)) by (apply sqrt_lt_R0; exact Np).
  split.
  - intros X k. split.
    + transitivity (dot4 g u u + 2 * dot4 g u f + dot4 g f f).
      * unfold k, dot4, sum4. rewrite (S4 1 0)%nat, (S4 2 0)%nat, (S4 3 0)%nat, (S4 2 1)%nat, (S4 3 1)%nat, (S4 3 2)%nat by lia. ring.
      * rewrite N, D1, D2. ring.
    + intros m n Hm Hn. unfold Pi. rewrite X. rewrite Rmin_left by lra. replace (closure 1) with 1 by (unfold closure; field).
      assert (E : sqrt (dot4 g H H) = J) by (unfold flux_factor in X; apply (Rmult_eq_reg_r (/ J)); [rewrite Rinv_r by lra; exact X|apply Rinv_neq_0_compat; lra]).
      assert (Hf : forall m, H m = J * f m) by (intros p; unfold f, direction; rewrite E; field; lra).
      unfold radiation_tensor, eddington_tensor, k. rewrite !Hf. field.
  - pose proof (edd_trace _ _ _ _ _ _ _ _ A v W HW (closure (Rmin 1 (flux_factor g J H))) f D1) as Tr. unfold traceless in Tr. fold u in Tr. fold Pi in Tr.
    pose proof (trace_ginv _ _ _ _ _ _ _ _ A) as K.
    transitivity (J / 3 * (sum4 (fun n => sum4 (fun k => g n k * ginv n k)) + dot4 g u u) + J * sum4 (fun m => sum4 (fun n => g m n * Pi m n))).
    + unfold dot4, sum4. ring.
    + rewrite Tr, K, N. field.
Qed.
Print Assumptions C28_limits.

(** *** conserved variables and fluxes are the Eulerian projections of the stress-energy *)
(** Momentum density, momentum flux and number density are right for every flux and
    anisotropic pressure; the energy density is right only up to the term shown: it contains
    W^2 Pi_nn instead of Pi_nn. *)
Theorem C28_projections : forall alpha beta g ginv gamma gi sg sgg v W rs J (H : vec) (Pi : mat),
  adm_consistent alpha beta g ginv gamma gi sg sgg -> lorentz_of gamma v W -> dot3 gamma v v <= 9999 / 10000 ->
  let u := moving alpha beta W v in transverse g u H -> transverse2 g u Pi ->
  let c := mkClosure v gamma alpha rs in
  let covH i := low g H (S i) in
  let tilPi i j := eulerian_pressure alpha beta Pi i j in
  let M := radiation_tensor ginv u J H Pi in
  let E := fst (Prim2Con c energy_conserve J covH tilPi) in
  let F := snd (Prim2Con c energy_conserve J covH tilPi) in
  let F' := fst (getFluxesFromPrim c energy_conserve J covH tilPi) in
  let P' := snd (getFluxesFromPrim c energy_conserve J covH tilPi) in
  (forall i, (i < 3)%nat -> F i = eulerian_momentum alpha g M i) /\
  (forall i j, (i < 3)%nat -> (j < 3)%nat -> getConPFromPrim c J covH tilPi i j = eulerian_pressure alpha beta M i j) /\
  (forall i, (i < 3)%nat -> F' i = alpha * sum3 (fun j => gi i j * eulerian_momentum alpha g M j)) /\
  (forall i j, (i < 3)%nat -> (j < 3)%nat -> P' i j = alpha * sum3 (fun k => eulerian_pressure alpha beta M i k * gamma k j)) /\
  fst (Prim2Con c number_conserve J covH tilPi) = - sum4 (fun m => normal_cov alpha m * (J * u m + H m)) /\
  E = eulerian_energy alpha M + (W * W - 1) * J * eulerian_energy alpha Pi.
Proof.
  intros alpha beta g ginv gamma gi sg sgg v W rs J H Pi A HW Hv u HH HP c covH tilPi M E F F' P'.
  pose proof (adm_gamma_sym _ _ _ _ _ _ _ _ A) as Gs. destruct (HW) as [Wp _].
  assert (cw : cW c = W) by exact (W_val _ gamma v W HW Hv rs).
  assert (cw2 : cW2 c = W * W) by exact (W2_val _ gamma v W HW Hv rs).
  assert (vH : sum3 (fun i => con_v c i * covH i) = dot3 gamma v (hat beta H)) by exact (vH_val _ _ _ _ _ _ _ _ A v H).
  assert (cv : forall i, cov_v c i = lower3 gamma v i) by (intros i; exact (cov_v_low _ gamma v rs i)).
  assert (cH : forall i, (i < 3)%nat -> covH i = lower3 gamma (hat beta H) i) by (intros i Hi; exact (covH_low _ _ _ _ _ _ _ _ A H i Hi)).
  assert (rH : forall i, (i < 3)%nat -> raise3Vector (con_gamma c) covH i = hat beta H i) by (intros i Hi; exact (m1_raise _ _ _ _ _ _ _ _ A v rs H i Hi)).
  assert (M0 : forall i, (i < 3)%nat -> alpha * hat beta (M 0%nat) i = 4 / 3 * J * W * W * v i + W * hat beta H i + W * v i * dot3 gamma v (hat beta H) + J * con_vTilPi c tilPi i)
    by (intros i Hi; exact (M_0i _ _ _ _ _ _ _ _ A v W HW rs J H Pi HH HP i Hi)).
  assert (Mij : forall i j, (i < 3)%nat -> (j < 3)%nat -> eulerian_pressure alpha beta M i j =
     4 / 3 * J * W * W * v i * v j + W * (v i * hat beta H j + v j * hat beta H i) + J / 3 * gi i j + J * tilPi i j)
    by (intros i j Hi Hj; exact (M_ij _ _ _ _ _ _ _ _ A v W J H Pi i j Hi Hj)).
  assert (Gm : forall i, (i < 3)%nat -> F i = eulerian_momentum alpha g M i).
  { intros i Hi. rewrite (momentum_low _ _ _ _ _ _ _ _ A M i Hi).
    transitivity (sum3 (fun k => gamma i k * (alpha * hat beta (M 0%nat) k))); [|unfold lower3, sum3; ring].
    unfold sum3. rewrite !M0 by lia. unfold F, Prim2Con; cbn [snd]. rewrite cw, cw2, vH, cv, (cH i Hi).
    unfold cov_vTilPi. rewrite low3_lower. change (cov_gamma c) with gamma. unfold lower3, sum3. field. }
  assert (Cg : forall i j, (i < 3)%nat -> (j < 3)%nat -> con_gamma c i j = gi i j) by (intros i j Hi Hj; exact (con_gamma_c _ _ _ _ _ _ _ _ A v rs i j Hi Hj)).
  split; [exact Gm|]. split.
  { intros i j Hi Hj. rewrite (Mij i j Hi Hj). unfold getConPFromPrim. rewrite cw, cw2, !rH by assumption. rewrite (Cg i j Hi Hj). change (con_v c) with v. field. }
  split.
  { intros i Hi. unfold F', getFluxesFromPrim; cbn [fst].
    fold F. change (c_alpha c) with alpha. unfold raise3Vector, sum3. rewrite !Gm, !Cg by lia. ring. }
  split.
  { intros i j Hi Hj. unfold P', getFluxesFromPrim; cbn [snd]. change (c_alpha c) with alpha. unfold getConCovPFromPrim.
    rewrite cw, cw2, !rH, (cH j Hj), cv by assumption. unfold sum3. rewrite !Mij by lia. change (con_v c) with v. change (cov_gamma c) with gamma.
    pose proof (inverse3_r _ _ (adm_inv3 _ _ _ _ _ _ _ _ A) i j Hi Hj) as Dl. unfold mul3, sum3 in Dl.
    assert (Dij : (if Nat.eqb i j then J / 3 else 0) = J / 3 * (gi i 0%nat * gamma 0%nat j + gi i 1%nat * gamma 1%nat j + gi i 2%nat * gamma 2%nat j)).
    { rewrite Dl. unfold delta. destruct (Nat.eqb i j); ring. }
    rewrite Dij. unfold lower3, sum3. rewrite (Gs j 0)%nat, (Gs j 1)%nat, (Gs j 2)%nat by lia. field. }
  split.
  { unfold Prim2Con; cbn [fst]. rewrite cw, vH. unfold sum4, normal_cov.
    pose proof (u0 _ _ _ _ _ _ _ _ A v W) as U. fold u in U. pose proof (H0 _ _ _ _ _ _ _ _ A v W HW H HH) as Hn.
    rewrite <- Hn, <- U. ring. }
  unfold E, Prim2Con; cbn [fst]. rewrite cw, cw2, vH.
  assert (M00 : eulerian_energy alpha M = J * W * W + 2 * W * dot3 gamma v (hat beta H) + J / 3 * (W * W - 1) + J * vvTilPi c tilPi)
    by exact (M_00 _ _ _ _ _ _ _ _ A v W HW rs J H Pi HH HP).
  assert (P00 : eulerian_energy alpha Pi = vvTilPi c tilPi).
  { rewrite energy_00. exact (Pi_00 _ _ _ _ _ _ _ _ A v W HW rs Pi HP). }
  rewrite M00, P00. field.
Qed.
Print Assumptions C28_projections.
(** for isotropic radiation (the Eddington closure) the energy density is right as well *)
Theorem C28_eddington_energy : forall alpha beta g ginv gamma gi sg sgg v W rs J (H : vec),
  adm_consistent alpha beta g ginv gamma gi sg sgg -> lorentz_of gamma v W -> dot3 gamma v v <= 9999 / 10000 ->
  let u := moving alpha beta W v in transverse g u H ->
  fst (Prim2Con (mkClosure v gamma alpha rs) energy_conserve J (fun i => low g H (S i)) (fun _ _ => 0)) = eulerian_energy alpha (radiation_tensor ginv u J H (fun _ _ => 0)).
Proof.
  intros alpha beta g ginv gamma gi sg sgg v W rs J H A HW Hv u HH.
  assert (Z : transverse2 g u (fun _ _ => 0)) by (split; [intros; unfold dot4, sum4; ring|intros ? ? _ _; reflexivity]).
  destruct (C28_projections _ _ _ _ _ _ _ _ v W rs J H (fun _ _ => 0) A HW Hv HH Z) as (_ & _ & _ & _ & _ & E). cbv zeta in E.
  assert (X : (fun i j => eulerian_pressure alpha beta (fun _ _ => 0) i j) = (fun _ _ => 0)).
  { apply functional_extensionality; intros i. apply functional_extensionality; intros j. unfold eulerian_pressure, sum4. ring. }
  rewrite X in E. rewrite E. unfold eulerian_energy at 2. unfold sum4. unfold u. ring.
Qed.
Print Assumptions C28_eddington_energy.

(** A beam crossing a moving fluid at right angles (flat space, v = 3/5 along x, flux along y,
    flux factor 1): the M1 energy density the code stores is smaller than the energy density
    of the beam, and smaller than the magnitude of the momentum density stored with it. *)
Definition vx : vec := v3 (3 / 5) 0 0.
Definition Hy : vec := row4 0 0 1 0.
Lemma vx_norm : dot3 delta vx vx = 9 / 25.
Proof. unfold dot3, sum3, delta, vx, v3. cbn. field. Qed.
Lemma vx_lorentz : lorentz_of delta vx (5 / 4).
Proof. split; [lra|]. rewrite vx_norm. field. Qed.
Lemma Hy_trans : transverse eta4 (moving 1 zero3 (5 / 4) vx) Hy.
Proof. unfold transverse, dot4, sum4, eta4, moving, vx, v3, Hy, row4, zero3. cbn. field. Qed.
Lemma Hy_norm : dot4 eta4 Hy Hy = 1.
Proof. unfold dot4, sum4, eta4, Hy, row4. cbn. ring. Qed.
Theorem C28_energy_refuted : forall rs, let c := mkClosure vx delta 1 rs in
  let u := moving 1 zero3 (5 / 4) vx in
  let covH i := low eta4 Hy (S i) in
  let tilPi := GetConTilPiFromPrim c 1 covH in
  let Pi := eddington_tensor eta4 u (closure (Rmin 1 (flux_factor eta4 1 Hy))) (direction eta4 Hy) in
  let E := fst (Prim2Con c energy_conserve 1 covH tilPi) in
  let F := snd (Prim2Con c energy_conserve 1 covH tilPi) in
  (forall i j, (i < 3)%nat -> (j < 3)%nat -> tilPi i j = eulerian_pressure 1 zero3 Pi i j) /\
  eulerian_energy 1 (radiation_tensor eta4 u 1 Hy Pi) = 25 / 16 /\ E = 373 / 256 /\ contractCov3Vectors delta F F = 25 / 16 * (25 / 16).
Proof.
  intros rs c u covH tilPi Pi E F.
  pose proof eta4_consistent as A.
  destruct (C28_m1_tensor _ _ _ _ _ _ _ _ vx (5/4) rs 1 Hy A vx_lorentz ltac:(rewrite vx_norm; lra) Hy_trans ltac:(lra)) as (_ & B & _).
  destruct B as (P2 & _ & Pt); [rewrite Hy_norm; lra|]. cbv zeta in Pt. fold c u covH tilPi Pi in Pt. fold u Pi in P2.
  split; [exact Pt|].
  assert (Fx : flux_factor eta4 1 Hy = 1) by (unfold flux_factor; rewrite Hy_norm, sqrt_1; field).
  assert (PiE : forall m n, Pi m n = Hy m * Hy n - (eta4 m n + u m * u n) / 3).
  { intros m n. unfold Pi, eddington_tensor, direction. rewrite Fx, Hy_norm, sqrt_1, Rmin_left by lra. replace (closure 1) with 1 by (unfold closure; field). field. }
  assert (cw : cW c = 5 / 4) by exact (W_val _ delta vx (5/4) vx_lorentz ltac:(rewrite vx_norm; lra) rs).
  assert (cw2 : cW2 c = 25 / 16) by (change (cW2 c) with (cW c * cW c); rewrite cw; field).
  assert (cv : forall i, cov_v c i = lower3 delta vx i) by (intros i; exact (cov_v_low _ delta vx rs i)).
  assert (cH : forall i, (i < 3)%nat -> covH i = Hy (S i)).
  { intros i Hi. unfold covH, low, lower4, sum4, eta4, Hy, row4. idx; cbn; ring. }
  assert (T : forall i j, (i < 3)%nat -> (j < 3)%nat -> tilPi i j = Hy (S i) * Hy (S j) - (delta i j + 25 / 16 * vx i * vx j) / 3).
  { intros i j Hi Hj. rewrite (Pt i j Hi Hj). unfold eulerian_pressure, sum4, proj, normal_cov, delta, zero3. rewrite !PiE.
    unfold eta4, u, moving, zero3, vx, v3, Hy, row4. idx; cbn; field. }
  assert (X : vvTilPi c tilPi = - (3 / 16)).
  { unfold vvTilPi, con_vTilPi, sum3. rewrite !T, !cv by lia. unfold lower3, sum3, delta, vx, v3, Hy, row4. cbn. field. }
  split; [|split].
  - rewrite energy_00. unfold radiation_tensor. rewrite PiE. unfold eta4, u, moving, Hy, row4. cbn. field.
  - unfold E, Prim2Con; cbn [fst]. rewrite cw, cw2, X. change (con_v c) with vx. unfold sum3. rewrite !cH by lia. unfold vx, v3, Hy, row4. field.
  - assert (Fi : forall i, (i < 3)%nat -> F i = match i with O => 15 / 16 | 1%nat => 5 / 4 | _ => 0 end).
    { intros i Hi. unfold F, Prim2Con; cbn [snd]. rewrite cw, cw2, cv. unfold cov_vTilPi. rewrite low3_lower. change (cov_gamma c) with delta. change (con_v c) with vx.
      unfold lower3, con_vTilPi, sum3. rewrite !cv. rewrite !T, !cH by lia. unfold lower3, sum3, delta, vx, v3, Hy, row4. idx; cbn; field. }
    unfold contractCov3Vectors, sum3. rewrite !Fi by lia. unfold delta. cbn. field.
Qed.
Print Assumptions C28_energy_refuted.

(** number fluxes use the covariant flux vector where the contravariant one belongs: wrong
    unless the spatial metric is the unit matrix *)
Theorem C28_number_flux : forall alpha gamma v rs J H tilPi i,
  let c := mkClosure v gamma alpha rs in
  fst (getFluxesFromPrim c number_conserve J H tilPi) i = alpha * (cW c * v i * J + H i).
Proof. intros. unfold getFluxesFromPrim; cbn [fst]. change (c_alpha c) with alpha. change (con_v c) with v. ring. Qed.
Theorem C28_number_flux_refuted : exists gamma gi H, inverse3 gamma gi /\ symmetric3 gamma /\ positive_definite3 gamma /\
  forall rs Pi, let c := mkClosure zero3 gamma 1 rs in
  fst (getFluxesFromPrim c number_conserve 1 H Pi) 0%nat <> 1 * (cW c * zero3 0%nat * 1 + sum3 (fun j => gi 0%nat j * H j)).
Proof.
  exists (fun i j => if Nat.eqb i j then row3 4 4 4 i else 0), (fun i j => if Nat.eqb i j then row3 (/4) (/4) (/4) i else 0), (v3 1 0 0).
  split; [|split; [|split]].
  - intros i j Hi Hj. unfold mul3, sum3, delta, row3. idx; cbn; split; field.
  - intros i j Hi Hj. idx; reflexivity.
  - apply pd_diag3; lra.
  - intros rs Pi c. unfold c. rewrite C28_number_flux. unfold zero3, sum3, v3, row3. cbn. lra.
Qed.
Print Assumptions C28_number_flux_refuted.

(** *** direction of the flux from the conserved moments *)
(** norm in the fluid frame of a vector whose Eulerian projection is x *)
Definition comoving_dot (gamma : mat) (v x y : vec) : R := dot3 gamma x y - dot3 gamma v x * dot3 gamma v y.
Theorem C28_basis : forall alpha beta g ginv gamma gi sg sgg v W rs (F : vec),
  adm_consistent alpha beta g ginv gamma gi sg sgg -> lorentz_of gamma v W -> dot3 gamma v v <= 9999 / 10000 ->
  (exists i, (i < 3)%nat /\ F i <> 0) ->
  let c := mkClosure v gamma alpha rs in let e1 := basis_g c F in let e2 := basis_d c F in
  comoving_dot gamma v e1 e1 = 1 /\ comoving_dot gamma v e1 e2 = 0 /\
  (0 < dot3 gamma v v -> 0 <= comoving_dot gamma v e2 e2 <= 1).
Proof.
  intros alpha beta g ginv gamma gi sg sgg v W rs F A HW Hv (i0 & Hi0 & F0) c e1 e2.
  pose proof (adm_gamma_sym _ _ _ _ _ _ _ _ A) as Gs. pose proof (adm_gamma_pd _ _ _ _ _ _ _ _ A) as Gp. destruct (HW) as [Wp We].
  assert (cw : cW c = W) by exact (W_val _ gamma v W HW Hv rs).
  set (x := fun k => sum3 (fun j => F j * gi k j)).
  assert (rF : forall k, (k < 3)%nat -> raise3Vector (con_gamma c) F k = x k) by (intros k Hk; exact (raise_c _ _ _ _ _ _ _ _ A v rs F k Hk)).
  assert (lF : forall k, (k < 3)%nat -> lower3 gamma x k = F k) by (intros k Hk; exact (low_raise _ _ _ _ _ _ _ _ A F k Hk)).
  assert (Nx : 0 < dot3 gamma x x).
  { apply Gp. destruct (Req_dec (x 0%nat) 0) as [Z0|N]; [|exists 0%nat; split; [lia|exact N]].
    destruct (Req_dec (x 1%nat) 0) as [Z1|N]; [|exists 1%nat; split; [lia|exact N]].
    destruct (Req_dec (x 2%nat) 0) as [Z2|N]; [|exists 2%nat; split; [lia|exact N]].
    exfalso. apply F0. rewrite <- lF by exact Hi0. unfold lower3, sum3. rewrite Z0, Z1, Z2. ring. }
  set (m := basis_Fmag c F).
  assert (m2 : m = sqrt (dot3 gamma x x)).
  { unfold m, basis_Fmag. f_equal. unfold sum3. rewrite !rF by lia. rewrite <- !lF by lia. unfold dot3, lower3, sum3. rewrite (Gs 1 0)%nat, (Gs 2 0)%nat, (Gs 2 1)%nat by lia. ring. }
  assert (mp : 0 < m) by (rewrite m2; apply sqrt_lt_R0; exact Nx).
  assert (mm : m * m = dot3 gamma x x) by (rewrite m2; apply sqrt_sqrt; lra).
  set (l := fun k => x k / m).
  assert (ll : dot3 gamma l l = 1).
  { transitivity (dot3 gamma x x / (m * m)); [unfold l, dot3, sum3; field; lra|]. rewrite mm. field. lra. }
  set (b := dot3 gamma v l). set (a := dot3 gamma v v) in *.
  assert (vl : basis_vl c F = b).
  { unfold basis_vl. fold m. unfold gratio. rewrite Req_bool_false by lra. change (con_v c) with v. unfold sum3. rewrite <- !lF by lia.
    unfold b, l, dot3, lower3, sum3. rewrite (Gs 1 0)%nat, (Gs 2 0)%nat, (Gs 2 1)%nat by lia. field. lra. }
  assert (CS : b * b <= a) by (pose proof (cauchy_schwarz gamma Gs Gp v l) as K; fold b a in K; rewrite ll in K; lra).
  assert (ap : 0 <= a) by exact (pd_nonneg gamma Gp v).
  assert (b1 : 0 < 1 - b) by nra.
  assert (aW : a = 1 - 1 / (W * W)) by exact (v2_W gamma v W HW).
  set (lam := basis_lam c F).
  assert (lamE : lam = 1 / (W * (1 - b))).
  { unfold lam, basis_lam. rewrite vl, cw. unfold gratio. rewrite Req_bool_false; [reflexivity|]. nra. }
  assert (g1 : forall k, (k < 3)%nat -> e1 k = lam * l k - W * v k).
  { intros k Hk. unfold e1, basis_g. fold m lam. rewrite cw, (rF k Hk). unfold gratio. rewrite Req_bool_false by lra. change (con_v c) with v. unfold l. field. lra. }
  assert (bl : dot3 gamma l v = b) by (rewrite dot3_sym by exact Gs; reflexivity).
  assert (v1 : dot3 gamma v e1 = lam * b - W * a).
  { transitivity (dot3 gamma v (fun k => lam * l k + - W * v k)).
    - apply dot3_ext; [intros ? ?; reflexivity|]. intros k Hk. rewrite g1 by exact Hk. ring.
    - rewrite dot3_linr. fold a b. ring. }
  assert (e11 : dot3 gamma e1 e1 = lam * lam - 2 * lam * W * b + W * W * a).
  { transitivity (dot3 gamma (fun k => lam * l k + - W * v k) (fun k => lam * l k + - W * v k)).
    - apply dot3_ext; intros k Hk; rewrite g1 by exact Hk; ring.
    - rewrite dot3_lin, !dot3_linr. fold a b. rewrite ll, bl. ring. }
  split; [|].
  { unfold comoving_dot. rewrite v1, e11, aW, lamE. field. lra. }
  set (y := 1 - lam / W). set (aa := basis_aa c F).
  assert (d1 : forall k, (k < 3)%nat -> gratio (raise3Vector (con_gamma c) F k) m * (1 - lam / cW c) + con_v c k = y * l k + 1 * v k).
  { intros k Hk. rewrite cw, (rF k Hk). unfold gratio. rewrite Req_bool_false by lra. change (con_v c) with v. unfold l, y. field. lra. }
  set (w := fun k => y * l k + 1 * v k).
  set (den := if Req_bool aa 0 then @Robust.SMALL R _ else aa).
  assert (g2 : forall k, (k < 3)%nat -> e2 k = w k / den).
  { intros k Hk. unfold e2, basis_d. fold m lam aa. rewrite d1 by exact Hk. unfold gratio, w, den. destruct (Req_bool aa 0); reflexivity. }
  assert (vw : dot3 gamma v w = y * b + a) by (unfold w; rewrite dot3_linr; fold a b; ring).
  assert (ww : dot3 gamma w w = y * y + 2 * y * b + a) by (unfold w; rewrite dot3_lin, !dot3_linr; fold a b; rewrite ll, bl; ring).
  assert (ew : dot3 gamma e1 w = lam * (y + b) - W * (y * b + a)).
  { transitivity (dot3 gamma (fun k => lam * l k + - W * v k) w).
    - apply dot3_ext; [|intros ? ?; reflexivity]. intros k Hk. rewrite g1 by exact Hk. ring.
    - rewrite dot3_lin. unfold w. rewrite !dot3_linr. fold a b. rewrite ll, bl. ring. }
  assert (S1 : forall p, dot3 gamma p e2 = dot3 gamma p w / den).
  { intros p. transitivity (dot3 gamma p (fun k => / den * w k + 0 * w k)).
    - apply dot3_ext; [intros ? ?; reflexivity|]. intros k Hk. rewrite g2 by exact Hk. unfold Rdiv. ring.
    - rewrite dot3_linr. unfold Rdiv. ring. }
  assert (S2 : dot3 gamma e2 e2 = dot3 gamma w w / den / den).
  { rewrite S1. f_equal. rewrite dot3_sym by exact Gs. apply S1. }
  split.
  - unfold comoving_dot. rewrite !S1, ew, v1, vw. replace (lam * (y + b) - W * (y * b + a)) with ((lam * b - W * a) * (y * b + a)); [unfold Rdiv; ring|].
    unfold y. rewrite aW, lamE. field. lra.
  - intros av. unfold comoving_dot. rewrite S2, S1, vw, ww.
    assert (N2 : y * y + 2 * y * b + a - (y * b + a) * (y * b + a) = a - b * b) by (unfold y; rewrite aW, lamE; field; lra).
    assert (cv2 : sum3 (fun i => cov_v c i * con_v c i) = a).
    { unfold sum3. unfold c. rewrite !(cov_v_low alpha gamma v rs). unfold a. rewrite <- low_pair. unfold mkClosure, sum3; cbn [con_v]. ring. }
    assert (ep : 0 < eps10) by (unfold eps10; apply Rdiv_lt_0_compat; [lra|apply IZR_lt; reflexivity]).
    assert (ae : 0 < a * (1 + eps10) - b * b) by nra.
    assert (aaE : aa = sqrt (a * (1 + eps10) - b * b)) by (unfold aa, basis_aa; rewrite vl, cv2; reflexivity).
    assert (aap : 0 < aa) by (rewrite aaE; apply sqrt_lt_R0; exact ae).
    assert (aa2 : aa * aa = a * (1 + eps10) - b * b) by (rewrite aaE; apply sqrt_sqrt; lra).
    assert (dE : den = aa) by (unfold den; rewrite Req_bool_false by lra; reflexivity). rewrite dE.
    replace ((y * y + 2 * y * b + a) / aa / aa - (y * b + a) / aa * ((y * b + a) / aa)) with ((y * y + 2 * y * b + a - (y * b + a) * (y * b + a)) / (aa * aa)) by (field; lra).
    rewrite N2, aa2. split.
    + apply Rmult_le_pos; [lra|]. left. apply Rinv_0_lt_compat. exact ae.
    + apply (Rmult_le_reg_r (a * (1 + eps10) - b * b)); [exact ae|]. unfold Rdiv. rewrite Rmult_assoc, Rinv_l by lra. nra.
Qed.
Print Assumptions C28_basis.

(** *** solving for the flux factor *)
Lemma m1_delta_01 : 0 < m1_delta < 1.
Proof.
  unfold m1_delta. assert (P : 0 < IZR (2 ^ 52)) by (apply IZR_lt; reflexivity). split; [apply Rdiv_lt_0_compat; lra|].
  apply (Rmult_lt_reg_r (IZR (2 ^ 52))); [exact P|]. unfold Rdiv. rewrite Rmult_assoc, Rinv_l by lra. rewrite Rmult_1_r, Rmult_1_l. apply IZR_lt. reflexivity.
Qed.
Lemma m1_step_range f xi : 0 <= xi <= 1 -> 0 <= m1_step f xi <= 1.
Proof.
  intros [L U]. pose proof m1_delta_01 as [D0 D1]. unfold m1_step. cbv zeta.
  set (dx := f xi / _). set (co := Rmax _ _).
  assert (B : xi - (1 - m1_delta * (1 - xi)) <= co <= xi - m1_delta * xi).
  { unfold co. split; [apply Rmax_r|]. apply Rmax_lub; [apply Rmin_r|]. nra. }
  unfold gratio. destruct (Req_bool_spec dx 0) as [E|N].
  - rewrite E, Rmult_0_r. lra.
  - unfold Rdiv. rewrite Rmult_assoc, Rinv_l, Rmult_1_r by exact N. nra.
Qed.
Lemma m1_loop_inv f : forall fuel iter xi, 0 <= xi <= 1 -> let '(x, n, r) := m1_loop f fuel iter xi in
  0 <= x <= 1 /\ (iter < n)%nat /\ ((n < m1_max_iter)%nat -> (n <= iter + fuel)%nat -> Rabs r <= m1_tol) /\ exists y, 0 <= y <= 1 /\ r = f y /\ x = m1_step f y.
Proof.
  induction fuel as [|fuel IH]; intros iter xi B; cbn [m1_loop].
  - split; [apply m1_step_range, B|]. split; [lia|]. split; [lia|]. exists xi. split; [exact B|]. split; reflexivity.
  - destruct (Nat.ltb (S iter) m1_max_iter && Rlt_bool m1_tol (Rabs (f xi)))%bool eqn:E.
    + specialize (IH (S iter) _ (m1_step_range f xi B)). destruct (m1_loop f fuel (S iter) (m1_step f xi)) as [[x n] r].
      destruct IH as (P1 & P2 & P3 & P4). split; [exact P1|]. split; [lia|]. split; [intros; apply P3; lia|exact P4].
    + split; [apply m1_step_range, B|]. split; [lia|]. split.
      * intros Hn _. apply andb_false_iff in E. destruct E as [E|E]; [apply Nat.ltb_ge in E; lia|].
        destruct (Rlt_bool_spec m1_tol (Rabs (f xi))) as [K|K]; [discriminate|exact K].
      * exists xi. split; [exact B|]. split; reflexivity.
Qed.
Lemma m1_loop_iter f : forall fuel iter xi, let '(x, n, r) := m1_loop f fuel iter xi in (iter < m1_max_iter)%nat -> (n <= m1_max_iter)%nat /\ (n <= iter + S fuel)%nat.
Proof.
  induction fuel as [|fuel IH]; intros iter xi; cbn [m1_loop]; [lia|].
  destruct (Nat.ltb (S iter) m1_max_iter && Rlt_bool m1_tol (Rabs (f xi)))%bool eqn:E; [|lia].
  apply andb_true_iff in E. destruct E as [E _]. apply Nat.ltb_lt in E.
  specialize (IH (S iter) (m1_step f xi)). destruct (m1_loop f fuel (S iter) (m1_step f xi)) as [[x n] r]. intros _. specialize (IH E). lia.
Qed.
(** For every residual function and every starting value in [0,1]: the result lies in [0,1];
    if the status is success, fewer than thirty steps were made and the residual was within
    the tolerance one step before the value returned. *)
Theorem C28_iteration : forall f xi0, 0 <= xi0 <= 1 ->
  let '(xi, st) := SolveClosure f xi0 in
  0 <= xi <= 1 /\ (st = Csuccess -> exists y, 0 <= y <= 1 /\ Rabs (f y) <= m1_tol /\ xi = m1_step f y).
Proof.
  intros f xi0 B. unfold SolveClosure. pose proof (m1_loop_inv f m1_max_iter 0 xi0 B) as K. pose proof (m1_loop_iter f m1_max_iter 0 xi0) as K2.
  destruct (m1_loop f m1_max_iter 0 xi0) as [[x n] r]. destruct K as (P1 & P2 & P3 & y & Y1 & Y2 & Y3).
  split; [exact P1|]. destruct (Nat.leb m1_max_iter n) eqn:E; [discriminate|]. apply Nat.leb_gt in E. intros _.
  exists y. split; [exact Y1|]. split; [|exact Y3]. rewrite <- Y2. apply P3; lia.
Qed.
Print Assumptions C28_iteration.

(** the solver only ever asks for the residual at flux factors in [0,1] *)
Lemma m1_eps_01 : 0 < m1_eps < 1.
Proof.
  unfold m1_eps. assert (P : 0 < IZR (2 ^ 52)) by (apply IZR_lt; reflexivity). split; [apply sqrt_lt_R0, Rdiv_lt_0_compat; lra|].
  apply (Rlt_le_trans _ (sqrt 1)); [|rewrite sqrt_1; lra]. apply sqrt_lt_1_alt. split; [left; apply Rdiv_lt_0_compat; lra|].
  apply (Rmult_lt_reg_r (IZR (2 ^ 52))); [exact P|]. unfold Rdiv. rewrite Rmult_assoc, Rinv_l by lra. rewrite Rmult_1_r, Rmult_1_l. apply IZR_lt. reflexivity.
Qed.
Lemma m1_step_ext f g xi : 0 <= xi <= 1 -> (forall x, 0 <= x <= 1 -> f x = g x) -> m1_step f xi = m1_step g xi.
Proof.
  intros B E. pose proof m1_delta_01 as [D0 D1]. pose proof m1_eps_01 as [e0 e1]. unfold m1_step. cbv zeta.
  rewrite (E xi B), (E (Rmin (xi * (1 + m1_eps) + m1_delta) 1)), (E (Rmax (xi * (1 - m1_eps) - m1_delta) 0)); [reflexivity| |].
  - split; [apply Rmax_r|]. apply Rmax_lub; [nra|lra].
  - split; [apply Rmin_glb; [nra|lra]|apply Rmin_r].
Qed.
Theorem C28_domain : forall f g xi0, 0 <= xi0 <= 1 -> (forall x, 0 <= x <= 1 -> f x = g x) -> SolveClosure f xi0 = SolveClosure g xi0.
Proof.
  intros f g xi0 B E. unfold SolveClosure. assert (K : forall fuel iter xi, 0 <= xi <= 1 -> m1_loop f fuel iter xi = m1_loop g fuel iter xi).
  { induction fuel as [|fuel IH]; intros iter xi Bx; cbn [m1_loop]; rewrite (m1_step_ext f g xi Bx E), (E xi Bx); [reflexivity|].
    rewrite IH; [reflexivity|]. rewrite <- (m1_step_ext f g xi Bx E). apply m1_step_range, Bx. }
  rewrite K by exact B. reflexivity.
Qed.
Print Assumptions C28_domain.
(** a residual that is linear in the flux factor, with a root away from the ends, is solved exactly
    in one step from any starting value; the solver reports success *)
Theorem C28_linear : forall a r xi0, a <> 0 -> m1_delta <= r <= 1 - m1_delta -> 0 <= xi0 <= 1 ->
  m1_step (fun x => a * (x - r)) xi0 = r /\ SolveClosure (fun x => a * (x - r)) xi0 = (r, Csuccess).
Proof.
  intros a r xi0 Ha Hr B. pose proof m1_delta_01 as [D0 D1]. pose proof m1_eps_01 as [e0 e1].
  assert (St : forall xi, 0 <= xi <= 1 -> m1_step (fun x => a * (x - r)) xi = r).
  { intros xi Bx. unfold m1_step. cbv zeta. set (up := Rmin _ 1). set (lo := Rmax _ 0).
    assert (Hul : lo < up). { unfold up, lo. apply Rmax_lub_lt; apply Rmin_glb_lt; nra. }
    assert (J : (a * (up - r) - a * (lo - r)) / (up - lo) = a) by (field; lra). rewrite J.
    assert (Dx : a * (xi - r) / a = xi - r) by (field; exact Ha). rewrite Dx.
    rewrite (Rmin_left (xi - r) (xi - m1_delta * xi)) by nra. rewrite (Rmax_left (xi - r) (xi - (1 - m1_delta * (1 - xi)))) by nra.
    unfold gratio. destruct (Req_bool_spec (xi - r) 0) as [E0|N]; [rewrite E0; lra|]. field. exact N. }
  split; [apply St, B|]. unfold SolveClosure, m1_max_iter. assert (Br : 0 <= r <= 1) by lra.
  assert (T0 : 0 <= m1_tol) by (unfold m1_tol; apply Rmult_le_pos; [lra|left; apply Rinv_0_lt_compat, IZR_lt; reflexivity]).
  set (n := 29%nat). change 30%nat with (S n). cbn [m1_loop]. rewrite (St xi0 B). unfold m1_max_iter. fold n.
  destruct (Rlt_bool m1_tol (Rabs (a * (xi0 - r)))).
  - unfold n. cbn [m1_loop]. rewrite (St r Br). replace (a * (r - r)) with 0 by ring. rewrite Rabs_R0, (Rlt_bool_false m1_tol 0) by exact T0. rewrite !andb_false_r. reflexivity.
  - rewrite andb_false_r. reflexivity.
Qed.
Print Assumptions C28_linear.
Example C28_linear_case : 2 <> 0 /\ m1_delta <= / 2 <= 1 - m1_delta.
Proof.
  split; [lra|]. assert (D : m1_delta <= / 4); [|lra]. unfold m1_delta. assert (P : 80 <= IZR (2 ^ 52)) by (apply IZR_le; lia).
  apply (Rmult_le_reg_r (IZR (2 ^ 52))); [lra|]. unfold Rdiv. rewrite Rmult_assoc, Rinv_l by lra. lra.
Qed.

(** the pressure tensor computed from the conserved moments is again the projection of an
    Eddington tensor orthogonal to u and without trace, along a unit vector f *)
Definition lift (alpha : R) (beta : vec) (gamma : mat) (v x : vec) : vec :=
  fun m => match m with O => dot3 gamma v x / alpha | S i => x i - beta i * (dot3 gamma v x / alpha) end.
Theorem C28_con_tensor : forall alpha beta g ginv gamma gi sg sgg v W rs eq E (F : vec) xi0,
  adm_consistent alpha beta g ginv gamma gi sg sgg -> lorentz_of gamma v W -> dot3 gamma v v <= 9999 / 10000 ->
  (exists i, (i < 3)%nat /\ F i <> 0) -> 0 <= xi0 <= 1 ->
  let c := mkClosure v gamma alpha rs in let u := moving alpha beta W v in
  let '(tilPi, xi, st) := GetConTilPiFromCon c eq E F xi0 in
  let f := lift alpha beta gamma v (basis_g c F) in
  let Pi := eddington_tensor ginv u (closure xi) f in
  0 <= xi <= 1 /\ dot4 g f f = 1 /\ dot4 g u f = 0 /\ transverse2 g u Pi /\ traceless g Pi /\
  forall i j, (i < 3)%nat -> (j < 3)%nat -> tilPi i j = eulerian_pressure alpha beta Pi i j.
Proof.
  intros alpha beta g ginv gamma gi sg sgg v W rs eq E F xi0 A HW Hv HF X0 c u.
  unfold GetConTilPiFromCon.
  set (res := fun xi => M1Residual _ _ _ _ _ _ _). pose proof (C28_iteration res xi0 X0) as It. destruct (SolveClosure res xi0) as [xi st].
  destruct It as [Xr _]. set (f := lift alpha beta gamma v (basis_g c F)). set (Pi := eddington_tensor ginv u (closure xi) f).
  destruct (C28_basis _ _ _ _ _ _ _ _ v W rs F A HW Hv HF) as (B1 & _ & _). fold c in B1. cbv zeta in B1. fold c in B1. set (e := basis_g c F) in *.
  pose proof (adm_lapse_pos _ _ _ _ _ _ _ _ A) as ap. pose proof (adm_tpo _ _ _ _ _ _ _ _ A) as T.
  assert (Hf : forall i, hat beta f i = e i) by (intros i; unfold hat, f, lift; ring).
  assert (f0 : alpha * f 0%nat = dot3 gamma v e) by (unfold f, lift; field; lra).
  assert (N : dot4 g f f = 1).
  { rewrite (dot4_split _ _ _ _ T). rewrite (dot3_ext gamma (hat beta f) e (hat beta f) e) by (intros i _; apply Hf).
    unfold comoving_dot in B1. rewrite <- f0 in B1. lra. }
  assert (O : dot4 g u f = 0).
  { unfold u. rewrite (trans_split _ _ _ _ _ _ _ _ A v W f). rewrite f0. rewrite (dot3_ext gamma v v (hat beta f) e) by (intros i _; first [apply Hf|reflexivity]). ring. }
  split; [exact Xr|]. split; [exact N|]. split; [exact O|]. split; [exact (edd_transverse _ _ _ _ _ _ _ _ A v W HW _ _ O)|].
  split; [exact (edd_trace _ _ _ _ _ _ _ _ A v W HW _ _ N)|].
  intros i j Hi Hj. rewrite (pressure_hat _ _ _ _ _ _ _ _ A Pi i j Hi Hj).
  assert (W2 : cW2 c = W * W) by exact (W2_val _ gamma v W HW Hv rs).
  assert (Cg : con_gamma c i j = gi i j) by exact (con_gamma_c _ _ _ _ _ _ _ _ A v rs i j Hi Hj).
  pose proof (ginv_ij _ _ _ _ _ _ _ _ A i j Hi Hj) as Gij.
  pose proof (hat_u _ _ _ _ _ _ _ _ A v W i) as Ui. pose proof (hat_u _ _ _ _ _ _ _ _ A v W j) as Uj. fold u in Ui, Uj.
  transitivity ((3 * closure xi - 1) / 2 * (hat beta f i * hat beta f j - (hat beta (fun m => hat beta (ginv m) j) i + hat beta u i * hat beta u j) / 3)).
  - rewrite Gij, Ui, Uj, !Hf. unfold M1FluidPressureTensor, M1Pi, m1_dir_phi. rewrite W2, Cg, cos_PI, sin_PI. change (con_v c) with v. fold e. unfold athin_of. field.
  - unfold Pi, eddington_tensor, hat. field.
Qed.
Print Assumptions C28_con_tensor.

(** The angle of the flux is never solved for: with phi frozen, the tensor computed from the
    conserved moments cannot equal the one computed from the primitive moments they came
    from, whatever flux factor the iteration returns.  Flat space, v = 3/5 along x, J = 1,
    flux 3/4 along y. *)
Definition Hy34 : vec := v3 0 (3 / 4) 0.
Theorem C28_con_prim_refuted : forall rs xi, let c := mkClosure vx delta 1 rs in
  let Pi := GetConTilPiFromPrim c 1 Hy34 in
  let F := snd (Prim2Con c energy_conserve 1 Hy34 Pi) in
  exists i j, (i < 3)%nat /\ (j < 3)%nat /\ M1FluidPressureTensor c xi PI (basis_g c F) (basis_d c F) i j <> Pi i j.
Proof.
  intros rs xi c Pi F.
  pose proof eta4_consistent as A.
  assert (nv : dot3 delta vx vx <= 9999 / 10000) by (rewrite vx_norm; lra).
  assert (cw : cW c = 5 / 4) by exact (W_val _ delta vx (5/4) vx_lorentz nv rs).
  assert (cw2 : cW2 c = 25 / 16) by (change (cW2 c) with (cW c * cW c); rewrite cw; field).
  assert (cv : forall i, cov_v c i = lower3 delta vx i) by (intros i; exact (cov_v_low _ delta vx rs i)).
  assert (Cg : forall i j, (i < 3)%nat -> (j < 3)%nat -> con_gamma c i j = delta i j) by (intros i j Hi Hj; exact (con_gamma_c _ _ _ _ _ _ _ _ A vx rs i j Hi Hj)).
  assert (rc : forall (X : vec) i, (i < 3)%nat -> raise3Vector (con_gamma c) X i = X i).
  { intros X i Hi. unfold raise3Vector, sum3. rewrite !Cg by lia. unfold delta. idx; cbn; ring. }
  assert (fl : m1_flux c Hy34 = 3 / 4).
  { unfold m1_flux. unfold sum3. rewrite !rc by lia. change (con_v c) with vx. unfold Hy34, vx, v3. apply sqrt_lem_1; [lra|lra|field]. }
  assert (fx : m1_xi c 1 Hy34 = 3 / 4).
  { unfold m1_xi. rewrite fl. unfold gratio. rewrite Req_bool_false by lra. rewrite Rmin_right by lra. rewrite Rmax_left by lra. field. }
  assert (at34 : athin_of (3 / 4) = 9 / 32) by (unfold athin_of, closure; field).
  assert (PiE : forall i j, (i < 3)%nat -> (j < 3)%nat -> Pi i j = 9 / 32 * (v3 0 1 0 i * v3 0 1 0 j - (25 / 16 * vx i * vx j + delta i j) / 3)).
  { intros i j Hi Hj. unfold Pi, GetConTilPiFromPrim, M1Pi. rewrite fx, at34, cw2, Cg by assumption. unfold m1_dir. rewrite !rc, fl by assumption.
    change (con_v c) with vx. unfold gratio. rewrite Req_bool_false by lra. unfold Hy34, v3. idx; field. }
  assert (Fi : forall i, (i < 3)%nat -> F i = v3 (595 / 512) (15 / 16) 0 i).
  { intros i Hi. unfold F, Prim2Con; cbn [snd]. rewrite cw, cw2, cv. unfold cov_vTilPi. rewrite low3_lower. change (cov_gamma c) with delta. change (con_v c) with vx.
    unfold lower3, con_vTilPi, sum3. rewrite !cv. rewrite !PiE by lia. unfold lower3, sum3, delta, vx, v3, Hy34. idx; cbn; field. }
  assert (m : exists s, basis_Fmag c F = s /\ 0 < s /\ s * s = 595 / 512 * (595 / 512) + 15 / 16 * (15 / 16)).
  { exists (basis_Fmag c F). split; [reflexivity|]. unfold basis_Fmag, sum3. rewrite !rc, !Fi by lia. unfold v3.
    split; [apply sqrt_lt_R0; lra|]. rewrite sqrt_sqrt by lra. ring. }
  destruct m as (s & ms & sp & s2).
  assert (vl : basis_vl c F = 357 / 512 / s).
  { unfold basis_vl, gratio. rewrite ms, Req_bool_false by lra. change (con_v c) with vx. unfold sum3. rewrite !Fi by lia. unfold vx, v3. field. lra. }
  assert (s1 : 1 < s) by nra.
  assert (b1 : 0 < 1 - 357 / 512 / s).
  { assert (357 / 512 / s < 1); [|lra]. apply (Rmult_lt_reg_r s); [lra|]. unfold Rdiv at 1. rewrite Rmult_assoc, Rinv_l by lra. lra. }
  set (lam := basis_lam c F).
  assert (lE : lam = 1 / (5 / 4 * (1 - 357 / 512 / s))).
  { unfold lam, basis_lam. rewrite cw, vl. unfold gratio. rewrite Req_bool_false; [reflexivity|]. nra. }
  assert (lp : 0 < lam) by (rewrite lE; apply Rdiv_lt_0_compat; [lra|nra]).
  assert (g0 : basis_g c F 0%nat = 595 / 512 * lam / s - 3 / 4).
  { unfold basis_g. fold lam. rewrite ms, cw, rc, Fi by lia. unfold gratio. rewrite Req_bool_false by lra. change (con_v c) with vx. unfold vx, v3. field. lra. }
  assert (g1 : basis_g c F 1%nat = 15 / 16 * lam / s).
  { unfold basis_g. fold lam. rewrite ms, cw, rc, Fi by lia. unfold gratio. rewrite Req_bool_false by lra. change (con_v c) with vx. unfold vx, v3. field. lra. }
  assert (n0 : basis_g c F 0%nat <> 0).
  { rewrite g0, lE. assert (595 / 512 * (1 / (5 / 4 * (1 - 357 / 512 / s))) / s = 595 / 640 / (s - 357 / 512)).
    { field. repeat split; nra. }
    rewrite H. intro K. assert (K2 : 595 / 640 = 3 / 4 * (s - 357 / 512)).
    { apply (Rmult_eq_reg_r (/ (s - 357 / 512))); [|apply Rinv_neq_0_compat; lra]. rewrite Rmult_assoc, Rinv_r by lra. unfold Rdiv in K at 1. lra. }
    assert (s = 4 / 3 * (595 / 640) + 357 / 512) by lra. nra. }
  assert (n1 : basis_g c F 1%nat <> 0).
  { rewrite g1. apply Rgt_not_eq. apply Rdiv_lt_0_compat; [nra|lra]. }
  destruct (Req_dec (athin_of xi) 0) as [Za|Na].
  - exists 1%nat, 1%nat. split; [lia|]. split; [lia|]. unfold M1FluidPressureTensor, M1Pi. rewrite Za, PiE by lia. unfold vx, v3, delta. cbn. lra.
  - exists 0%nat, 1%nat. split; [lia|]. split; [lia|]. rewrite PiE by lia. unfold M1FluidPressureTensor, M1Pi, m1_dir_phi. rewrite cos_PI, sin_PI, Cg by lia. change (con_v c) with vx.
    replace (9 / 32 * (v3 0 1 0 0%nat * v3 0 1 0 1%nat - (25 / 16 * vx 0%nat * vx 1%nat + delta 0%nat 1%nat) / 3)) with 0 by (unfold v3, vx, delta; cbn; field).
    intro K. apply Rmult_integral in K. destruct K as [K|K]; [|contradiction].
    assert (K2 : basis_g c F 0%nat * basis_g c F 1%nat = 0).
    { rewrite <- K. unfold vx, v3, delta. cbn. lra. }
    apply Rmult_integral in K2. tauto.
Qed.
Print Assumptions C28_con_prim_refuted.

(** *** the hypotheses are met *)
Example C28_nonvacuous : adm_consistent 1 zero3 eta4 eta4 delta delta 1 1 /\ lorentz_of delta vx (5 / 4) /\ dot3 delta vx vx <= 9999 / 10000 /\
  transverse eta4 (moving 1 zero3 (5 / 4) vx) Hy /\ 0 < dot4 eta4 Hy Hy /\ flux_factor eta4 1 Hy = 1.
Proof.
  split; [exact eta4_consistent|]. split; [exact vx_lorentz|]. split; [rewrite vx_norm; lra|]. split; [exact Hy_trans|]. rewrite Hy_norm. split; [lra|].
  unfold flux_factor. rewrite Hy_norm, sqrt_1. field.
Qed.
