(** C31: the linear implicit update of the radiation moments. *)
From Coq Require Import Reals Lra Lia Arith Bool Psatz.
From Flocq Require Import Core.
From Verif.Spec Require Import Tensor GeomSpec Relativity RadSpec RadSource.
From Verif.Model Require Import Geometry LinearAlgebra RadClosure.
From Verif.Proofs Require Import TensorTac LinearAlgebraProofs GeomBase AdmProofs RelProofs RadProofs FlatWitness.
From Verif.Properties Require Import P_RadTransform.
Local Open Scope R_scope.

Section Step.
Variables (alpha : R) (beta : vec) (g ginv gamma gi : mat) (sg sgg : R).
Hypothesis A : adm_consistent alpha beta g ginv gamma gi sg sgg.
Variables (v : vec) (W : R).
Hypothesis HW : lorentz_of gamma v W.
Hypothesis Hv : dot3 gamma v v <= 9999 / 10000.
Variable rs : Strategy.
Let c := mkClosure v gamma alpha rs.
Variable Pi : mat.
Let p := vvTilPi c Pi.
Let u := moving alpha beta W v.
Variables (Es : R) (Fs : vec) (JBB tJ tH : R).
Let y := sum3 (fun i => v i * Fs i).
Let e := (4 * (W * W) - 1) / 3.
Let A00 := e + W * W * p + W * tJ.
Let A01 := 2 * W + tH.
Let A10 := A00 - 1 - tJ / W.
Let A11 := A01 - 1 / W.
Let b0 := Es + W * tJ * JBB.
Let b1 := y + (W * W - 1) / W * tJ * JBB.
Lemma iWp : 0 < W. Proof. destruct HW; assumption. Qed.
Lemma icW : cW c = W. Proof. exact (W_val alpha gamma v W HW Hv rs). Qed.
Lemma icW2 : cW2 c = W * W. Proof. exact (W2_val alpha gamma v W HW Hv rs). Qed.
(** the determinant of the system *)
Definition step_det : R := (2 * (W * W) + 1) / (3 * W) + tJ + tH + tH * tJ / W - W * p.
Lemma det_val : A00 * A11 - A01 * A10 = step_det.
Proof. pose proof iWp. unfold step_det, A11, A10, A01, A00, e. field. lra. Qed.
Lemma lin_sol : LinearSolution c energy_conserve Es Fs Pi JBB tJ tH = (1 / step_det * (A11 * b0 - A01 * b1), 1 / step_det * (A00 * b1 - A10 * b0)).
Proof.
  unfold LinearSolution, SolveAxb2x2. cbv zeta. rewrite !DOP_R.
  unfold LinearA, Linearb. rewrite icW, icW2. cbn [rows3 row3]. change (con_v c) with v.
  change (contractConCov3Vectors v Fs) with y. fold p. fold e. fold A00. fold A01. fold A10. fold A11. fold b0. fold b1. rewrite det_val. reflexivity.
Qed.
Lemma lin_eqs J z : step_det <> 0 -> LinearSolution c energy_conserve Es Fs Pi JBB tJ tH = (J, z) -> A00 * J + A01 * z = b0 /\ A10 * J + A11 * z = b1.
Proof.
  intros N. rewrite lin_sol. intros K. injection K as <- <-. rewrite <- det_val in *. split; field; exact N.
Qed.
Lemma lin_uniq J z : step_det <> 0 -> A00 * J + A01 * z = b0 -> A10 * J + A11 * z = b1 -> LinearSolution c energy_conserve Es Fs Pi JBB tJ tH = (J, z).
Proof.
  intros N K1 K2. rewrite lin_sol. rewrite <- K1, <- K2, <- det_val in *. f_equal; field; exact N.
Qed.
End Step.

(** the four-vector orthogonal to u with given covariant spatial components *)
Definition flux4 (alpha : R) (beta : vec) (gi : mat) (v cov : vec) : vec :=
  let h := fun i => sum3 (fun j => cov j * gi i j) in
  let h0 := sum3 (fun i => v i * cov i) / alpha in
  fun m => match m with O => h0 | S i => h i - beta i * h0 end.
Lemma flux4_props alpha beta g ginv gamma gi sg sgg v W (cov : vec) : adm_consistent alpha beta g ginv gamma gi sg sgg ->
  let H := flux4 alpha beta gi v cov in
  (forall i, (i < 3)%nat -> low g H (S i) = cov i) /\ dot4 g (moving alpha beta W v) H = 0 /\ alpha * H 0%nat = sum3 (fun i => v i * cov i).
Proof.
  intros A H. pose proof (adm_lapse_pos _ _ _ _ _ _ _ _ A) as ap.
  set (h := fun i => sum3 (fun j => cov j * gi i j)).
  assert (Hh : forall i, hat beta H i = h i) by (intros i; unfold hat, H, flux4, h; ring).
  assert (L : forall i, (i < 3)%nat -> lower3 gamma h i = cov i) by (intros i Hi; exact (low_raise _ _ _ _ _ _ _ _ A cov i Hi)).
  assert (H0 : alpha * H 0%nat = sum3 (fun i => v i * cov i)) by (unfold H, flux4; field; lra).
  assert (vh : dot3 gamma v (hat beta H) = sum3 (fun i => v i * cov i)).
  { rewrite (dot3_ext gamma v v (hat beta H) h) by (intros i _; first [apply Hh|reflexivity]). rewrite <- low_pair. unfold sum3. rewrite !L by lia. reflexivity. }
  split; [|split; [|exact H0]].
  - intros i Hi. rewrite (low_hat _ _ _ _ _ _ _ _ A H i Hi). rewrite <- (L i Hi). unfold lower3, sum3. rewrite !Hh. reflexivity.
  - rewrite (trans_split _ _ _ _ _ _ _ _ A v W H). rewrite H0, vh. ring.
Qed.

Lemma force_vals alpha beta g ginv gamma gi sg sgg v W rs (H : vec) kJ kH JBB J : adm_consistent alpha beta g ginv gamma gi sg sgg ->
  let c := mkClosure v gamma alpha rs in let u := moving alpha beta W v in dot4 g u H = 0 -> W <> 0 ->
  let Q := four_force kJ kH JBB J u H in
  energy_rate alpha Q = alpha * (kJ * (JBB - J) * W - kH * sum3 (fun i => v i * low g H (S i))) /\
  forall i, (i < 3)%nat -> momentum_rate alpha g Q i = alpha * (kJ * (JBB - J) * W * cov_v c i - kH * low g H (S i)).
Proof.
  intros A c u O Wn Q. pose proof (adm_lapse_pos _ _ _ _ _ _ _ _ A) as ap.
  assert (H0 : alpha * H 0%nat = sum3 (fun i => v i * low g H (S i))).
  { pose proof (trans_split _ _ _ _ _ _ _ _ A v W H) as T. fold u in T. rewrite O in T.
    assert (E : alpha * H 0%nat = dot3 gamma v (hat beta H)) by (apply (Rmult_eq_reg_l W); [lra|exact Wn]).
    rewrite E. rewrite <- low_pair. unfold sum3. rewrite !(low_hat _ _ _ _ _ _ _ _ A H) by lia. reflexivity. }
  assert (u0 : alpha * u 0%nat = W) by (unfold u, moving; field; lra).
  split.
  - unfold energy_rate, normal_cov, sum4. rewrite <- H0. unfold Q, four_force.
    transitivity (alpha * (kJ * (JBB - J) * (alpha * u 0%nat) - kH * (alpha * H 0%nat))); [ring|]. rewrite u0. reflexivity.
  - intros i Hi. unfold momentum_rate. f_equal.
    assert (lu : low g u (S i) = W * cov_v c i).
    { rewrite (low_hat _ _ _ _ _ _ _ _ A u i Hi). unfold c. rewrite (cov_v_low alpha gamma v rs i). unfold lower3, sum3.
      assert (hu : forall j, hat beta u j = W * v j) by (intros j; exact (hat_u _ _ _ _ _ _ _ _ A v W j)). rewrite !hu. ring. }
    transitivity (kJ * (JBB - J) * low g u (S i) - kH * low g H (S i)); [|rewrite lu; ring].
    unfold Q, four_force, low, lower4, sum4. ring.
Qed.

(** Every metric, fluid velocity, starting moments, blackbody energy, opacities and step
    length: when the closure tensor has no component along the velocity (the Eddington
    closure, or matter at rest...), the update is the backward-Euler step: there are comoving
    moments J, H whose conserved moments are the updated ones and whose four-force, over the
    step, is exactly the change; and that solution is unique. *)
Theorem C31_backward_euler : forall alpha beta g ginv gamma gi sg sgg v W rs Pi Es Fs JBB kJ kH dt,
  adm_consistent alpha beta g ginv gamma gi sg sgg -> lorentz_of gamma v W -> dot3 gamma v v <= 9999 / 10000 ->
  let c := mkClosure v gamma alpha rs in let u := moving alpha beta W v in
  vvTilPi c Pi = 0 -> 0 <= kJ -> 0 <= kH -> 0 <= dt ->
  let '(dE, dF) := LinearSourceUpdate c energy_conserve Es Fs Pi JBB (dt * alpha * kJ) (dt * alpha * kH) in
  let step J (H : vec) E F :=
    transverse g u H /\ (let Q := four_force kJ kH JBB J u H in
      let '(E', F') := Prim2Con c energy_conserve J (fun i => low g H (S i)) Pi in
      E = E' /\ (forall i, (i < 3)%nat -> F i = F' i) /\
      E - Es = dt * energy_rate alpha Q /\ forall i, (i < 3)%nat -> F i - Fs i = dt * momentum_rate alpha g Q i) in
  (exists J H, step J H (Es + dE) (fun i => Fs i + dF i)) /\
  forall J H E F, step J H E F -> E = Es + dE /\ forall i, (i < 3)%nat -> F i = Fs i + dF i.
Proof.
  intros alpha beta g ginv gamma gi sg sgg v W rs Pi Es Fs JBB kJ kH dt A HW Hv c u p0 J0 H0 D0.
  pose proof (adm_lapse_pos _ _ _ _ _ _ _ _ A) as ap. assert (Wp : 0 < W) by (destruct HW; assumption).
  set (tJ := dt * alpha * kJ). set (tH := dt * alpha * kH).
  assert (tJ0 : 0 <= tJ) by (unfold tJ; apply Rmult_le_pos; [apply Rmult_le_pos; lra|exact J0]).
  assert (tH0 : 0 <= tH) by (unfold tH; apply Rmult_le_pos; [apply Rmult_le_pos; lra|exact H0]).
  assert (cw : cW c = W) by exact (W_val alpha gamma v W HW Hv rs). assert (cw2 : cW2 c = W * W) by exact (W2_val alpha gamma v W HW Hv rs).
  assert (V2 : dot3 gamma v v = 1 - 1 / (W * W)) by exact (v2_W gamma v W HW).
  assert (T1 : sum3 (fun i => v i * cov_v c i) = dot3 gamma v v) by exact (v_cov_v alpha gamma v rs).
  assert (T2 : sum3 (fun i => v i * cov_vTilPi c Pi i) = 0) by (rewrite <- p0; exact (v_cov_vPi _ _ _ _ _ _ _ _ A v rs Pi)).
  assert (dp : 0 < step_det alpha gamma v W rs Pi tJ tH).
  { unfold step_det. fold c. rewrite p0. assert (0 < (2 * (W * W) + 1) / (3 * W)) by (apply Rdiv_lt_0_compat; nra).
    assert (0 <= tH * tJ / W) by (apply Rmult_le_pos; [nra|left; apply Rinv_0_lt_compat; lra]). lra. }
  unfold LinearSourceUpdate. destruct (LinearSolution c energy_conserve Es Fs Pi JBB tJ tH) as [J z] eqn:LS.
  pose proof (lin_eqs alpha gamma v W HW Hv rs Pi Es Fs JBB tJ tH J z ltac:(lra) LS) as [R0 R1]. fold c in R0, R1. rewrite p0 in R0, R1.
  rewrite cw, cw2, p0. set (y := sum3 (fun i => v i * Fs i)) in *.
  set (dE := _ - Es). set (dF := fun i => (cov_v c i * tH * (4 * (W * W) / 3 * J + W * z) + tH * cov_vTilPi c Pi i * J + tJ * (W * W) * cov_v c i * (JBB - J) + W * Fs i) / (W + tH) - Fs i).
  set (a := 4 * (W * W) / 3 * J + W * z).
  assert (Fi : forall i, (W + tH) * (Fs i + dF i) = a * tH * cov_v c i + tH * J * cov_vTilPi c Pi i + tJ * (W * W) * cov_v c i * (JBB - J) + W * Fs i).
  { intros i. unfold dF, a. field. lra. }
  set (cH := fun i => (Fs i + dF i - a * cov_v c i - J * cov_vTilPi c Pi i) / W).
  assert (cHE : forall i, (W + tH) * cH i = tJ * W * cov_v c i * (JBB - J) + Fs i - a * cov_v c i - J * cov_vTilPi c Pi i).
  { intros i. unfold cH. apply (Rmult_eq_reg_r W); [|lra].
    replace ((W + tH) * ((Fs i + dF i - a * cov_v c i - J * cov_vTilPi c Pi i) / W) * W) with ((W + tH) * (Fs i + dF i) - (W + tH) * (a * cov_v c i + J * cov_vTilPi c Pi i)) by (field; lra).
    rewrite Fi. ring. }
  assert (zE : sum3 (fun i => v i * cH i) = z).
  { apply (Rmult_eq_reg_l (W + tH)); [|lra].
    transitivity (sum3 (fun i => v i * ((W + tH) * cH i))); [unfold sum3; ring|].
    transitivity ((tJ * W * (JBB - J) - a) * sum3 (fun i => v i * cov_v c i) + y - J * sum3 (fun i => v i * cov_vTilPi c Pi i)).
    { unfold sum3 at 1. rewrite !cHE. unfold y, sum3. ring. }
    rewrite T1, T2, V2. unfold a.
    replace ((tJ * W * (JBB - J) - (4 * (W * W) / 3 * J + W * z)) * (1 - 1 / (W * W)) + y - J * 0) with
      (y + (W * W - 1) / W * tJ * JBB - (((4 * (W * W) - 1) / 3 + W * W * 0 + W * tJ - 1 - tJ / W) * J + (W - 1 / W) * z)) by (field; lra).
    rewrite <- R1. ring. }
  split.
  - exists J, (flux4 alpha beta gi v cH). destruct (flux4_props _ _ _ _ _ _ _ _ v W cH A) as (L1 & L2 & L3). set (H := flux4 alpha beta gi v cH) in *. fold u in L2.
    split; [exact L2|].
    destruct (force_vals _ _ _ _ _ _ _ _ v W rs H kJ kH JBB J A L2 ltac:(lra)) as [FE FM]. fold u in FE, FM. fold c in FM.
    assert (SH : sum3 (fun i => v i * low g H (S i)) = z) by (rewrite <- zE; unfold sum3; rewrite !L1 by lia; reflexivity).
    unfold Prim2Con. rewrite cw, cw2, p0. change (con_v c) with v. rewrite SH. cbv zeta. rewrite FE, SH.
    split; [unfold dE; field|]. split.
    + intros i Hi. transitivity (Fs i + dF i); [reflexivity|]. rewrite L1 by exact Hi. unfold cH, a. field. lra.
    + split.
      * replace (Es + dE - Es) with dE by ring. replace (dt * (alpha * (kJ * (JBB - J) * W - kH * z))) with (tJ * (JBB - J) * W - tH * z) by (unfold tJ, tH; ring).
        unfold dE. apply (Rplus_eq_reg_r (Es + W * tJ * J + tH * z)).
        transitivity (((4 * (W * W) - 1) / 3 + W * W * 0 + W * tJ) * J + (2 * W + tH) * z); [field|]. rewrite R0. ring.
      * intros i Hi. transitivity (Fs i + dF i - Fs i); [reflexivity|]. rewrite FM, L1 by exact Hi. replace (dt * (alpha * (kJ * (JBB - J) * W * cov_v c i - kH * cH i))) with (tJ * (JBB - J) * W * cov_v c i - tH * cH i) by (unfold tJ, tH; ring).
        pose proof (cHE i) as K. assert (K2 : W * cH i = Fs i + dF i - a * cov_v c i - J * cov_vTilPi c Pi i) by (unfold cH; field; lra). lra.
  - intros J' H' E F [O ST]. fold u in O.
    destruct (force_vals _ _ _ _ _ _ _ _ v W rs H' kJ kH JBB J' A O ltac:(lra)) as [FE FM]. fold u in FE, FM. fold c in FM.
    cbv zeta in ST. rewrite FE in ST.
    set (cH' := fun i => low g H' (S i)) in *. set (z' := sum3 (fun i => v i * cH' i)).
    change (sum3 (fun i => v i * low g H' (S i))) with z' in ST.
    assert (VF : sum3 (fun i => v i * snd (Prim2Con c energy_conserve J' cH' Pi) i) = ((4 * (W * W) - 4) / 3 + 0) * J' + (2 * W - 1 / W) * z').
    { rewrite <- p0. exact (vF_val _ _ _ _ _ _ _ _ A v W HW Hv rs Pi J' cH' energy_conserve). }
    unfold Prim2Con in ST, VF. cbn [snd] in VF. rewrite cw, cw2, p0 in ST. rewrite cw, cw2 in VF. change (con_v c) with v in ST, VF. fold z' in ST, VF.
    destruct ST as (S1 & S2 & S3 & S4).
    assert (S5 : forall i, (i < 3)%nat -> F i - Fs i = tJ * (JBB - J') * W * cov_v c i - tH * cH' i).
    { intros i Hi. rewrite S4, FM by exact Hi. unfold tJ, tH, cH'. ring. }
    assert (Row0 : ((4 * (W * W) - 1) / 3 + W * W * 0 + W * tJ) * J' + (2 * W + tH) * z' = Es + W * tJ * JBB).
    { assert (E - Es = tJ * (JBB - J') * W - tH * z') by (rewrite S3; unfold tJ, tH; ring). rewrite S1 in H. lra. }
    assert (Row1 : ((4 * (W * W) - 1) / 3 + W * W * 0 + W * tJ - 1 - tJ / W) * J' + (2 * W + tH - 1 / W) * z' = y + (W * W - 1) / W * tJ * JBB).
    { assert (K : sum3 (fun i => v i * F i) - y = tJ * (JBB - J') * W * (1 - 1 / (W * W)) - tH * z').
      { rewrite <- V2, <- T1. transitivity (sum3 (fun i => v i * (F i - Fs i))); [unfold y, sum3; ring|]. unfold sum3 at 1. rewrite !S5 by lia. unfold z', sum3. ring. }
      assert (K2 : sum3 (fun i => v i * F i) = ((4 * (W * W) - 4) / 3 + 0) * J' + (2 * W - 1 / W) * z').
      { rewrite <- VF. unfold sum3 at 1 2. rewrite !S2 by lia. reflexivity. }
      rewrite K2 in K.
      replace (((4 * (W * W) - 1) / 3 + W * W * 0 + W * tJ - 1 - tJ / W) * J' + (2 * W + tH - 1 / W) * z') with
        (((4 * (W * W) - 4) / 3 + 0) * J' + (2 * W - 1 / W) * z' + tJ * J' * W * (1 - 1 / (W * W)) + tH * z') by (field; lra).
      replace (y + (W * W - 1) / W * tJ * JBB) with (y + tJ * JBB * W * (1 - 1 / (W * W))) by (field; lra). lra. }
    rewrite <- p0 in Row0, Row1.
    pose proof (lin_uniq alpha gamma v W HW Hv rs Pi Es Fs JBB tJ tH J' z' ltac:(lra) Row0 Row1) as LU. fold c in LU. rewrite LS in LU. injection LU as EJ Ez.
    split.
    + rewrite S1, <- EJ, <- Ez. unfold dE. field.
    + intros i Hi. transitivity (Fs i + dF i); [|reflexivity]. apply (Rmult_eq_reg_l (W + tH)); [|lra]. rewrite Fi.
      pose proof (S5 i Hi) as K5. pose proof (S2 i Hi) as K6. rewrite <- EJ in K5. rewrite <- EJ, <- Ez in K6. unfold a.
      replace ((W + tH) * F i) with (W * F i + tH * F i) by ring.
      assert (K7 : tH * F i = tH * (4 * (W * W) / 3 * cov_v c i * J + W * cov_v c i * z + J * cov_vTilPi c Pi i) + W * (tH * cH' i)) by (rewrite K6; ring).
      rewrite K7. assert (K8 : W * (tH * cH' i) = W * (tJ * (JBB - J) * W * cov_v c i - F i + Fs i)) by (f_equal; lra).
      rewrite K8. ring.
Qed.
Print Assumptions C31_backward_euler.

(** *** positivity of the comoving energy, for every optical depth: starting moments with
    non-negative energy and flux not above it give J >= 0 (and > 0 when E > 0) *)
Lemma det_pos alpha gamma v W rs Pi tJ tH : 0 < W -> vvTilPi (mkClosure v gamma alpha rs) Pi = 0 -> 0 <= tJ -> 0 <= tH ->
  0 < step_det alpha gamma v W rs Pi tJ tH /\ tJ * (W + tH) / W <= step_det alpha gamma v W rs Pi tJ tH.
Proof.
  intros Wp p0 tJ0 tH0. unfold step_det. rewrite p0. assert (0 < (2 * (W * W) + 1) / (3 * W)) by (apply Rdiv_lt_0_compat; nra).
  assert (0 <= tH * tJ / W) by (apply Rmult_le_pos; [nra|left; apply Rinv_0_lt_compat; lra]).
  split; [lra|]. replace (tJ * (W + tH) / W) with (tJ + tH * tJ / W) by (field; lra). lra.
Qed.
Theorem C31_positive : forall alpha beta g ginv gamma gi sg sgg v W rs Pi Es Fs f JBB tJ tH,
  adm_consistent alpha beta g ginv gamma gi sg sgg -> lorentz_of gamma v W -> dot3 gamma v v <= 9999 / 10000 ->
  let c := mkClosure v gamma alpha rs in
  vvTilPi c Pi = 0 -> 0 <= tJ -> 0 <= tH -> 0 <= JBB ->
  (forall i, (i < 3)%nat -> Fs i = lower3 gamma f i) -> 0 <= Es -> dot3 gamma f f <= Es * Es ->
  let '(J, _) := LinearSolution c energy_conserve Es Fs Pi JBB tJ tH in 0 <= J /\ (0 < Es -> 0 < J).
Proof.
  intros alpha beta g ginv gamma gi sg sgg v W rs Pi Es Fs f JBB tJ tH A HW Hv c p0 tJ0 tH0 B0 HF E0 CF.
  assert (Wp : 0 < W) by (destruct HW; assumption). pose proof (W_ge1 _ _ _ _ _ _ _ _ A v W HW) as W1.
  pose proof (v2_W gamma v W HW) as V2.
  destruct (det_pos alpha gamma v W rs Pi tJ tH Wp p0 tJ0 tH0) as [dp _]. set (d := step_det alpha gamma v W rs Pi tJ tH) in *.
  pose proof (lin_sol alpha gamma v W HW Hv rs Pi Es Fs JBB tJ tH) as LS. fold c in LS. rewrite LS. fold d. try rewrite p0.
  set (y := sum3 (fun i => v i * Fs i)).
  assert (yE : y = dot3 gamma v f) by (unfold y; rewrite <- low_pair; unfold sum3; rewrite !HF by lia; reflexivity).
  pose proof (cauchy_schwarz gamma (adm_gamma_sym _ _ _ _ _ _ _ _ A) (adm_gamma_pd _ _ _ _ _ _ _ _ A) v f) as CS. rewrite <- yE in CS.
  pose proof (pd_nonneg gamma (adm_gamma_pd _ _ _ _ _ _ _ _ A) v) as Vn. set (V := dot3 gamma v v) in *.
  assert (Y2 : y * y <= V * (Es * Es)) by (apply Rle_trans with (V * dot3 gamma f f); [exact CS|apply Rmult_le_compat_l; assumption]).
  set (iw := 1 / W). assert (iw1 : 0 < iw <= 1).
  { unfold iw. split; [apply Rdiv_lt_0_compat; lra|]. apply (Rmult_le_reg_r W); [exact Wp|]. unfold Rdiv. rewrite Rmult_assoc, Rinv_l, Rmult_1_r by lra. lra. }
  assert (Wiw : W * iw = 1) by (unfold iw; field; lra).
  assert (VE : V = 1 - iw * iw) by (rewrite V2; unfold iw; field; lra).
  set (m := 2 * W + tH).
  assert (Main : m * y <= Es * (m - iw)).
  { destruct (Rle_or_lt y 0) as [N|P]; [assert (0 <= m - iw) by (unfold m; lra); assert (0 < m) by (unfold m; lra); nra|].
    assert (Q : 0 <= Es * (m - iw)) by (apply Rmult_le_pos; [exact E0|unfold m; lra]).
    apply Rsqr_incr_0_var; [|exact Q]. unfold Rsqr.
    apply Rle_trans with (m * m * (V * (Es * Es))); [replace (m * y * (m * y)) with (m * m * (y * y)) by ring; apply Rmult_le_compat_l; [nra|exact Y2]|].
    replace (Es * (m - iw) * (Es * (m - iw))) with ((m - iw) * (m - iw) * (Es * Es)) by ring. rewrite <- Rmult_assoc.
    apply Rmult_le_compat_r; [nra|]. rewrite VE.
    assert (T : 2 <= m * iw) by (unfold m; nra). nra. }
  set (N := (m - iw) * (Es + W * tJ * JBB) - m * (y + (W * W - 1) / W * tJ * JBB)).
  assert (NE : N = (Es * (m - iw) - m * y) + tJ * JBB * (1 + tH * iw)) by (unfold N, m, iw; field; lra).
  assert (TB : 0 <= tJ * JBB * (1 + tH * iw)) by (apply Rmult_le_pos; [apply Rmult_le_pos; assumption|nra]).
  split.
  - apply Rmult_le_pos; [apply Rlt_le, Rdiv_lt_0_compat; lra|]. rewrite NE. lra.
  - intros Ep. apply Rmult_lt_0_compat; [apply Rdiv_lt_0_compat; lra|]. rewrite NE.
    assert (Main2 : m * y < Es * (m - iw)); [|lra].
    destruct (Rle_or_lt y 0) as [Nn|P]; [assert (0 < m - iw) by (unfold m; lra); assert (0 < m) by (unfold m; lra); nra|].
    assert (Q : 0 <= Es * (m - iw)) by (apply Rmult_le_pos; [exact E0|unfold m; lra]).
    apply Rsqr_incrst_0; [|apply Rmult_le_pos; unfold m; lra|exact Q]. unfold Rsqr.
    apply Rle_lt_trans with (m * m * (V * (Es * Es))); [replace (m * y * (m * y)) with (m * m * (y * y)) by ring; apply Rmult_le_compat_l; [nra|exact Y2]|].
    replace (Es * (m - iw) * (Es * (m - iw))) with ((m - iw) * (m - iw) * (Es * Es)) by ring. rewrite <- Rmult_assoc.
    apply Rmult_lt_compat_r; [nra|]. rewrite VE. assert (T : 2 <= m * iw) by (unfold m; nra). assert (0 < iw * iw) by nra. nra.
Qed.
Print Assumptions C31_positive.

(** *** but the updated conserved energy can be negative: flat space, v = 4/5, Eddington
    closure, E = 1, F = 0, cold absorbing matter of optical depth 10 *)
Definition v45x : vec := v3 (4 / 5) 0 0.
Lemma v45x_lorentz : lorentz_of delta v45x (5 / 3).
Proof. split; [lra|]. unfold dot3, sum3, v45x, v3, delta. cbn. field. Qed.
Lemma v45x_cap : dot3 delta v45x v45x <= 9999 / 10000.
Proof. unfold dot3, sum3, v45x, v3, delta; cbn; lra. Qed.
Theorem C31_energy_positive_refuted : forall rs, let c := mkClosure v45x delta 1 rs in
  let '(dE, _) := LinearSourceUpdate c energy_conserve 1 (fun _ => 0) (fun _ _ => 0) 0 10 10 in 1 + dE < 0.
Proof.
  intros rs c. pose proof (lin_sol 1 delta v45x (5/3) v45x_lorentz v45x_cap rs (fun _ _ => 0) 1 (fun _ => 0) 0 10 10) as LS. fold c in LS.
  unfold LinearSourceUpdate. rewrite LS. unfold step_det. fold c.
  assert (cw : cW c = 5 / 3) by exact (W_val 1 delta v45x (5/3) v45x_lorentz v45x_cap rs). assert (cw2 : cW2 c = 5 / 3 * (5 / 3)) by exact (W2_val 1 delta v45x (5/3) v45x_lorentz v45x_cap rs).
  assert (p0 : vvTilPi c (fun _ _ => 0) = 0) by (unfold vvTilPi, con_vTilPi, sum3; ring). rewrite cw, cw2, p0. unfold sum3. lra.
Qed.
Print Assumptions C31_energy_positive_refuted.

(** *** local equilibrium: J tends to the blackbody value as the absorption depth grows,
    with a rate uniform in the flux opacity; the flux along the motion tends to zero *)
Lemma Rabs_sub3 a b c : Rabs (a - b - c) <= Rabs a + Rabs b + Rabs c.
Proof. unfold Rabs. repeat destruct Rcase_abs; lra. Qed.
Theorem C31_equilibrium : forall alpha beta g ginv gamma gi sg sgg v W rs Pi Es Fs JBB tJ tH,
  adm_consistent alpha beta g ginv gamma gi sg sgg -> lorentz_of gamma v W -> dot3 gamma v v <= 9999 / 10000 ->
  let c := mkClosure v gamma alpha rs in
  vvTilPi c Pi = 0 -> 0 < tJ -> 0 <= tH ->
  let '(J, z) := LinearSolution c energy_conserve Es Fs Pi JBB tJ tH in
  let size := Rabs Es + Rabs (sum3 (fun i => v i * Fs i)) + Rabs JBB in
  Rabs (J - JBB) <= 2 * W * size / tJ /\ (2 * W + tH) * Rabs z <= Rabs Es + (4 * (W * W) - 1) / 3 * Rabs J + 2 * (W * W) * size.
Proof.
  intros alpha beta g ginv gamma gi sg sgg v W rs Pi Es Fs JBB tJ tH A HW Hv c p0 tJ0 tH0.
  assert (Wp : 0 < W) by (destruct HW; assumption). pose proof (W_ge1 _ _ _ _ _ _ _ _ A v W HW) as W1.
  destruct (det_pos alpha gamma v W rs Pi tJ tH Wp p0 ltac:(lra) tH0) as [dp dl].
  destruct (LinearSolution c energy_conserve Es Fs Pi JBB tJ tH) as [J z] eqn:E.
  pose proof (lin_eqs alpha gamma v W HW Hv rs Pi Es Fs JBB tJ tH J z ltac:(lra) E) as [R0 R1]. fold c in R0, R1. rewrite p0 in R0, R1.
  pose proof (lin_sol alpha gamma v W HW Hv rs Pi Es Fs JBB tJ tH) as LS. fold c in LS. rewrite E, p0 in LS. injection LS as LJ _.
  set (y := sum3 (fun i => v i * Fs i)) in *. set (size := Rabs Es + Rabs y + Rabs JBB).
  assert (dE : step_det alpha gamma v W rs Pi tJ tH = (2 * (W * W) + 1) / (3 * W) + tJ + tH + tH * tJ / W) by (unfold step_det; fold c; rewrite p0; ring).
  set (d := step_det alpha gamma v W rs Pi tJ tH) in *.
  set (k := (2 * (W * W) + 1) / (3 * W)) in *.
  assert (kb : 0 < k <= 2 * W).
  { unfold k. split; [apply Rdiv_lt_0_compat; nra|]. apply (Rmult_le_reg_r (3 * W)); [lra|]. unfold Rdiv. rewrite Rmult_assoc, Rinv_l by lra. nra. }
  assert (DJ : J - JBB = (Es * (2 * W + tH - 1 / W) - (2 * W + tH) * y - JBB * (tH + k)) / d).
  { rewrite LJ. apply (Rmult_eq_reg_r d); [|lra].
    replace ((1 / d * ((2 * W + tH - 1 / W) * (Es + W * tJ * JBB) - (2 * W + tH) * (y + (W * W - 1) / W * tJ * JBB)) - JBB) * d)
      with ((2 * W + tH - 1 / W) * (Es + W * tJ * JBB) - (2 * W + tH) * (y + (W * W - 1) / W * tJ * JBB) - JBB * d) by (field; lra).
    replace ((Es * (2 * W + tH - 1 / W) - (2 * W + tH) * y - JBB * (tH + k)) / d * d) with (Es * (2 * W + tH - 1 / W) - (2 * W + tH) * y - JBB * (tH + k)) by (field; lra).
    rewrite dE. unfold k. field. lra. }
  assert (iw : 0 < 1 / W <= 1).
  { split; [apply Rdiv_lt_0_compat; lra|]. apply (Rmult_le_reg_r W); [exact Wp|]. unfold Rdiv. rewrite Rmult_assoc, Rinv_l, Rmult_1_r by lra. lra. }
  pose proof (Rabs_pos Es). pose proof (Rabs_pos y). pose proof (Rabs_pos JBB).
  assert (NB : Rabs (Es * (2 * W + tH - 1 / W) - (2 * W + tH) * y - JBB * (tH + k)) <= (2 * W + tH) * size).
  { apply Rle_trans with (Rabs Es * (2 * W + tH - 1 / W) + (2 * W + tH) * Rabs y + Rabs JBB * (tH + k)).
    - apply Rle_trans with (Rabs (Es * (2 * W + tH - 1 / W)) + Rabs ((2 * W + tH) * y) + Rabs (JBB * (tH + k))); [apply Rabs_sub3|].
      rewrite !Rabs_mult, (Rabs_pos_eq (2 * W + tH - 1 / W)), (Rabs_pos_eq (2 * W + tH)), (Rabs_pos_eq (tH + k)) by lra. apply Rle_refl.
    - unfold size. nra. }
  assert (SZ : 0 <= size) by (unfold size; lra).
  assert (B1 : Rabs (J - JBB) <= 2 * W * size / tJ).
  { rewrite DJ. unfold Rdiv at 1. rewrite Rabs_mult, (Rabs_pos_eq (/ d)) by (left; apply Rinv_0_lt_compat; lra).
    apply (Rmult_le_reg_r d); [exact dp|]. rewrite Rmult_assoc, Rinv_l, Rmult_1_r by lra.
    apply Rle_trans with (1 := NB).
    apply Rle_trans with (2 * W * size / tJ * (tJ * (W + tH) / W)).
    - replace (2 * W * size / tJ * (tJ * (W + tH) / W)) with (2 * (W + tH) * size) by (field; lra). nra.
    - apply Rmult_le_compat_l; [|exact dl]. apply Rmult_le_pos; [nra|left; apply Rinv_0_lt_compat; lra]. }
  split; [exact B1|].
  assert (ZE : (2 * W + tH) * z = Es - (4 * (W * W) - 1) / 3 * J - W * tJ * (J - JBB)) by lra.
  rewrite <- (Rabs_pos_eq (2 * W + tH)) by lra. rewrite <- Rabs_mult, ZE.
  assert (B2 : Rabs (W * tJ * (J - JBB)) <= 2 * (W * W) * size).
  { rewrite Rabs_mult, (Rabs_pos_eq (W * tJ)) by nra. apply Rle_trans with (W * tJ * (2 * W * size / tJ)); [apply Rmult_le_compat_l; [nra|exact B1]|].
    apply Req_le. field. lra. }
  assert (B3 : Rabs ((4 * (W * W) - 1) / 3 * J) = (4 * (W * W) - 1) / 3 * Rabs J) by (rewrite Rabs_mult, (Rabs_pos_eq ((4 * (W * W) - 1) / 3)) by nra; reflexivity).
  eapply Rle_trans; [apply Rabs_sub3|]. rewrite B3. lra.
Qed.
Print Assumptions C31_equilibrium.

(** no interaction, no change: every tensor for which the system is regular *)
Theorem C31_transparent : forall alpha gamma v W rs Pi Es Fs JBB,
  lorentz_of gamma v W -> dot3 gamma v v <= 9999 / 10000 -> (2 * (W * W) + 1) / (3 * W) <> W * vvTilPi (mkClosure v gamma alpha rs) Pi ->
  let '(dE, dF) := LinearSourceUpdate (mkClosure v gamma alpha rs) energy_conserve Es Fs Pi JBB 0 0 in
  dE = 0 /\ forall i, dF i = 0.
Proof.
  intros alpha gamma v W rs Pi Es Fs JBB HW Hv N. set (c := mkClosure v gamma alpha rs) in *. assert (Wp : 0 < W) by (destruct HW; assumption).
  assert (dn : step_det alpha gamma v W rs Pi 0 0 <> 0).
  { unfold step_det. fold c. intro K. apply N. replace (0 * 0 / W) with 0 in K by (field; lra). lra. }
  unfold LinearSourceUpdate. destruct (LinearSolution c energy_conserve Es Fs Pi JBB 0 0) as [J z] eqn:E.
  pose proof (lin_eqs alpha gamma v W HW Hv rs Pi Es Fs JBB 0 0 J z dn E) as [R0 _]. fold c in R0.
  assert (cw : cW c = W) by exact (W_val alpha gamma v W HW Hv rs). assert (cw2 : cW2 c = W * W) by exact (W2_val alpha gamma v W HW Hv rs).
  rewrite cw, cw2. split; [|intros i; field; lra]. apply Rminus_diag_eq. rewrite <- (Rplus_0_r Es). replace (Es + 0) with (Es + W * 0 * JBB) by ring. rewrite <- R0. field.
Qed.
Print Assumptions C31_transparent.

(** *** with the M1 tensor of a beam along the motion (flux factor one, v = 4/5, comoving
    energy 1, flat space) the update is not a stable implicit step: cold matter of depth 1/10
    yields a negative comoving energy, and absorbing the beam increases its momentum. *)
Definition Hbeam : vec := v3 (5 / 3) 0 0.
Theorem C31_m1_refuted : forall rs, let c := mkClosure v45x delta 1 rs in
  let Pi := GetConTilPiFromPrim c 1 Hbeam in
  let '(E, F) := Prim2Con c energy_conserve 1 Hbeam Pi in
  m1_xi c 1 Hbeam = 1 /\ 0 < E /\ 0 < F 0%nat /\
  fst (LinearSolution c energy_conserve E F Pi 0 (1 / 10) (1 / 10)) < 0 /\
  0 < snd (LinearSourceUpdate c energy_conserve E F Pi 0 (1 / 10) (1 / 10)) 0%nat.
Proof.
  intros rs c Pi. pose proof eta4_consistent as A.
  assert (cw : cW c = 5 / 3) by exact (W_val 1 delta v45x (5/3) v45x_lorentz v45x_cap rs). assert (cw2 : cW2 c = 5 / 3 * (5 / 3)) by exact (W2_val 1 delta v45x (5/3) v45x_lorentz v45x_cap rs).
  assert (HH : forall i, (i < 3)%nat -> Hbeam i = lower3 delta Hbeam i).
  { intros i Hi. unfold lower3, sum3, delta. idx; cbn; ring. }
  destruct (m1_vv _ _ _ _ _ _ _ _ v45x (5/3) rs 1 Hbeam Hbeam A v45x_lorentz v45x_cap HH) as (s & _ & P & FE & S). fold c in P, FE, S. fold Pi in P.
  assert (hv : dot3 delta v45x Hbeam = 4 / 3) by (unfold Hbeam, dot3, sum3, v45x, v3, delta; cbn; field).
  assert (hh : dot3 delta Hbeam Hbeam = 25 / 9) by (unfold Hbeam, dot3, sum3, v3, delta; cbn; field).
  assert (F1 : m1_flux c Hbeam = 1).
  { rewrite FE, hv, hh. replace (_ - _) with 1 by field. apply sqrt_1. }
  assert (X : m1_xi c 1 Hbeam = 1).
  { unfold m1_xi. rewrite F1. unfold gratio. rewrite Req_bool_false by lra. rewrite Rmin_left by lra. apply Rmax_left. lra. }
  rewrite S in P by (rewrite F1; lra). rewrite F1, hv, X in P.
  assert (pE : vvTilPi c Pi = 32 / 27) by (rewrite P; unfold athin_of, closure; field). clear P S s.
  assert (cv : forall i, cov_v c i = lower3 delta v45x i) by (intros i; exact (cov_v_low _ delta v45x rs i)).
  assert (Cg : forall i j, (i < 3)%nat -> (j < 3)%nat -> con_gamma c i j = delta i j) by (intros i j Hi Hj; exact (con_gamma_c _ _ _ _ _ _ _ _ A v45x rs i j Hi Hj)).
  assert (rc : forall (X : vec) i, (i < 3)%nat -> raise3Vector (con_gamma c) X i = X i).
  { intros Y i Hi. unfold raise3Vector, sum3. rewrite !Cg by lia. unfold delta. idx; cbn; ring. }
  assert (PiE : forall i j, (i < 3)%nat -> (j < 3)%nat -> Pi i j = Hbeam i * Hbeam j - (25 / 9 * v45x i * v45x j + delta i j) / 3).
  { intros i j Hi Hj. unfold Pi, GetConTilPiFromPrim, M1Pi. rewrite X, cw2, Cg by assumption. unfold m1_dir. rewrite !rc, F1 by assumption.
    change (con_v c) with v45x. unfold gratio. rewrite Req_bool_false by lra. unfold athin_of, closure. field. }
  assert (vP : cov_vTilPi c Pi 0%nat = 40 / 27).
  { unfold cov_vTilPi. rewrite low3_lower. change (cov_gamma c) with delta. unfold lower3, con_vTilPi, sum3. rewrite !cv. rewrite !PiE by lia.
    unfold lower3, sum3, delta, v45x, v3, Hbeam. cbn. field. }
  destruct (Prim2Con c energy_conserve 1 Hbeam Pi) as [E F] eqn:PC.
  assert (vH : sum3 (fun i => v45x i * Hbeam i) = 4 / 3) by (unfold sum3, v45x, Hbeam, v3; field).
  assert (EE : E = 2699 / 243).
  { transitivity (fst (Prim2Con c energy_conserve 1 Hbeam Pi)); [rewrite PC; reflexivity|]. unfold Prim2Con. cbn [fst]. change (con_v c) with v45x. rewrite vH, cw, cw2, pE. field. }
  assert (FF : F 0%nat = 9).
  { transitivity (snd (Prim2Con c energy_conserve 1 Hbeam Pi) 0%nat); [rewrite PC; reflexivity|]. unfold Prim2Con. cbn [snd]. change (con_v c) with v45x. rewrite vH, cw, cw2, vP, cv.
    unfold lower3, sum3, delta, v45x, v3, Hbeam. cbn. field. }
  assert (y : sum3 (fun i => v45x i * F i) = 36 / 5).
  { unfold sum3. rewrite FF. unfold v45x, v3. field. }
  pose proof (lin_sol 1 delta v45x (5/3) v45x_lorentz v45x_cap rs Pi E F 0 (1/10) (1/10)) as LS. fold c in LS. rewrite y, EE in LS. unfold step_det in LS. fold c in LS. rewrite pE in LS.
  split; [exact X|]. split; [lra|]. split; [lra|].
  rewrite EE. unfold LinearSourceUpdate. rewrite LS. cbn [fst snd]. split; [lra|].
  rewrite cw, cw2, vP, FF, cv. unfold lower3, sum3, delta, v45x, v3. cbn. lra.
Qed.
Print Assumptions C31_m1_refuted.

(** *** the hypotheses are met: Eddington closure, moving fluid in flat space, a flux along y *)
Example C31_nonvacuous : forall rs, let c := mkClosure v45x delta 1 rs in
  adm_consistent 1 zero3 eta4 eta4 delta delta 1 1 /\ lorentz_of delta v45x (5 / 3) /\ dot3 delta v45x v45x <= 9999 / 10000 /\
  vvTilPi c (fun _ _ => 0) = 0 /\ (forall i, (i < 3)%nat -> v3 0 (1 / 2) 0 i = lower3 delta (v3 0 (1 / 2) 0) i) /\ dot3 delta (v3 0 (1 / 2) 0) (v3 0 (1 / 2) 0) <= 1 * 1.
Proof.
  intros rs c. split; [apply eta4_consistent|]. split; [apply v45x_lorentz|]. split; [apply v45x_cap|].
  split; [unfold vvTilPi, con_vTilPi, sum3; ring|]. split; [intros i Hi; unfold lower3, sum3, delta; idx; cbn; ring|unfold dot3, sum3, v3, delta; cbn; lra].
Qed.
