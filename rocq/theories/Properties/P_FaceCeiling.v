(** C17: a reconstructed face state whose Lorentz factor exceeds the ceiling. *)
From Coq Require Import Reals Arith Lia Lra Psatz.
From Flocq Require Import Core.
From Verif.Spec Require Import Tensor GeomSpec Relativity GRMHD.
From Verif.Model Require Import Num Robust Geometry Relativity Prim2Con Riemann.
From Verif.Proofs Require Import NumR RobustProofs TensorTac LinearAlgebraProofs GeomBase AdmProofs RelProofs
  RelativityProofs Prim2ConProofs RiemannProofs.
From Verif.Properties Require Import P_GRMHD.
Local Open Scope R_scope.

Section Above.
Variables (alpha : R) (beta : vec) (g ginv gamma gi : mat) (sg sgg gdd : R).
Hypothesis H : adm_consistent alpha beta g ginv gamma gi sg sgg.
Let T := adm_tpo _ _ _ _ _ _ _ _ H.
Variable q : FaceState.
Variable gm : R.
Let fg := mkFace alpha sgg sg g beta gdd.
Let vp := q_vp q.
Let W := GetLorentzFactor vp gamma.
Let W2 : W * W = 1 + dot3 gamma vp vp := lorentz_sq _ _ _ _ vp T.
Let WE : GetLorentzFactor4 vp g = W := W_eq _ _ _ _ _ _ _ _ H vp.
Hypothesis Hg : 1 <= gm.
Hypothesis HW : gm < W.
Let k := sqrt ((gm * gm - 1) / (W * W - 1)).

Lemma k_sq : k * k = (gm * gm - 1) / (W * W - 1).
Proof.
  unfold k. apply sqrt_sqrt. apply Rmult_le_pos; [nra|]. left. apply Rinv_0_lt_compat. nra.
Qed.
Lemma a_vcon0 m : face_vcon0 q fg gm m = vp m * (k / W).
Proof.
  unfold face_vcon0, lim_vpcon, fg; cbn [fg_gcov]. fold vp. rewrite WE. rewrite Rlt_bool_true by exact HW. fold k. field. lra.
Qed.
Lemma a_vsq0 : face_vsq0 q fg gm = (gm * gm - 1) / (W * W).
Proof.
  unfold face_vsq0, fg; cbn [fg_gcov]. fold fg. rewrite (dot_block _ _ _ _ _ _ _ _ H).
  transitivity (dot3 gamma (fun m => vp m * (k / W)) (fun m => vp m * (k / W))).
  - apply dot3_ext; intros i Hi; apply a_vcon0.
  - assert (E : dot3 gamma (fun m => vp m * (k / W)) (fun m => vp m * (k / W)) = dot3 gamma vp vp * (k * k) / (W * W)).
    { unfold dot3, sum3. field. lra. }
    rewrite E, k_sq. replace (dot3 gamma vp vp) with (W * W - 1) by lra. assert (W * W - 1 <> 0) by nra. field. split; [lra|assumption].
Qed.
Lemma a_scale : face_scale q fg gm = 1.
Proof.
  unfold face_scale. rewrite a_vsq0. rewrite Rlt_bool_false; [reflexivity|].
  replace (1 - 1 / (gm * gm)) with ((gm * gm - 1) * / (gm * gm)) by (field; lra).
  unfold Rdiv. apply Rmult_le_compat_l; [nra|]. apply Rinv_le_contravar; nra.
Qed.
Lemma a_vcon m : face_vcon q fg gm m = vp m * (k / W).
Proof. unfold face_vcon. rewrite a_scale, a_vcon0, sqrt_1. ring. Qed.
Lemma a_W : face_W q fg gm = W / sqrt (W * W - gm * gm + 1).
Proof.
  unfold face_W, face_vsq. rewrite a_scale, a_vsq0.
  assert (P : 0 < W * W - gm * gm + 1) by nra.
  replace (1 - (gm * gm - 1) / (W * W) * 1) with ((W * W - gm * gm + 1) / (W * W)) by (field; lra).
  rewrite sqrt_div by nra. rewrite sqrt_square by lra. pose proof (sqrt_lt_R0 _ P). field. split; lra.
Qed.
End Above.

(** VIOLATION: the face velocity is divided by the Lorentz factor W of the state before the
    ceiling gm is applied, so the state used is not the one at the ceiling.  Its density is
    that of a Lorentz factor W / sqrt (W^2 - gm^2 + 1) and its mass flux that of the velocity
    v_gm / W: always slower than the ceiling, and once W is sqrt 2 times the ceiling the
    Lorentz factor is below 3/2, however high the ceiling is. *)
Theorem C17_face_ceiling_refuted : forall alpha beta g ginv gamma gi sg sgg gdd,
  adm_consistent alpha beta g ginv gamma gi sg sgg ->
  forall (q : FaceState) rf sf sm gm dir valencia, 0 < rf -> 1 < gm ->
  let W := GetLorentzFactor (q_vp q) gamma in
  gm < W ->
  let rho := Rmax (q_rho q) rf in
  let out := prim_to_flux valencia dir (mkFace alpha sgg sg g beta gdd) q rf sf sm gm in
  (* the ceiling's state: direction of q, Lorentz factor gm *)
  let vgm : vec := fun i => q_vp q i * sqrt ((gm * gm - 1) / (W * W - 1)) in
  GetLorentzFactor vgm gamma = gm /\
  fo_U out vRho = rho * (W / sqrt (W * W - gm * gm + 1)) /\
  fo_F out vRho = fo_U out vRho * (vgm dir / W - beta dir / alpha) /\
  fo_U out vRho < rho * gm /\
  (2 * (gm * gm) <= W * W -> fo_U out vRho < rho * (3 / 2)).
Proof.
  intros alpha beta g ginv gamma gi sg sgg gdd H q rf sf sm gm dir val r0 g1 W HW rho out vgm.
  assert (W2 : W * W = 1 + dot3 gamma (q_vp q) (q_vp q)) by exact (lorentz_sq _ _ _ _ (q_vp q) (adm_tpo _ _ _ _ _ _ _ _ H)).
  assert (R0 : 0 < rho) by (unfold rho; pose proof (Rmax_r (q_rho q) rf); lra).
  assert (P : 0 < W * W - gm * gm + 1) by nra. pose proof (sqrt_lt_R0 _ P) as SP. pose proof (sqrt_sqrt _ (Rlt_le _ _ P)) as SS.
  assert (U : fo_U out vRho = rho * (W / sqrt (W * W - gm * gm + 1))).
  { unfold out, prim_to_flux; cbn [fo_U]. rewrite (a_W alpha beta g ginv gamma gi sg sgg gdd H q gm (Rlt_le _ _ g1) HW).
    unfold lim_rho. rewrite std_max_R. reflexivity. }
  split; [|split; [exact U|split; [|split]]].
  - assert (E : GetLorentzFactor vgm gamma * GetLorentzFactor vgm gamma = gm * gm).
    { rewrite (lorentz_sq _ _ _ _ vgm (adm_tpo _ _ _ _ _ _ _ _ H)).
      assert (K : dot3 gamma vgm vgm = dot3 gamma (q_vp q) (q_vp q) * (sqrt ((gm * gm - 1) / (W * W - 1)) * sqrt ((gm * gm - 1) / (W * W - 1)))).
      { unfold vgm, dot3, sum3. ring. }
      rewrite K. rewrite sqrt_sqrt.
      - replace (dot3 gamma (q_vp q) (q_vp q)) with (W * W - 1) by lra. assert (W * W - 1 <> 0) by nra. field. assumption.
      - apply Rmult_le_pos; [nra|]. left. apply Rinv_0_lt_compat. nra. }
    pose proof (lorentz_ge1 _ _ _ _ vgm (adm_tpo _ _ _ _ _ _ _ _ H)). nra.
  - rewrite U. unfold out, prim_to_flux; cbn [fo_F]. rewrite (a_W alpha beta g ginv gamma gi sg sgg gdd H q gm (Rlt_le _ _ g1) HW).
    rewrite (a_vcon alpha beta g ginv gamma gi sg sgg gdd H q gm (Rlt_le _ _ g1) HW). cbn [fg_alpha fg_beta].
    unfold lim_rho. rewrite std_max_R. fold rho. fold W. unfold vgm.
    assert (a0 : alpha <> 0) by (pose proof (adm_lapse_pos _ _ _ _ _ _ _ _ H); lra). field. repeat split; lra.
  - rewrite U. apply Rmult_lt_compat_l; [exact R0|]. apply (Rmult_lt_reg_r (sqrt (W * W - gm * gm + 1))); [exact SP|].
    replace (W / sqrt (W * W - gm * gm + 1) * sqrt (W * W - gm * gm + 1)) with W by (field; lra).
    apply Rsqr_incrst_0; [|lra|nra]. unfold Rsqr.
    replace (gm * sqrt (W * W - gm * gm + 1) * (gm * sqrt (W * W - gm * gm + 1))) with (gm * gm * (W * W - gm * gm + 1)) by (rewrite <- SS at 1; ring).
    assert (0 < (gm * gm - 1) * (W * W - gm * gm)) by (apply Rmult_lt_0_compat; nra). lra.
  - intros B. rewrite U. apply Rmult_lt_compat_l; [exact R0|]. apply (Rmult_lt_reg_r (sqrt (W * W - gm * gm + 1))); [exact SP|].
    replace (W / sqrt (W * W - gm * gm + 1) * sqrt (W * W - gm * gm + 1)) with W by (field; lra).
    apply Rsqr_incrst_0; [|lra|lra]. unfold Rsqr.
    replace (3 / 2 * sqrt (W * W - gm * gm + 1) * (3 / 2 * sqrt (W * W - gm * gm + 1))) with (9 / 4 * (W * W - gm * gm + 1)) by (rewrite <- SS at 1; field).
    lra.
Qed.
Print Assumptions C17_face_ceiling_refuted.

(** the state of C17_nonvacuous, W = 5/4, with the ceiling 11/10 *)
Example C17_face_ceiling_nonvacuous :
  adm_consistent 2 (fun _ => 0) gw gwi delta delta 1 2 /\ 1 < 11 / 10 /\ 11 / 10 < GetLorentzFactor (q_vp qw) delta.
Proof. split; [exact gw_consistent|]. rewrite qw_W. lra. Qed.
