(** Velocity limiter and signal speeds of prim_to_flux for arbitrary face states. *)
From Coq Require Import Reals Arith Lia Lra Psatz.
From Flocq Require Import Core.
From Verif.Spec Require Import Tensor GeomSpec Relativity GRMHD.
From Verif.Model Require Import Num Robust Geometry Relativity Prim2Con Riemann.
From Verif.Proofs Require Import NumR RobustProofs TensorTac LinearAlgebraProofs GeomBase AdmProofs RelProofs RelativityProofs Prim2ConProofs RiemannProofs SignalProofs.
Local Open Scope R_scope.

Lemma scale_dot3 gamma (k : R) (v : vec) : dot3 gamma (fun i => v i * k) (fun i => v i * k) = dot3 gamma v v * (k * k).
Proof. unfold dot3, sum3. ring. Qed.
Lemma ratio_lt1 a b : 0 <= a -> a < b -> 0 <= a / b < 1.
Proof.
  intros Ha Hb. assert (P : 0 < / b) by (apply Rinv_0_lt_compat; lra). split; [apply Rmult_le_pos; lra|].
  apply Rmult_lt_reg_r with b; [lra|]. unfold Rdiv. rewrite Rmult_assoc, Rinv_l by lra. lra.
Qed.
Lemma bounded01 x : EPS <= make_bounded x 0 1 <= 1 - EPS.
Proof.
  rewrite make_bounded_R. pose proof EPS_pos. split.
  - apply Rmin_glb; [|lra]. eapply Rle_trans; [|apply Rmax_r]. lra.
  - eapply Rle_trans; [apply Rmin_r|]. lra.
Qed.

Section F.
Variables (alpha : R) (beta : vec) (g ginv gamma gi : mat) (sg sgg gdd : R).
Hypothesis H : adm_consistent alpha beta g ginv gamma gi sg sgg.
Let T := adm_tpo _ _ _ _ _ _ _ _ H.
Let ap := tpo_lapse _ _ _ _ T.
Let Pd := tpo_gpd _ _ _ _ T.
Variable q : FaceState.
Variables (rho_floor sie_floor sie_max gam_max : R).
Hypothesis Hg : 1 <= gam_max.
Let fg := mkFace alpha sgg sg g beta gdd.
Let vp := q_vp q.
Let W0 := GetLorentzFactor vp gamma.
Let W1 : 1 <= W0 := lorentz_ge1 _ _ _ _ vp T.
Let W2 : W0 * W0 = 1 + dot3 gamma vp vp := lorentz_sq _ _ _ _ vp T.
Let WE : GetLorentzFactor4 vp g = W0 := W_eq _ _ _ _ _ _ _ _ H vp.

Lemma vpn : 0 <= dot3 gamma vp vp. Proof. apply pd_nonneg, Pd. Qed.
(** |lim_vpcon|^2 *)
Lemma lim_norm : dot3 gamma (lim_vpcon q fg gam_max) (lim_vpcon q fg gam_max) =
  if Rlt_bool gam_max W0 then gam_max * gam_max - 1 else W0 * W0 - 1.
Proof.
  unfold lim_vpcon, fg; cbn [fg_gcov]. fold vp. rewrite WE. destruct (Rlt_bool_spec gam_max W0) as [K|K]; [|lra].
  rewrite scale_dot3, sqrt_sqrt.
  - replace (dot3 gamma vp vp) with (W0 * W0 - 1) by lra. field. nra.
  - apply Rmult_le_pos; [nra|]. left; apply Rinv_0_lt_compat; nra.
Qed.
Lemma vsq0_val : face_vsq0 q fg gam_max = dot3 gamma (face_vcon0 q fg gam_max) (face_vcon0 q fg gam_max).
Proof. unfold face_vsq0, fg; cbn [fg_gcov]. fold fg. apply (dot_block _ _ _ _ _ _ _ _ H). Qed.
Lemma vsq0_lim : face_vsq0 q fg gam_max = (if Rlt_bool gam_max W0 then gam_max * gam_max - 1 else W0 * W0 - 1) / (W0 * W0).
Proof.
  rewrite vsq0_val, <- lim_norm. unfold face_vcon0, fg; cbn [fg_gcov]. fold fg vp. rewrite WE.
  unfold dot3, sum3. field. lra.
Qed.
Lemma vsq0_range : 0 <= face_vsq0 q fg gam_max < 1.
Proof.
  rewrite vsq0_lim. apply ratio_lt1; destruct (Rlt_bool_spec gam_max W0); nra.
Qed.
(** the first limiter leaves at most the velocity of gam_max, so the second never acts *)
Lemma vsq0_max : face_vsq0 q fg gam_max <= 1 - 1 / (gam_max * gam_max).
Proof.
  rewrite vsq0_lim. assert (gg : 0 < gam_max * gam_max) by nra. assert (ww : 0 < W0 * W0) by nra.
  assert (E : 1 - 1 / (gam_max * gam_max) = (gam_max * gam_max - 1) / (gam_max * gam_max)) by (field; nra). rewrite E.
  destruct (Rlt_bool_spec gam_max W0) as [K|K].
  - unfold Rdiv. apply Rmult_le_compat_l; [nra|]. apply Rinv_le_contravar; nra.
  - assert (E2 : (W0 * W0 - 1) / (W0 * W0) = 1 - / (W0 * W0)) by (field; lra).
    assert (E3 : (gam_max * gam_max - 1) / (gam_max * gam_max) = 1 - / (gam_max * gam_max)) by (field; lra).
    rewrite E2, E3. assert (/ (gam_max * gam_max) <= / (W0 * W0)) by (apply Rinv_le_contravar; nra). lra.
Qed.
Lemma scale_1 : face_scale q fg gam_max = 1.
Proof. unfold face_scale. rewrite Rlt_bool_false by apply vsq0_max. reflexivity. Qed.
Lemma vcon_val m : face_vcon q fg gam_max m = lim_vpcon q fg gam_max m / W0.
Proof.
  unfold face_vcon. rewrite scale_1, sqrt_1. unfold face_vcon0. unfold fg; cbn [fg_gcov]. fold vp. rewrite WE. ring.
Qed.
Lemma vsq_val : face_vsq q fg gam_max = face_vsq0 q fg gam_max.
Proof. unfold face_vsq. rewrite scale_1. ring. Qed.
Lemma vsq_dot : face_vsq q fg gam_max = dot3 gamma (face_vcon q fg gam_max) (face_vcon q fg gam_max).
Proof.
  rewrite vsq_val, vsq0_val. apply dot3_ext; intros i Hi; unfold face_vcon; rewrite scale_1, sqrt_1; ring.
Qed.
Lemma vsq_range : 0 <= face_vsq q fg gam_max < 1.
Proof. rewrite vsq_val. apply vsq0_range. Qed.
(** Lorentz factor used for the conserved state and the fluxes *)
Lemma face_W_sq : face_W q fg gam_max * face_W q fg gam_max = / (1 - face_vsq q fg gam_max).
Proof.
  pose proof vsq_range as R. unfold face_W.
  pose proof (sqrt_sqrt (1 - face_vsq q fg gam_max) ltac:(lra)) as S.
  assert (Sp : 0 < sqrt (1 - face_vsq q fg gam_max)) by (apply sqrt_lt_R0; lra).
  rewrite <- S at 3. field. lra.
Qed.
Lemma face_W_ge1 : 1 <= face_W q fg gam_max.
Proof.
  pose proof vsq_range as R. unfold face_W.
  assert (Sp : 0 < sqrt (1 - face_vsq q fg gam_max)) by (apply sqrt_lt_R0; lra).
  assert (sqrt (1 - face_vsq q fg gam_max) <= 1) by (rewrite <- sqrt_1 at 2; apply sqrt_le_1_alt; lra).
  apply Rmult_le_reg_r with (sqrt (1 - face_vsq q fg gam_max)); [exact Sp|]. unfold Rdiv. rewrite Rmult_assoc, Rinv_l by lra. lra.
Qed.

Variables (valencia : bool) (dir : nat).
Hypothesis Hd : (dir < 3)%nat.
Hypothesis Hdd : gdd = gi dir dir.
Let out := prim_to_flux valencia dir fg q rho_floor sie_floor sie_max gam_max.
Let vel := face_vcon q fg gam_max dir.
Let vsq := face_vsq q fg gam_max.

Lemma mass_speed : fo_F out vRho * sgg = (alpha * vel - beta dir) * (fo_U out vRho * sg) /\
  fo_F out vYe * sgg = (alpha * vel - beta dir) * (fo_U out vYe * sg).
Proof.
  unfold out, prim_to_flux; cbn [fo_F fo_U fg_alpha fg_beta fg fg_gcov fg_gdd]. fold fg. fold vel.
  rewrite (adm_dets _ _ _ _ _ _ _ _ H). split; field; lra.
Qed.
Lemma cs_face : vel * vel <= gdd * vsq.
Proof. unfold vel, vsq. rewrite vsq_dot, Hdd. apply (comp_bound _ _ _ _ _ _ _ _ H). exact Hd. Qed.
Lemma gdd_pos : 0 < gdd. Proof. rewrite Hdd. apply (gidd_pos _ _ _ _ _ _ _ _ H _ Hd). Qed.

(** the shape of the two speeds *)
Lemma speeds : exists c s, EPS <= c <= 1 - EPS /\ 0 < s /\ s * s = Rmax (sp_disc vel vsq c gdd) EPS /\
  fo_vp out = alpha * (1 / sp_A vsq c * (vel * (1 - c) + s)) - beta dir /\
  fo_vm out = alpha * (1 / sp_A vsq c * (vel * (1 - c) - s)) - beta dir.
Proof.
  pose proof EPS_pos as Ep.
  unfold out, prim_to_flux; cbn [fo_vp fo_vm fg_alpha fg_beta fg fg_gcov fg_gdd]. fold fg. fold vel vsq.
  match goal with |- context [make_bounded (?x + ?y) 0 1] => set (c := make_bounded (x + y) 0 1) end.
  exists c, (sqrt (make_positive (c * (1 - vsq) * (gdd * (1 - vsq * c) - vel * (vel * (1 - c)))))).
  pose proof (bounded01 : forall x, _) as Bd. assert (Cb : EPS <= c <= 1 - EPS) by apply Bd.
  assert (A : 0 < sp_A vsq c) by (apply A_pos; [apply vsq_range|lra]). unfold sp_A in A.
  split; [exact Cb|]. rewrite !make_positive_R. split; [apply sqrt_lt_R0; eapply Rlt_le_trans; [|apply Rmax_r]; lra|].
  split; [apply sqrt_sqrt; eapply Rle_trans; [|apply Rmax_r]; lra|].
  unfold sp_A. split; field; lra.
Qed.
Lemma face_bracket : fo_vm out <= alpha * vel - beta dir <= fo_vp out /\ fo_vm out < fo_vp out.
Proof.
  destruct speeds as (c & s & Hc & Hs & Es & E1 & E2). rewrite E1, E2. pose proof EPS_pos as Ep. pose proof vsq_range as Vr. fold vsq in Vr.
  assert (Cb : 0 <= c < 1) by lra.
  pose proof (sp_bracket vel vsq c gdd Vr Cb gdd_pos cs_face s (Rlt_le _ _ Hs) ltac:(rewrite Es; apply Rmax_l)) as [B1 B2].
  assert (A : 0 < sp_A vsq c) by (apply A_pos; assumption).
  assert (Lt : 1 / sp_A vsq c * (vel * (1 - c) - s) < 1 / sp_A vsq c * (vel * (1 - c) + s)).
  { apply Rmult_lt_compat_l; [apply Rdiv_lt_0_compat; lra|lra]. }
  split; [split|]; [| |].
  - apply Rplus_le_compat_r, Rmult_le_compat_l; lra.
  - apply Rplus_le_compat_r, Rmult_le_compat_l; lra.
  - apply Rplus_lt_compat_r, Rmult_lt_compat_l; lra.
Qed.
Lemma rho_U : 0 <= rho_floor -> 0 <= fo_U out vRho.
Proof.
  intros Hr. change (0 <= lim_rho q rho_floor * face_W q fg gam_max). apply Rmult_le_pos.
  - unfold lim_rho. rewrite std_max_R. eapply Rle_trans; [exact Hr|apply Rmax_r].
  - pose proof face_W_ge1. lra.
Qed.
Lemma rho_U_pos : 0 < rho_floor -> 0 < fo_U out vRho.
Proof.
  intros Hr. change (0 < lim_rho q rho_floor * face_W q fg gam_max). apply Rmult_lt_0_compat.
  - unfold lim_rho. rewrite std_max_R. eapply Rlt_le_trans; [exact Hr|apply Rmax_r].
  - pose proof face_W_ge1. lra.
Qed.

(** the fast speed when no guard acts *)
Section NoGuard.
Hypothesis L1 : rho_floor <= q_rho q.
Hypothesis L2 : W0 <= gam_max.
Hypothesis L3 : sie_floor < q_eng q / q_rho q.
Hypothesis L4 : q_eng q / q_rho q <= sie_max.
Hypothesis L5 : 0 <= q_prs q.
Let ucon := GetFourVelocity vp gamma alpha beta.
Let b2 := bsquared g (comoving_field g W0 ucon (q_B q)).
Let rhoh := q_rho q + q_eng q + q_prs q.
Let cs2 := q_gm1 q * q_prs q / rhoh.
Let va2 := b2 / (rhoh + b2).
Let c2 := cs2 + va2 * (1 - cs2).
Hypothesis G1 : EPS <= rhoh.
Lemma b2_nonneg : 0 <= b2.
Proof.
  unfold b2, ucon, W0. rewrite (bsq_eq _ _ _ _ _ _ _ _ H). apply Rplus_le_le_0_compat; [|apply Rle_0_sqr].
  apply Rmult_le_pos; [apply pd_nonneg, Pd|]. left; apply Rinv_0_lt_compat. fold W0. nra.
Qed.
Lemma va2_range : 0 <= va2 < 1.
Proof. pose proof b2_nonneg. pose proof EPS_pos. unfold va2. apply ratio_lt1; lra. Qed.
(** the squared speed actually used *)
Let cc := make_bounded (make_bounded cs2 0 1 + va2 * (1 - make_bounded cs2 0 1)) 0 1.
Let s := sqrt (make_positive (sp_disc vel vsq cc gdd)).
Lemma guarded_speeds :
  fo_vp out = alpha * (1 / sp_A vsq cc * (vel * (1 - cc) + s)) - beta dir /\
  fo_vm out = alpha * (1 / sp_A vsq cc * (vel * (1 - cc) - s)) - beta dir.
Proof.
  pose proof EPS_pos as Ep. pose proof va2_range as Va.
  assert (C2 : EPS <= cc <= 1 - EPS) by apply bounded01.
  unfold out, prim_to_flux; cbn [fo_vp fo_vm fg_alpha fg_beta fg fg_gcov fg_gdd]. fold fg. fold vel vsq.
  rewrite (f_rho q rho_floor L1), (f_eng q sie_floor sie_max L3 L4), (f_P q L5).
  rewrite (dot_block _ _ _ _ _ _ _ _ H).
  assert (EW : face_W q fg gam_max = W0) by exact (f_W _ _ _ _ _ _ _ _ gdd H q gam_max L2). rewrite EW.
  assert (EB : sum3 (fun m => sum3 (fun n => g (m + 1)%nat (n + 1)%nat * q_B q m * face_vcon0 q fg gam_max n)) = dot3 gamma (q_B q) (fun i => vp i * (1 / W0))).
  { rewrite (dot_block _ _ _ _ _ _ _ _ H). apply dot3_ext; intros i Hi; [reflexivity|]. exact (f_vcon0 _ _ _ _ _ _ _ _ gdd H q gam_max L2 i). }
  rewrite EB. rewrite scale_1, sqrt_1, Rmult_1_r.
  set (Bv := dot3 gamma (q_B q) (fun i => vp i * (1 / W0))).
  assert (E2 : (dot3 gamma (q_B q) (q_B q) + W0 * Bv * (W0 * Bv)) / (W0 * W0) = b2).
  { assert (K : b2 = dot3 gamma (q_B q) (q_B q) / (W0 * W0) + Bv * Bv) by exact (bsq_eq _ _ _ _ _ _ _ _ H vp (q_B q)).
    rewrite K. field. lra. }
  rewrite E2. fold rhoh. pose proof b2_nonneg as Bn.
  assert (Wsq : 1 <= W0 * W0) by nra.
  assert (M1 : rhoh <= rhoh * W0 * W0) by (rewrite Rmult_assoc; clear -Wsq G1 Ep; nra).
  assert (M2 : 0 <= b2 * W0 * W0) by (rewrite Rmult_assoc; apply Rmult_le_pos; lra).
  rewrite (make_positive_R (rhoh * W0 * W0)), (Rmax_left (rhoh * W0 * W0)) by lra.
  rewrite (make_positive_R (rhoh * W0 * W0 + b2 * W0 * W0)), (Rmax_left (rhoh * W0 * W0 + b2 * W0 * W0)) by lra.
  assert (E3 : q_gm1 q * q_prs q * W0 * W0 / (rhoh * W0 * W0) = cs2) by (unfold cs2; field; split; lra). rewrite E3.
  assert (E4 : b2 * W0 * W0 / (rhoh * W0 * W0 + b2 * W0 * W0) = va2) by (unfold va2; field; repeat split; lra). rewrite E4.
  fold cc.
  change (cc * (1 - vsq) * (gdd * (1 - vsq * cc) - vel * (vel * (1 - cc)))) with (sp_disc vel vsq cc gdd). fold s.
  assert (A : 0 < sp_A vsq cc) by (apply A_pos; [apply vsq_range|lra]). unfold sp_A in *. split; field; lra.
Qed.
Lemma bounded_min x : Rmin x (1 - EPS) <= make_bounded x 0 1.
Proof.
  rewrite make_bounded_R. pose proof EPS_pos. unfold Rmin, Rmax. repeat destruct Rle_dec; lra.
Qed.
Lemma cc_large : Rmin c2 (1 - EPS) <= cc.
Proof.
  pose proof va2_range as Va. pose proof (bounded_min cs2) as B. unfold cc.
  eapply Rle_trans; [|apply bounded_min]. set (a := make_bounded cs2 0 1) in *.
  pose proof (bounded01 cs2) as Ba. fold a in Ba. pose proof EPS_pos.
  unfold c2, Rmin in *. repeat destruct Rle_dec; nra.
Qed.
Lemma cc_exact : EPS <= cs2 <= 1 - EPS -> c2 <= 1 - EPS -> cc = c2.
Proof.
  intros G2 G3. pose proof EPS_pos. pose proof va2_range as Va. unfold cc.
  rewrite (proj1 (proj2 (make_bounded_spec cs2 0 1 ltac:(lra)))) by lra. fold c2.
  rewrite (proj1 (proj2 (make_bounded_spec c2 0 1 ltac:(lra)))); [reflexivity|].
  split; [unfold c2; nra|lra].
Qed.
End NoGuard.
End F.
