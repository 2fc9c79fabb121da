From Coq Require Import Reals Arith Lia Lra Psatz.
From Flocq Require Import Core.
From Verif.Spec Require Import Tensor GeomSpec Relativity GRMHD.
From Verif.Model Require Import Num Robust Geometry Relativity Prim2Con Riemann.
From Verif.Proofs Require Import NumR RobustProofs TensorTac LinearAlgebraProofs GeomBase AdmProofs RelProofs RelativityProofs Prim2ConProofs.
Local Open Scope R_scope.

Section F.
Variables (alpha : R) (beta : vec) (g ginv gamma gi : mat) (sg sgg gdd : R).
Hypothesis H : adm_consistent alpha beta g ginv gamma gi sg sgg.
Let T := adm_tpo _ _ _ _ _ _ _ _ H.
Let ap := tpo_lapse _ _ _ _ T.
Variable q : FaceState.
Variables (rho_floor sie_floor sie_max gam_max : R).
Let fg := mkFace alpha sgg sg g beta gdd.

Let vp := q_vp q.
Let B := q_B q.
Let rho := q_rho q.
Let u := q_eng q.
Let p := q_prs q.
Let W := GetLorentzFactor vp gamma.
Let ucon := GetFourVelocity vp gamma alpha beta.
Let bcon := comoving_field g W ucon B.
Let v : vec := fun i => vp i * (1 / W).
Let Bdotv := dot3 gamma B v.
Let b0 := W * Bdotv.
Let W1 : 1 <= W := lorentz_ge1 _ _ _ _ vp T.
Let W2 : W * W = 1 + dot3 gamma vp vp := lorentz_sq _ _ _ _ vp T.
Let WE : GetLorentzFactor4 vp g = W := W_eq _ _ _ _ _ _ _ _ H vp.

Hypothesis Hrho : rho_floor <= rho.
Hypothesis HW : W <= gam_max.
Hypothesis Hsf : sie_floor < u / rho.
Hypothesis Hsm : u / rho <= sie_max.
Hypothesis HP : 0 <= p.

Lemma f_rho : lim_rho q rho_floor = rho.
Proof. unfold lim_rho. rewrite std_max_R. apply Rmax_left. exact Hrho. Qed.
Lemma f_vpcon : lim_vpcon q fg gam_max = vp.
Proof. unfold lim_vpcon, fg; cbn [fg_gcov]. fold vp. rewrite WE. rewrite Rlt_bool_false by exact HW. reflexivity. Qed.
Lemma f_vcon0 m : face_vcon0 q fg gam_max m = v m.
Proof. unfold face_vcon0. rewrite f_vpcon. unfold fg; cbn [fg_gcov]. fold vp. rewrite WE. unfold v. field. lra. Qed.
Lemma vv_val : dot3 gamma v v = 1 - 1 / (W * W).
Proof.
  assert (E : dot3 gamma v v = dot3 gamma vp vp / (W * W)).
  { unfold v, dot3, sum3. field. lra. }
  rewrite E. replace (dot3 gamma vp vp) with (W * W - 1) by lra. field. lra.
Qed.
Lemma f_vsq0 : face_vsq0 q fg gam_max = 1 - 1 / (W * W).
Proof.
  unfold face_vsq0, fg; cbn [fg_gcov]. fold fg.
  rewrite (dot_block _ _ _ _ _ _ _ _ H). rewrite <- vv_val.
  apply dot3_ext; intros i Hi; apply f_vcon0.
Qed.
Lemma f_scale : face_scale q fg gam_max = 1.
Proof.
  unfold face_scale. rewrite f_vsq0. rewrite Rlt_bool_false; [reflexivity|].
  assert (/ (gam_max * gam_max) <= / (W * W)).
  { apply Rinv_le_contravar; [nra|]. nra. }
  unfold Rdiv. lra.
Qed.
Lemma f_vcon m : face_vcon q fg gam_max m = v m.
Proof. unfold face_vcon. rewrite f_scale, f_vcon0, sqrt_1. ring. Qed.
Lemma f_vsq : face_vsq q fg gam_max = 1 - 1 / (W * W).
Proof. unfold face_vsq. rewrite f_scale, f_vsq0. ring. Qed.
Lemma f_W : face_W q fg gam_max = W.
Proof.
  unfold face_W. rewrite f_vsq. replace (1 - (1 - 1 / (W * W))) with (/ W * / W) by (field; lra).
  rewrite sqrt_square by (left; apply Rinv_0_lt_compat; lra). field. lra.
Qed.
Lemma f_eng : lim_eng q rho sie_floor sie_max = u.
Proof. unfold lim_eng. fold u. rewrite Rlt_bool_true by exact Hsf. rewrite Rlt_bool_false by exact Hsm. reflexivity. Qed.
Lemma f_P : std_max p 0 = p.
Proof. rewrite std_max_R. apply Rmax_left. exact HP. Qed.
Lemma f_Bv : sum3 (fun m => sum3 (fun n => g (m + 1)%nat (n + 1)%nat * B m * face_vcon0 q fg gam_max n)) = Bdotv.
Proof.
  rewrite (dot_block _ _ _ _ _ _ _ _ H). apply dot3_ext; intros i Hi; [reflexivity|apply f_vcon0].
Qed.

Let out val dir := prim_to_flux val dir fg q rho_floor sie_floor sie_max gam_max.
Let b2 := bsquared g bcon.

Lemma f_bsq : (dot3 gamma B B + b0 * b0) / (W * W) = b2.
Proof. pose proof (bsq_eq _ _ _ _ _ _ _ _ H vp B) as K. fold W v ucon in K. fold Bdotv bcon in K. unfold b2. rewrite K. unfold b0. field. lra. Qed.

Lemma vtil_u dir : v dir - beta dir / alpha = ucon (S dir) / W.
Proof. pose proof (uconS' _ _ _ _ _ _ _ _ H vp dir) as K. fold W v ucon in K. rewrite K. field. split; lra. Qed.
Lemma dens_u0 : sg * W = sgg * ucon 0%nat.
Proof. pose proof (ucon0 _ _ _ _ _ _ _ _ H vp) as K. fold W ucon in K. rewrite K, (adm_dets _ _ _ _ _ _ _ _ H). field. lra. Qed.

Lemma out_Urho val dir : fo_U (out val dir) vRho = rho * W.
Proof. unfold out, prim_to_flux; cbn [fo_U]. rewrite f_rho, f_W. reflexivity. Qed.
Lemma out_Frho val dir : fo_F (out val dir) vRho = rho * ucon (S dir).
Proof.
  unfold out, prim_to_flux; cbn [fo_F]. rewrite f_rho, f_W, f_vcon. unfold fg; cbn [fg_beta fg_alpha].
  rewrite vtil_u. field. lra.
Qed.
Lemma out_Uye val dir : fo_U (out val dir) vYe = rho * W * q_ye q.
Proof. unfold out, prim_to_flux; cbn [fo_U]. rewrite f_rho, f_W. reflexivity. Qed.
Lemma out_Fye val dir : fo_F (out val dir) vYe = rho * ucon (S dir) * q_ye q.
Proof.
  unfold out, prim_to_flux; cbn [fo_F]. rewrite f_rho, f_W, f_vcon. unfold fg; cbn [fg_beta fg_alpha].
  rewrite vtil_u. field. lra.
Qed.
Lemma out_UB val dir m : fo_U (out val dir) (vB m) = B m.
Proof. reflexivity. Qed.
Lemma out_FB val dir m : fo_F (out val dir) (vB m) = B m * (ucon (S dir) / W) - B dir * (ucon (S m) / W).
Proof.
  unfold out, prim_to_flux; cbn [fo_F]. rewrite !f_vcon. unfold fg; cbn [fg_beta fg_alpha].
  rewrite !vtil_u. reflexivity.
Qed.

Lemma code_bcov m : (m < 3)%nat ->
  g (m + 1)%nat 0%nat * b0 / alpha + sum3 (fun n => g (m + 1)%nat (n + 1)%nat * (B n / W + b0 * (face_vcon q fg gam_max n - beta n / alpha)))
  = lower4 g bcon (S m).
Proof.
  intros Hm. rewrite Nat.add_1_r. unfold lower4, sum4, sum3. rewrite !f_vcon. cbn [Nat.add].
  pose proof (bcon0 _ _ _ _ _ _ _ _ H vp B) as K0. pose proof (bconS _ _ _ _ _ _ _ _ H vp B) as KS.
  fold W v in K0, KS. fold Bdotv in K0, KS. fold b0 in K0, KS. fold ucon in K0, KS. fold bcon in K0, KS.
  rewrite K0, !KS. unfold Rdiv. ring.
Qed.
Lemma code_vcov m : (m < 3)%nat -> sum3 (fun n => g (m + 1)%nat (n + 1)%nat * face_vcon q fg gam_max n) = lower3 gamma v m.
Proof.
  intros Hm. rewrite Nat.add_1_r. unfold lower3, sum3. rewrite !f_vcon. cbn [Nat.add].
  pose proof (tpo_ij _ _ _ _ T) as E. rewrite !E by lia. reflexivity.
Qed.

Lemma out_Umom val dir m : (m < 3)%nat ->
  fo_U (out val dir) (vMom m) = (rho + u + p + b2) * (W * W) * lower3 gamma v m - b0 * lower4 g bcon (S m).
Proof.
  intros Hm. unfold out, prim_to_flux; cbn [fo_U]. rewrite f_rho, f_W, f_eng, f_scale, sqrt_1, Rmult_1_r.
  change (fg_gcov fg) with g. change (fg_alpha fg) with alpha. change (fg_beta fg) with beta. fold B p.
  rewrite f_Bv, f_P, (dot_block _ _ _ _ _ _ _ _ H). fold b0. rewrite code_vcov, code_bcov by exact Hm.
  rewrite f_bsq. ring.
Qed.
Lemma out_Fmom val dir m : (m < 3)%nat -> (dir < 3)%nat ->
  fo_F (out val dir) (vMom m) = Tmixed g rho u p ucon bcon (S dir) (S m).
Proof.
  intros Hm Hd. unfold out, prim_to_flux; cbn [fo_F]. rewrite f_rho, f_W, f_eng, f_scale, sqrt_1, Rmult_1_r.
  change (fg_gcov fg) with g. change (fg_alpha fg) with alpha. change (fg_beta fg) with beta. fold B p.
  rewrite f_Bv, f_P, (dot_block _ _ _ _ _ _ _ _ H). fold b0. rewrite code_vcov, code_bcov by exact Hm.
  rewrite f_bsq, f_vcon. unfold Tmixed. fold b2.
  pose proof (ucov_S _ _ _ _ _ _ _ _ H vp m Hm) as Ku. fold W v ucon in Ku. rewrite Ku.
  pose proof (bconS _ _ _ _ _ _ _ _ H vp B dir) as KS.
  fold W v in KS. fold Bdotv in KS. fold b0 in KS. fold ucon in KS. fold bcon in KS. rewrite KS.
  rewrite !vtil_u. change (delta (S dir) (S m)) with (if Nat.eqb dir m then 1 else 0). field. lra.
Qed.

Lemma out_Ueng_valencia dir :
  fo_U (out true dir) vEng = (rho + u + p + b2) * (W * W) - (p + b2 / 2) - b0 * b0 - rho * W.
Proof.
  unfold out, prim_to_flux; cbn [fo_U]. rewrite f_rho, f_W, f_eng, f_scale, sqrt_1, Rmult_1_r.
  change (fg_gcov fg) with g. fold B p.
  rewrite f_Bv, f_P, (dot_block _ _ _ _ _ _ _ _ H). fold b0. rewrite f_bsq. field.
Qed.
Lemma out_Feng_valencia dir :
  fo_F (out true dir) vEng = ((rho + u + p + b2) * (W * W) - (p + b2 / 2) - b0 * b0 - rho * W) * (ucon (S dir) / W)
     + (p + b2 / 2) * v dir - Bdotv * B dir.
Proof.
  unfold out, prim_to_flux; cbn [fo_F]. rewrite f_rho, f_W, f_eng, f_scale, sqrt_1, Rmult_1_r.
  change (fg_gcov fg) with g. change (fg_alpha fg) with alpha. change (fg_beta fg) with beta. fold B p.
  rewrite f_Bv, f_P, (dot_block _ _ _ _ _ _ _ _ H), !f_vcon. fold b0. rewrite f_bsq, vtil_u. field. lra.
Qed.

(** covariant formulation *)
Lemma out_uc mu : (mu < 4)%nat -> match mu with O => W / alpha | S m => lim_vpcon q fg gam_max m - beta m * W / alpha end = ucon mu.
Proof.
  intros Hm. rewrite f_vpcon. apply (ucon_code _ _ _ _ _ _ _ _ H vp mu Hm).
Qed.
Lemma out_bc mu : (mu < 4)%nat -> match mu with O => b0 / alpha | S m => (B m + b0 * (lim_vpcon q fg gam_max m - beta m * W / alpha)) / W end = bcon mu.
Proof.
  intros Hm. destruct mu as [|m].
  - symmetry. apply (bcon0 _ _ _ _ _ _ _ _ H vp B).
  - pose proof (out_uc (S m) Hm) as K. cbv beta iota in K. rewrite K.
    pose proof (uconS' _ _ _ _ _ _ _ _ H vp m) as Ku. fold W v ucon in Ku. rewrite Ku.
    pose proof (bconS _ _ _ _ _ _ _ _ H vp B m) as KS.
    fold W v in KS. fold Bdotv in KS. fold b0 in KS. fold ucon in KS. fold bcon in KS. rewrite KS. field. split; lra.
Qed.
Lemma out_ucov mu : sum4 (fun nu => g mu nu * match nu with O => W / alpha | S m => lim_vpcon q fg gam_max m - beta m * W / alpha end) = lower4 g ucon mu.
Proof. apply sum4_ext. intros n Hn. rewrite <- (out_uc n Hn). reflexivity. Qed.
Lemma out_bcov mu : sum4 (fun nu => g mu nu * match nu with O => b0 / alpha | S m => (B m + b0 * (lim_vpcon q fg gam_max m - beta m * W / alpha)) / W end) = lower4 g bcon mu.
Proof. apply sum4_ext. intros n Hn. rewrite <- (out_bc n Hn). reflexivity. Qed.

Lemma out_Feng_cov dir : (dir < 3)%nat ->
  fo_F (out false dir) vEng = Tmixed g rho u p ucon bcon (S dir) 0 + rho * ucon (S dir).
Proof.
  intros Hd. unfold out, prim_to_flux; cbn [fo_F]. rewrite f_rho, f_W, f_eng, f_scale, sqrt_1, Rmult_1_r.
  change (fg_gcov fg) with g. change (fg_alpha fg) with alpha. change (fg_beta fg) with beta. fold B p.
  rewrite f_Bv, f_P, (dot_block _ _ _ _ _ _ _ _ H). fold b0. rewrite f_bsq.
  rewrite out_ucov, out_bcov.
  pose proof (out_uc (S dir) ltac:(lia)) as K1. pose proof (out_bc (S dir) ltac:(lia)) as K2. cbv beta iota in K1, K2.
  rewrite K2, K1. unfold Tmixed. fold b2. unfold delta. cbn [Nat.eqb]. ring.
Qed.
Lemma out_Ueng_cov dir :
  fo_U (out false dir) vEng = alpha * Tmixed g rho u p ucon bcon 0 0 + rho * W
     + (alpha - 1) * (bcon 0%nat * lower4 g bcon 0%nat).
Proof.
  unfold out, prim_to_flux; cbn [fo_U]. rewrite f_rho, f_W, f_eng, f_scale, sqrt_1, Rmult_1_r.
  change (fg_gcov fg) with g. change (fg_alpha fg) with alpha. change (fg_beta fg) with beta. fold B p.
  rewrite f_Bv, f_P, (dot_block _ _ _ _ _ _ _ _ H). fold b0. rewrite f_bsq.
  rewrite out_ucov, out_bcov.
  pose proof (out_uc 0 ltac:(lia)) as K1. pose proof (out_bc 0 ltac:(lia)) as K2. cbv beta iota in K1, K2.
  rewrite K2, K1. unfold Tmixed. fold b2. unfold delta. cbn [Nat.eqb]. field.
Qed.
End F.
