From Coq Require Import Reals Arith Lia Lra Psatz.
From Verif.Spec Require Import Tensor GeomSpec Relativity GRMHD.
From Verif.Model Require Import Num Robust Geometry Relativity Prim2Con.
From Verif.Proofs Require Import NumR TensorTac LinearAlgebraProofs GeomBase AdmProofs RelProofs RelativityProofs.
Local Open Scope R_scope.

Section P.
Variables (alpha : R) (beta : vec) (g ginv gamma gi : mat) (sg sgg : R).
Hypothesis H : adm_consistent alpha beta g ginv gamma gi sg sgg.
Let T := adm_tpo _ _ _ _ _ _ _ _ H.
Let ap := tpo_lapse _ _ _ _ T.
Variables (rho : R) (vp B : vec) (u ye p gam1 : R).

Let W := GetLorentzFactor vp gamma.
Let ucon := GetFourVelocity vp gamma alpha beta.
Let bcon := comoving_field g W ucon B.

Lemma W_eq : GetLorentzFactor4 vp g = W.
Proof.
  unfold GetLorentzFactor4, W, GetLorentzFactor, sum3. cbn [Nat.add].
  pose proof (tpo_ij _ _ _ _ T) as E. rewrite !E by lia. reflexivity.
Qed.
Lemma W_pos : 1 <= W. Proof. apply (lorentz_ge1 _ _ _ _ vp T). Qed.
Lemma W_sq : W * W = 1 + dot3 gamma vp vp. Proof. apply (lorentz_sq _ _ _ _ vp T). Qed.

(** code's sums over the spatial block of gcov are inner products with gamma *)
Lemma dot_block a b : sum3 (fun i => sum3 (fun j => g (i + 1)%nat (j + 1)%nat * a i * b j)) = dot3 gamma a b.
Proof.
  unfold dot3, sum3. cbn [Nat.add]. pose proof (tpo_ij _ _ _ _ T) as E. rewrite !E by lia. reflexivity.
Qed.

Let v : vec := fun i => vp i * (1 / W).
Let Bdotv := dot3 gamma B v.
Let b0 := W * Bdotv.

Lemma Bdotvp : dot3 gamma B vp = b0.
Proof. unfold b0, Bdotv, v, dot3, sum3. pose proof W_pos. field. lra. Qed.

Lemma ucon0 : ucon 0%nat = W / alpha.
Proof. apply (u0_val _ _ _ _ vp T). Qed.
Lemma uconS i : ucon (S i) = vp i - W / alpha * beta i.
Proof. change (ucon (S i)) with (vp i - ucon 0%nat * beta i). rewrite ucon0. reflexivity. Qed.
Lemma uconS' i : ucon (S i) = W * (v i - beta i / alpha).
Proof. rewrite uconS. unfold v. pose proof W_pos. field. split; lra. Qed.

Lemma bcon0 : bcon 0%nat = b0 / alpha.
Proof.
  unfold bcon. rewrite (b_eq _ _ _ _ vp T B). fold W ucon. rewrite Bdotvp, ucon0. cbn [spatial4].
  pose proof W_pos. field. split; lra.
Qed.
Lemma bconS i : bcon (S i) = B i / W + b0 * (v i - beta i / alpha).
Proof.
  unfold bcon. rewrite (b_eq _ _ _ _ vp T B). fold W ucon. rewrite Bdotvp, uconS'. cbn [spatial4].
  pose proof W_pos. field. split; lra.
Qed.

Lemma bsq_eq : bsquared g bcon = dot3 gamma B B / (W * W) + Bdotv * Bdotv.
Proof.
  pose proof (b_b _ _ _ _ vp T B) as K. fold W ucon in K. fold bcon in K. unfold bsquared. rewrite K, Bdotvp. unfold b0.
  pose proof W_pos. f_equal. field. lra.
Qed.

(** lowering a vector a = a^0 (1, -beta) + hat *)
Lemma lower_spatial a i : (i < 3)%nat -> lower4 g a (S i) = lower3 gamma (hat beta a) i.
Proof.
  intros Hi. pose proof (tpo_ij _ _ _ _ T) as E. pose proof (tpo_i0 _ _ _ _ T i Hi) as E0.
  unfold lower4, sum4. rewrite E0, !E by lia. unfold lower3, sum3, hat. ring.
Qed.
Lemma lower3_ext G a b i : eq3 a b -> lower3 G a i = lower3 G b i.
Proof. intros K. unfold lower3, sum3. rewrite !K by lia. reflexivity. Qed.
Lemma lower3_lin G a b c d i : lower3 G (fun j => a * c j + b * d j) i = a * lower3 G c i + b * lower3 G d i.
Proof. unfold lower3, sum3. ring. Qed.

Lemma ucov_S i : (i < 3)%nat -> lower4 g ucon (S i) = W * lower3 gamma v i.
Proof.
  intros Hi. rewrite lower_spatial by exact Hi.
  rewrite (lower3_ext gamma _ (fun j => W * v j + 0 * v j)).
  - rewrite lower3_lin. ring.
  - intros j Hj. unfold ucon; rewrite hat_u by exact Hj. unfold v. pose proof W_pos. field. lra.
Qed.
Lemma hat_b i : (i < 3)%nat -> hat beta bcon i = B i / W + b0 * v i.
Proof. intros Hi. unfold hat. rewrite bcon0, bconS. field. pose proof W_pos. split; lra. Qed.
Lemma bcov_S i : (i < 3)%nat -> lower4 g bcon (S i) = lower3 gamma B i / W + b0 * lower3 gamma v i.
Proof.
  intros Hi. rewrite lower_spatial by exact Hi.
  rewrite (lower3_ext gamma _ (fun j => / W * B j + b0 * v j)).
  - rewrite lower3_lin. unfold Rdiv. ring.
  - intros j Hj. rewrite hat_b by exact Hj. unfold Rdiv. ring.
Qed.

(** the inverse metric *)
Lemma ginv00 : ginv 0%nat 0%nat = - (1 / (alpha * alpha)).
Proof. rewrite (adm_inverse _ _ _ _ _ _ _ _ H) by lia. reflexivity. Qed.
Lemma ginv0S i : (i < 3)%nat -> ginv 0%nat (S i) = beta i / (alpha * alpha).
Proof. intros. rewrite (adm_inverse _ _ _ _ _ _ _ _ H) by lia. reflexivity. Qed.

(** the code's intermediate arrays *)
Lemma bcon_code mu : (mu < 4)%nat ->
  match mu with O => W * Bdotv / alpha | S m => B m * (1 / W) + Bdotv * W * (v m - beta m / alpha) end = bcon mu.
Proof.
  intros Hm. pose proof W_pos. destruct mu as [|m].
  - rewrite bcon0. reflexivity.
  - rewrite bconS. unfold b0. field. split; lra.
Qed.
Lemma ucon_code mu : (mu < 4)%nat ->
  match mu with O => W / alpha | S m => vp m - beta m * W / alpha end = ucon mu.
Proof.
  intros Hm. destruct mu as [|m]; [symmetry; apply ucon0|]. rewrite uconS. field. lra.
Qed.

Let C val := p2c val rho vp B u ye p gam1 g gi beta alpha sg.

Lemma Bsq_pos : 0 <= dot3 gamma B B.
Proof. apply pd_nonneg, (tpo_gpd _ _ _ _ T). Qed.

Lemma code_bsq : dot3 gamma B B * (1 / W) * (1 / W) + Bdotv * Bdotv = bsquared g bcon.
Proof. rewrite bsq_eq. pose proof W_pos. field. lra. Qed.

Lemma sum4_ext f h : (forall n, (n < 4)%nat -> f n = h n) -> sum4 f = sum4 h.
Proof. intros K. unfold sum4. rewrite !K by lia. reflexivity. Qed.

Lemma C_D val : cD (C val) = sg * rho * W.
Proof. unfold C, p2c; cbn [cD]. rewrite W_eq. reflexivity. Qed.

Lemma C_S val m : (m < 3)%nat ->
  cS (C val) m = sg * ((rho + u + p + bsquared g bcon) * (W * W) * lower3 gamma v m - b0 * lower4 g bcon (S m)).
Proof.
  intros Hm. unfold C, p2c; cbn [cS]. rewrite W_eq. rewrite !dot_block.
  change (dot3 gamma B (fun j : nat => vp j * (1 / W))) with Bdotv. rewrite code_bsq.
  assert (V : sum3 (fun n => g (m + 1)%nat (n + 1)%nat * (vp n * (1 / W))) = lower3 gamma v m).
  { rewrite Nat.add_1_r. unfold lower3, sum3. cbn [Nat.add]. pose proof (tpo_ij _ _ _ _ T) as E. rewrite !E by lia. reflexivity. }
  rewrite V.
  assert (L : sum4 (fun n => g (m + 1)%nat n * match n with O => W * Bdotv / alpha | S m => B m * (1 / W) + Bdotv * W * (vp m * (1 / W) - beta m / alpha) end) = lower4 g bcon (S m)).
  { rewrite Nat.add_1_r. unfold lower4. apply sum4_ext. intros n Hn. rewrite <- (bcon_code n Hn). reflexivity. }
  rewrite L. fold b0. ring.
Qed.

Lemma C_tau_valencia :
  ctau (C true) = sg * ((rho + u + p + bsquared g bcon) * (W * W) - (p + bsquared g bcon / 2) - b0 * b0) - sg * rho * W.
Proof.
  unfold C, p2c; cbn [ctau]. rewrite W_eq. rewrite !dot_block.
  change (dot3 gamma B (fun j : nat => vp j * (1 / W))) with Bdotv. rewrite code_bsq. fold b0. field.
Qed.

Lemma C_tau_cov :
  ctau (C false) = sg * alpha * ((rho + u + p + bsquared g bcon) * ucon 0%nat * lower4 g ucon 0%nat
       + (p + bsquared g bcon / 2) - bcon 0%nat * lower4 g bcon 0%nat) + sg * rho * W.
Proof.
  unfold C, p2c; cbn [ctau]. rewrite W_eq. rewrite !dot_block.
  change (dot3 gamma B (fun j : nat => vp j * (1 / W))) with Bdotv. rewrite code_bsq.
  assert (L : sum4 (fun n => g 0%nat n * match n with O => W * Bdotv / alpha | S m => B m * (1 / W) + Bdotv * W * (vp m * (1 / W) - beta m / alpha) end) = lower4 g bcon 0%nat).
  { unfold lower4. apply sum4_ext. intros n Hn. rewrite <- (bcon_code n Hn). reflexivity. }
  rewrite L.
  assert (L' : sum4 (fun nu => g 0%nat nu * match nu with O => W / alpha | S m => vp m - beta m * W / alpha end) = lower4 g ucon 0%nat).
  { unfold lower4. apply sum4_ext. intros n Hn. rewrite <- (ucon_code n Hn). reflexivity. }
  rewrite L'. rewrite bcon0, ucon0. unfold b0. field. lra.
Qed.

(** n^mu a_mu = a(n) *)
Lemma normal_lower a : sum4 (fun mu => lower4 g a mu * normal_con alpha beta mu) = - (alpha * a 0%nat).
Proof.
  assert (E : sum4 (fun mu => lower4 g a mu * normal_con alpha beta mu) = dot4 g (normal_con alpha beta) a).
  { unfold dot4, lower4, sum4. ring. }
  rewrite E, (dot4_split _ _ _ _ T).
  rewrite (dot3_zero gamma (hat beta (normal_con alpha beta))).
  - cbn [normal_con]. field. lra.
  - intros i Hi. unfold hat; cbn [normal_con]. field. lra.
Qed.
End P.
