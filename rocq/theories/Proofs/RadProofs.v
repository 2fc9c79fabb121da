(** Radiation moments: the closure object and the Eulerian projections. *)
From Coq Require Import Reals Lra Lia Arith Bool Psatz FunctionalExtensionality.
From Flocq Require Import Core.
From Verif.Spec Require Import Tensor GeomSpec Relativity RadSpec.
From Verif.Model Require Import Geometry LinearAlgebra RadClosure.
From Verif.Proofs Require Import TensorTac LinearAlgebraProofs GeomBase AdmProofs RelProofs.
Local Open Scope R_scope.

Lemma low3_lower g U i : lower3Vector g U i = lower3 g U i.
Proof. unfold lower3Vector, lower3, sum3. ring. Qed.
Lemma low_pair g U V : sum3 (fun i => V i * lower3 g U i) = dot3 g V U.
Proof. unfold lower3, dot3, sum3. ring. Qed.

Section R.
Variables (alpha : R) (beta : vec) (g ginv gamma gi : mat) (sg sgg : R).
Hypothesis A : adm_consistent alpha beta g ginv gamma gi sg sgg.
Let T := adm_tpo _ _ _ _ _ _ _ _ A.
Let ap := adm_lapse_pos _ _ _ _ _ _ _ _ A.
Let Gs := adm_gamma_sym _ _ _ _ _ _ _ _ A.
Let Gp := adm_gamma_pd _ _ _ _ _ _ _ _ A.
Let Gi := adm_inv3 _ _ _ _ _ _ _ _ A.

Lemma con_gamma_gi i j : (i < 3)%nat -> (j < 3)%nat -> fst (matrixInverse3x3 gamma) i j = gi i j.
Proof.
  intros Hi Hj. apply (inverse3_unique gamma); [|exact Gi|exact Hi|exact Hj].
  apply inv3_inverse; [exact Gs|]. pose proof (adm_det3 _ _ _ _ _ _ _ _ A) as [P E]. rewrite <- E. nra.
Qed.
Lemma gi_sym i j : (i < 3)%nat -> (j < 3)%nat -> gi i j = gi j i.
Proof. intros Hi Hj. rewrite <- !con_gamma_gi by assumption. apply inv3_symmetric; assumption. Qed.
Lemma raise_low (x : vec) i : (i < 3)%nat -> sum3 (fun j => lower3 gamma x j * gi i j) = x i.
Proof.
  intros Hi. transitivity (sum3 (fun k => mul3 gi gamma i k * x k)); [unfold mul3, lower3, sum3; ring|].
  unfold sum3. rewrite !(inverse3_r _ _ Gi) by lia. unfold delta. idx; cbn; ring.
Qed.
Lemma low_raise (x : vec) i : (i < 3)%nat -> lower3 gamma (fun k => sum3 (fun j => x j * gi k j)) i = x i.
Proof.
  intros Hi. transitivity (sum3 (fun k => mul3 gamma gi i k * x k)); [unfold mul3, lower3, sum3; ring|].
  unfold sum3. rewrite !(inverse3_l _ _ Gi) by lia. unfold delta. idx; cbn; ring.
Qed.

(** *** velocity *)
Variable v : vec.
Variable W : R.
Hypothesis HW : lorentz_of gamma v W.
Hypothesis Hv : dot3 gamma v v <= 9999 / 10000.
Variable rs : Strategy.
Let c := mkClosure v gamma alpha rs.
Let v2 := dot3 gamma v v.
Lemma cov_v_low i : cov_v c i = lower3 gamma v i.
Proof. apply low3_lower. Qed.
Lemma v2_val : c_v2 c = v2.
Proof.
  unfold c, mkClosure. cbn [c_v2]. transitivity (Rmin v2 (9999/10000)).
  - f_equal. unfold v2. rewrite <- low_pair. unfold sum3. rewrite !low3_lower. reflexivity.
  - apply Rmin_left, Hv.
Qed.
Lemma W_val : cW c = W.
Proof.
  destruct HW as [Wp E]. change (cW c) with (1 / sqrt (1 - c_v2 c)). rewrite v2_val. fold v2 in E.
  assert (P : 0 < 1 - v2) by (unfold v2; lra).
  assert (S : sqrt (1 - v2) = 1 / W).
  { apply sqrt_lem_1; [lra|apply Rlt_le, Rdiv_lt_0_compat; lra|]. rewrite <- (Rmult_1_r (1 - v2)).
    replace ((1 - v2) * 1) with ((1 - v2) * (W * W) / (W * W)) by (field; lra).
    replace ((1 - v2) * (W * W)) with (W * W * (1 - v2)) by ring. rewrite E. field. lra. }
  rewrite S. field. lra.
Qed.
Lemma W2_val : cW2 c = W * W.
Proof. change (cW2 c) with (cW c * cW c). rewrite W_val. reflexivity. Qed.
Lemma v2_W : v2 = 1 - 1 / (W * W).
Proof. destruct HW as [Wp E]. fold v2 in E. apply (Rmult_eq_reg_l (W * W)); [|nra]. field_simplify; [nra|lra]. Qed.
Lemma W_ge1 : 1 <= W.
Proof. destruct HW as [Wp E]. fold v2 in E. pose proof (pd_nonneg gamma Gp v) as P. fold v2 in P. nra. Qed.
Lemma con_gamma_c i j : (i < 3)%nat -> (j < 3)%nat -> con_gamma c i j = gi i j.
Proof. apply con_gamma_gi. Qed.
Lemma raise_c (x : vec) i : (i < 3)%nat -> raise3Vector (con_gamma c) x i = sum3 (fun j => x j * gi i j).
Proof. intros Hi. unfold raise3Vector, sum3. rewrite !con_gamma_c by lia. reflexivity. Qed.

(** *** tensor contractions with the velocity *)
Lemma v_cov_vPi Pi : sum3 (fun i => v i * cov_vTilPi c Pi i) = vvTilPi c Pi.
Proof.
  unfold cov_vTilPi, vvTilPi, c, mkClosure; cbn [cov_gamma cov_v]. unfold lower3Vector, sum3.
  rewrite (Gs 1 0)%nat, (Gs 2 0)%nat, (Gs 2 1)%nat by lia. ring.
Qed.
Lemma v_cov_v : sum3 (fun i => v i * cov_v c i) = v2.
Proof. unfold sum3. rewrite !cov_v_low. unfold v2. rewrite <- low_pair. reflexivity. Qed.

(** *** 3+1 split of four-dimensional objects *)
Let u := moving alpha beta W v.
Let ht := hat beta.
Lemma hat_u i : ht u i = W * v i.
Proof. unfold ht, hat, u, moving. field. lra. Qed.
Lemma u0 : alpha * u 0%nat = W.
Proof. unfold u, moving. field. lra. Qed.
Lemma low_hat X i : (i < 3)%nat -> low g X (S i) = lower3 gamma (ht X) i.
Proof.
  intros Hi. unfold low, lower4, sum4. rewrite (tpo_i0 _ _ _ _ T i Hi). rewrite !(tpo_ij _ _ _ _ T) by lia.
  unfold ht, hat, lower3, sum3. ring.
Qed.
Lemma trans_split X : dot4 g u X = - (W * (alpha * X 0%nat)) + W * dot3 gamma v (ht X).
Proof.
  rewrite (dot4_split _ _ _ _ T). fold ht.
  replace (dot3 gamma (ht u) (ht X)) with (W * dot3 gamma v (ht X)).
  - rewrite <- u0. ring.
  - unfold dot3, sum3. rewrite !hat_u. ring.
Qed.
Lemma transverse_n X : dot4 g u X = 0 -> alpha * X 0%nat = dot3 gamma v (ht X).
Proof. destruct HW as [Wp _]. rewrite trans_split. intros E. apply (Rmult_eq_reg_l W); lra. Qed.
Lemma proj_hat X i : (i < 3)%nat -> sum4 (fun m => proj alpha beta i m * X m) = ht X i.
Proof. intros Hi. unfold sum4, proj, normal_cov, delta, ht, hat. idx; cbn [Nat.eqb]; field; lra. Qed.
Lemma pressure_hat M i j : (i < 3)%nat -> (j < 3)%nat -> eulerian_pressure alpha beta M i j = ht (fun m => ht (M m) j) i.
Proof.
  intros Hi Hj. unfold eulerian_pressure.
  transitivity (sum4 (fun m => proj alpha beta i m * sum4 (fun n => proj alpha beta j n * M m n))).
  - unfold sum4. ring.
  - unfold sum4 at 1. rewrite !(proj_hat _ j Hj). exact (proj_hat (fun m => ht (M m) j) i Hi).
Qed.
Lemma energy_00 M : eulerian_energy alpha M = alpha * (alpha * M 0%nat 0%nat).
Proof. unfold eulerian_energy, sum4, normal_cov. ring. Qed.
Lemma momentum_low M i : (i < 3)%nat -> eulerian_momentum alpha g M i = alpha * lower3 gamma (ht (M 0%nat)) i.
Proof.
  intros Hi. rewrite <- low_hat by exact Hi. unfold eulerian_momentum, low, lower4, sum4, normal_cov.
  rewrite (tpo_sym _ _ _ _ T 0 (S i))%nat, (tpo_sym _ _ _ _ T 1 (S i))%nat, (tpo_sym _ _ _ _ T 2 (S i))%nat, (tpo_sym _ _ _ _ T 3 (S i))%nat by lia. ring.
Qed.
(** the inverse metric *)
Lemma ginv_00 : alpha * (alpha * ginv 0%nat 0%nat) = -1.
Proof. rewrite (adm_inverse _ _ _ _ _ _ _ _ A) by lia. cbn [adm_inv_mat]. field. lra. Qed.
Lemma ginv_0i i : (i < 3)%nat -> ht (ginv 0%nat) i = 0.
Proof. intros Hi. unfold ht, hat. rewrite !(adm_inverse _ _ _ _ _ _ _ _ A) by lia. cbn [adm_inv_mat]. field. lra. Qed.
Lemma ginv_ij i j : (i < 3)%nat -> (j < 3)%nat -> ht (fun m => ht (ginv m) j) i = gi i j.
Proof. intros Hi Hj. unfold ht, hat. rewrite !(adm_inverse _ _ _ _ _ _ _ _ A) by lia. cbn [adm_inv_mat]. field. lra. Qed.

(** *** the radiation tensor *)
Variables (J : R) (H : vec) (Pi : mat).
Hypothesis HH : transverse g u H.
Hypothesis HP : transverse2 g u Pi.
Let M := radiation_tensor ginv u J H Pi.
Let covH := fun i => low g H (S i).
Let til := fun i j => eulerian_pressure alpha beta Pi i j.
Let h := ht H.
Lemma covH_low i : (i < 3)%nat -> covH i = lower3 gamma h i.
Proof. apply low_hat. Qed.
Lemma H0 : alpha * H 0%nat = dot3 gamma v h.
Proof. apply transverse_n. exact HH. Qed.
Lemma vH_val : sum3 (fun i => v i * covH i) = dot3 gamma v h.
Proof. unfold sum3. rewrite !covH_low by lia. rewrite <- low_pair. reflexivity. Qed.
Lemma til_hat i j : (i < 3)%nat -> (j < 3)%nat -> til i j = ht (fun m => ht (Pi m) j) i.
Proof. apply pressure_hat. Qed.
Lemma Pi_row m : (m < 4)%nat -> alpha * Pi m 0%nat = dot3 gamma v (ht (Pi m)).
Proof. intros Hm. apply transverse_n. apply HP, Hm. Qed.
Lemma til_sym i j : (i < 3)%nat -> (j < 3)%nat -> til i j = til j i.
Proof.
  intros Hi Hj. rewrite !til_hat by assumption. unfold ht, hat. destruct HP as [_ S].
  rewrite (S (Datatypes.S j) (Datatypes.S i)), (S 0%nat (Datatypes.S i)), (S (Datatypes.S j) 0%nat) by lia. ring.
Qed.
(** normal-spatial and normal-normal components *)
Lemma Pi_0i i : (i < 3)%nat -> alpha * ht (Pi 0%nat) i = con_vTilPi c til i.
Proof.
  intros Hi. destruct HP as [_ S].
  transitivity (alpha * Pi (Datatypes.S i) 0%nat + beta i * (alpha * Pi 0%nat 0%nat)).
  { unfold ht, hat. rewrite (S 0%nat (Datatypes.S i)) by lia. ring. }
  rewrite !Pi_row by lia. unfold con_vTilPi, sum3. rewrite !cov_v_low, !til_hat by lia.
  assert (K : forall j, ht (fun m => ht (Pi m) j) i = ht (Pi (Datatypes.S i)) j + beta i * ht (Pi 0%nat) j) by reflexivity.
  rewrite !K. unfold dot3, lower3, sum3.
  rewrite (Gs 1 0)%nat, (Gs 2 0)%nat, (Gs 2 1)%nat by lia. ring.
Qed.
Lemma Pi_00 : alpha * (alpha * Pi 0%nat 0%nat) = vvTilPi c til.
Proof.
  rewrite Pi_row by lia. unfold vvTilPi, sum3. rewrite <- !Pi_0i by lia. rewrite !cov_v_low. unfold dot3, lower3, sum3.
  rewrite (Gs 1 0)%nat, (Gs 2 0)%nat, (Gs 2 1)%nat by lia. ring.
Qed.
Lemma M_00 : eulerian_energy alpha M = J * W * W + 2 * W * dot3 gamma v h + J / 3 * (W * W - 1) + J * vvTilPi c til.
Proof.
  rewrite energy_00. unfold M, radiation_tensor.
  transitivity (J * (alpha * u 0%nat) * (alpha * u 0%nat) + 2 * (alpha * u 0%nat) * (alpha * H 0%nat) + J / 3 * (alpha * (alpha * ginv 0%nat 0%nat) + (alpha * u 0%nat) * (alpha * u 0%nat)) + J * (alpha * (alpha * Pi 0%nat 0%nat))); [ring|].
  rewrite ginv_00, u0, H0, Pi_00. ring.
Qed.
Lemma M_0i i : (i < 3)%nat -> alpha * ht (M 0%nat) i = 4 / 3 * J * W * W * v i + W * h i + W * v i * dot3 gamma v h + J * con_vTilPi c til i.
Proof.
  intros Hi. transitivity (J * (alpha * u 0%nat) * ht u i + (alpha * H 0%nat) * ht u i + (alpha * u 0%nat) * h i + J / 3 * (alpha * ht (ginv 0%nat) i + (alpha * u 0%nat) * ht u i) + J * (alpha * ht (Pi 0%nat) i)).
  { unfold M, radiation_tensor, h, ht, hat. ring. }
  rewrite u0, H0, hat_u, (ginv_0i i Hi), (Pi_0i i Hi). field.
Qed.
Lemma M_ij i j : (i < 3)%nat -> (j < 3)%nat -> eulerian_pressure alpha beta M i j =
  4 / 3 * J * W * W * v i * v j + W * (v i * h j + v j * h i) + J / 3 * gi i j + J * til i j.
Proof.
  intros Hi Hj. rewrite pressure_hat by assumption.
  transitivity (J * ht u i * ht u j + h i * ht u j + ht u i * h j + J / 3 * (ht (fun m => ht (ginv m) j) i + ht u i * ht u j) + J * ht (fun m => ht (Pi m) j) i).
  { unfold M, radiation_tensor, h, ht, hat. ring. }
  rewrite !hat_u, (ginv_ij i j Hi Hj), til_hat by assumption. field.
Qed.
End R.
