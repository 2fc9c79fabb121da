From Coq Require Import Reals Arith Lia Lra Psatz.
From Flocq Require Import Core.
From Verif.Spec Require Import Tensor GeomSpec Relativity.
From Verif.Model Require Import Num Robust Geometry Tetrads.
From Verif.Proofs Require Import NumR TensorTac LinearAlgebraProofs RelProofs.
Local Open Scope R_scope.

Lemma contract_dot4 G a b : contract G a b = dot4 G a b.
Proof. unfold contract, dot4, sum4. ring. Qed.

(** linear independence of the rows of C *)
Definition combo (c : vec) (C : mat) : vec := fun mu => sum4 (fun a => c a * C a mu).

Section GS.
Variables (alpha : R) (beta : vec) (gamma g C : mat).
Hypothesis H : three_plus_one alpha beta gamma g.
Let Sg := tpo_sym _ _ _ _ H.
Hypothesis HU : timelike g (C 0%nat).
Hypothesis HI : forall c : vec, (forall mu, (mu < 4)%nat -> combo c C mu = 0) ->
  forall a, (a < 4)%nat -> c a = 0.

Lemma nonzero_combo (c : vec) (v : vec) a : (a < 4)%nat -> c a <> 0 -> eq4 v (combo c C) ->
  exists mu, (mu < 4)%nat /\ v mu <> 0.
Proof.
  intros Ha Hc Hv.
  destruct (Req_dec (v 0%nat) 0), (Req_dec (v 1%nat) 0), (Req_dec (v 2%nat) 0), (Req_dec (v 3%nat) 0);
   try solve [exists 0%nat; split; [lia|assumption] | exists 1%nat; split; [lia|assumption]
        | exists 2%nat; split; [lia|assumption] | exists 3%nat; split; [lia|assumption]].
  exfalso. apply Hc. apply HI; [|exact Ha]. intros mu Hm. rewrite <- Hv by exact Hm. idx; assumption.
Qed.

Lemma normalize_dot v w : dot4 g (Normalize_ v g) w = dot4 g v w / sqrt (Rabs (dot4 g v v)).
Proof. unfold Normalize_. rewrite contract_dot4. unfold dot4, sum4, Rdiv. ring. Qed.
Lemma normalize_dotr v w : dot4 g w (Normalize_ v g) = dot4 g w v / sqrt (Rabs (dot4 g v v)).
Proof. unfold Normalize_. rewrite contract_dot4. unfold dot4, sum4, Rdiv. ring. Qed.

Lemma normalize_pos v : 0 < dot4 g v v -> dot4 g (Normalize_ v g) (Normalize_ v g) = 1.
Proof.
  intros P. rewrite normalize_dot, normalize_dotr. rewrite Rabs_pos_eq by lra.
  assert (0 < sqrt (dot4 g v v)) by (apply sqrt_lt_R0, P).
  rewrite <- (sqrt_sqrt (dot4 g v v)) at 1 by lra. field. lra.
Qed.
Lemma normalize_neg v : dot4 g v v < 0 -> dot4 g (Normalize_ v g) (Normalize_ v g) = -1.
Proof.
  intros P. rewrite normalize_dot, normalize_dotr. rewrite Rabs_left by exact P.
  assert (0 < sqrt (- dot4 g v v)) by (apply sqrt_lt_R0; lra).
  replace (dot4 g v v / sqrt (- dot4 g v v) / sqrt (- dot4 g v v)) with (- (- dot4 g v v) / (sqrt (- dot4 g v v) * sqrt (- dot4 g v v))) by (field; lra).
  rewrite sqrt_sqrt by lra. field. lra.
Qed.

Lemma project_dot a b w : dot4 g (ProjectOut_ a b g) w = dot4 g a w - dot4 g b w * (dot4 g a b / dot4 g b b).
Proof.
  transitivity (dot4 g (fun i => 1 * a i + - (dot4 g a b / dot4 g b b) * b i) w).
  - apply dot4_ext; [|intros i Hi; reflexivity]. intros i Hi. unfold ProjectOut_. rewrite !contract_dot4. unfold Rdiv. ring.
  - rewrite dot4_lin. ring.
Qed.

Lemma project_orth a b : dot4 g b b <> 0 -> dot4 g (ProjectOut_ a b g) b = 0.
Proof. intros N. rewrite project_dot. field. exact N. Qed.

Let E0 := Normalize_ (C 0%nat) g.
Let R1 := ProjectOut_ (C 1%nat) E0 g.
Let E1 := Normalize_ R1 g.
Let R2 := ProjectOut_ (ProjectOut_ (C 2%nat) E0 g) E1 g.
Let E2 := Normalize_ R2 g.
Let R3 := ProjectOut_ (ProjectOut_ (ProjectOut_ (C 3%nat) E0 g) E1 g) E2 g.
Let E3 := Normalize_ R3 g.

Let n00 : dot4 g E0 E0 = -1 := normalize_neg _ HU.

(** each projected vector is the candidate plus a combination of the earlier ones *)
Lemma proj_val a b mu : ProjectOut_ a b g mu = a mu + (- (dot4 g a b / dot4 g b b)) * b mu.
Proof. unfold ProjectOut_. rewrite !contract_dot4. unfold Rdiv. ring. Qed.
Lemma norm_val v mu : Normalize_ v g mu = / sqrt (Rabs (dot4 g v v)) * v mu.
Proof. unfold Normalize_. rewrite contract_dot4. unfold Rdiv. ring. Qed.

Lemma timelike_E0 : timelike g E0.
Proof. unfold timelike. rewrite n00. lra. Qed.

Lemma R1_nz : exists mu, (mu < 4)%nat /\ R1 mu <> 0.
Proof.
  set (k := - (dot4 g (C 1%nat) E0 / dot4 g E0 E0)). set (i0 := / sqrt (Rabs (dot4 g (C 0%nat) (C 0%nat)))).
  apply (nonzero_combo (row4 (k * i0) 1 0 0) R1 1); [lia|cbn; lra|].
  intros mu Hm. unfold combo, sum4, R1. rewrite proj_val. fold k. unfold E0. rewrite norm_val. fold i0. cbn. ring.
Qed.
Lemma R1_E0 : dot4 g R1 E0 = 0.
Proof. apply project_orth. rewrite n00. lra. Qed.
Lemma R1_pos : 0 < dot4 g R1 R1.
Proof.
  apply (orth_spacelike _ _ _ _ H E0); [exact timelike_E0| |exact R1_nz].
  rewrite dot4_sym by exact Sg. exact R1_E0.
Qed.
Lemma n11 : dot4 g E1 E1 = 1. Proof. apply normalize_pos, R1_pos. Qed.
Lemma n10 : dot4 g E1 E0 = 0. Proof. unfold E1. rewrite normalize_dot, R1_E0. unfold Rdiv. ring. Qed.
Lemma n01 : dot4 g E0 E1 = 0. Proof. rewrite dot4_sym by exact Sg. exact n10. Qed.

Lemma R2_nz : exists mu, (mu < 4)%nat /\ R2 mu <> 0.
Proof.
  set (k1 := - (dot4 g (C 1%nat) E0 / dot4 g E0 E0)). set (i0 := / sqrt (Rabs (dot4 g (C 0%nat) (C 0%nat)))).
  set (i1 := / sqrt (Rabs (dot4 g R1 R1))).
  set (k2 := - (dot4 g (C 2%nat) E0 / dot4 g E0 E0)).
  set (k3 := - (dot4 g (ProjectOut_ (C 2%nat) E0 g) E1 / dot4 g E1 E1)).
  apply (nonzero_combo (row4 (k2 * i0 + k3 * i1 * k1 * i0) (k3 * i1) 1 0) R2 2); [lia|cbn; lra|].
  intros mu Hm. unfold combo, sum4, R2. rewrite proj_val. fold k3. rewrite proj_val. fold k2.
  unfold E1. rewrite norm_val. fold i1. unfold R1. rewrite proj_val. fold k1. unfold E0. rewrite !norm_val. fold i0. cbn. ring.
Qed.
Lemma R2_E0 : dot4 g R2 E0 = 0.
Proof. unfold R2. rewrite project_dot, n10. rewrite project_orth by (rewrite n00; lra). ring. Qed.
Lemma R2_E1 : dot4 g R2 E1 = 0.
Proof. apply project_orth. rewrite n11. lra. Qed.
Lemma R2_pos : 0 < dot4 g R2 R2.
Proof.
  apply (orth_spacelike _ _ _ _ H E0); [exact timelike_E0| |exact R2_nz].
  rewrite dot4_sym by exact Sg. exact R2_E0.
Qed.
Lemma n22 : dot4 g E2 E2 = 1. Proof. apply normalize_pos, R2_pos. Qed.
Lemma n20 : dot4 g E2 E0 = 0. Proof. unfold E2. rewrite normalize_dot, R2_E0. unfold Rdiv. ring. Qed.
Lemma n21 : dot4 g E2 E1 = 0. Proof. unfold E2. rewrite normalize_dot, R2_E1. unfold Rdiv. ring. Qed.

Lemma R3_nz : exists mu, (mu < 4)%nat /\ R3 mu <> 0.
Proof.
  set (k1 := - (dot4 g (C 1%nat) E0 / dot4 g E0 E0)). set (i0 := / sqrt (Rabs (dot4 g (C 0%nat) (C 0%nat)))).
  set (i1 := / sqrt (Rabs (dot4 g R1 R1))).
  set (k2 := - (dot4 g (C 2%nat) E0 / dot4 g E0 E0)).
  set (k3 := - (dot4 g (ProjectOut_ (C 2%nat) E0 g) E1 / dot4 g E1 E1)).
  set (i2 := / sqrt (Rabs (dot4 g R2 R2))).
  set (k4 := - (dot4 g (C 3%nat) E0 / dot4 g E0 E0)).
  set (k5 := - (dot4 g (ProjectOut_ (C 3%nat) E0 g) E1 / dot4 g E1 E1)).
  set (k6 := - (dot4 g (ProjectOut_ (ProjectOut_ (C 3%nat) E0 g) E1 g) E2 / dot4 g E2 E2)).
  apply (nonzero_combo (row4 (k4 * i0 + k5 * i1 * k1 * i0 + k6 * i2 * (k2 * i0 + k3 * i1 * k1 * i0))
     (k5 * i1 + k6 * i2 * (k3 * i1)) (k6 * i2) 1) R3 3); [lia|cbn; lra|].
  intros mu Hm. unfold combo, sum4, R3. rewrite proj_val. fold k6. rewrite proj_val. fold k5. rewrite proj_val. fold k4.
  unfold E2. rewrite norm_val. fold i2. unfold R2. rewrite proj_val. fold k3. rewrite proj_val. fold k2.
  unfold E1. rewrite !norm_val. fold i1. unfold R1. rewrite !proj_val. fold k1. unfold E0. rewrite !norm_val. fold i0. cbn. ring.
Qed.
Lemma R3_E0 : dot4 g R3 E0 = 0.
Proof. unfold R3. rewrite project_dot, n20. rewrite project_dot, n10. rewrite project_orth by (rewrite n00; lra). ring. Qed.
Lemma R3_E1 : dot4 g R3 E1 = 0.
Proof. unfold R3. rewrite project_dot, n21. rewrite project_orth by (rewrite n11; lra). ring. Qed.
Lemma R3_E2 : dot4 g R3 E2 = 0.
Proof. apply project_orth. rewrite n22. lra. Qed.
Lemma R3_pos : 0 < dot4 g R3 R3.
Proof.
  apply (orth_spacelike _ _ _ _ H E0); [exact timelike_E0| |exact R3_nz].
  rewrite dot4_sym by exact Sg. exact R3_E0.
Qed.
Lemma n33 : dot4 g E3 E3 = 1. Proof. apply normalize_pos, R3_pos. Qed.
Lemma n30 : dot4 g E3 E0 = 0. Proof. unfold E3. rewrite normalize_dot, R3_E0. unfold Rdiv. ring. Qed.
Lemma n31 : dot4 g E3 E1 = 0. Proof. unfold E3. rewrite normalize_dot, R3_E1. unfold Rdiv. ring. Qed.
Lemma n32 : dot4 g E3 E2 = 0. Proof. unfold E3. rewrite normalize_dot, R3_E2. unfold Rdiv. ring. Qed.

Lemma gs_orthonormal : orthonormal g (gram_schmidt C g).
Proof.
  intros a b Ha Hb. unfold gram_schmidt. fold E0. fold R1. fold E1. fold R2. fold E2. fold R3. fold E3.
  pose proof n11; pose proof n22; pose proof n33; pose proof n10; pose proof n20; pose proof n21.
  pose proof n30; pose proof n31; pose proof n32.
  idx; cbn [rows4 eta Nat.eqb]; first [assumption | rewrite dot4_sym by exact Sg; assumption].
Qed.
End GS.

(** consequences of orthonormality for the transformations *)
Section Frame.
Variables (g E : mat).
Hypothesis Sg : symmetric4 g.
Hypothesis HO : orthonormal g E.

Definition cov := Ecov_of E g.

Lemma cov_con a b : (a < 4)%nat -> (b < 4)%nat -> sum4 (fun mu => cov a mu * E b mu) = delta a b.
Proof.
  intros Ha Hb. pose proof (HO a b Ha Hb) as K.
  assert (J : sum4 (fun mu => cov a mu * E b mu) = (if Nat.eqb a 0 then -1 else 1) * dot4 g (E a) (E b)).
  { unfold cov, Ecov_of, Lower, dot4, sum4.
    rewrite (Sg 1 0)%nat, (Sg 2 0)%nat, (Sg 2 1)%nat, (Sg 3 0)%nat, (Sg 3 1)%nat, (Sg 3 2)%nat by lia.
    destruct a as [|a]; cbn [Nat.eqb]; ring. }
  rewrite J, K. unfold eta, delta. idx; cbn [Nat.eqb]; lra.
Qed.

(** matrices: cov * transpose E = 1, hence transpose E * cov = 1 *)
Lemma frame_inverse : inverse4 cov (fun mu a => E a mu).
Proof.
  assert (L : forall a b, (a < 4)%nat -> (b < 4)%nat -> mul4 cov (fun mu a => E a mu) a b = delta a b).
  { intros a b Ha Hb. apply cov_con; assumption. }
  assert (D : det4 cov * det4 (fun mu a => E a mu) = 1).
  { rewrite <- det4_mul. rewrite (det4_ext _ delta) by exact L. apply det4_delta. }
  assert (N : det4 cov <> 0) by (intros Z; rewrite Z in D; lra).
  pose proof (inv4_inverse cov N) as I. set (B := LinearAlgebra.matrixInverse4x4 cov) in *.
  assert (EB : forall i j, (i < 4)%nat -> (j < 4)%nat -> E j i = B i j).
  { intros i j Hi Hj. transitivity (mul4 (mul4 B cov) (fun mu a => E a mu) i j).
    - unfold mul4 at 1. unfold sum4. rewrite !(inverse4_r _ _ I) by lia. unfold delta. idx; cbn; ring.
    - transitivity (mul4 B (mul4 cov (fun mu a => E a mu)) i j); [unfold mul4, sum4; ring|].
      unfold mul4 at 1. unfold sum4. rewrite !L by lia. unfold delta. idx; cbn; ring. }
  intros i j Hi Hj. split; [apply L; assumption|].
  rewrite <- (inverse4_r _ _ I i j Hi Hj). unfold mul4, sum4. rewrite !EB by lia. reflexivity.
Qed.
End Frame.
