(** Norm and energy of a velocity taken from Boyer-Lindquist to FMKS coordinates. *)
From Coq Require Import Reals Lra Lia Psatz Arith.
From Verif.Spec Require Import Tensor GeomSpec SystemSpec Relativity.
From Verif.Model Require Import Num Robust LinearAlgebra Geometry Modified BoyerLindquist Relativity Bondi.
From Verif.Proofs Require Import NumR TensorTac GeomBase ModifiedProofs TransformProofs RelProofs.
From Verif.Properties Require Import P_Geometry P_Relativity.
From Verif.Spec Require Import Relativity.
Local Open Scope R_scope.

Definition apply4 (L : mat) (v : vec) : vec := fun mu => sum4 (fun nu => L mu nu * v nu).
Definition pull (g L : mat) : mat := fun mu nu => sum4 (fun l => sum4 (fun k => g l k * L l mu * L k nu)).
Lemma pull_dot g L v w : dot4 (pull g L) v w = dot4 g (apply4 L v) (apply4 L w).
Proof. unfold dot4, pull, apply4, sum4. ring. Qed.
Lemma pull_lower0 g L v : L 0%nat 0%nat = 1 -> L 1%nat 0%nat = 0 -> L 2%nat 0%nat = 0 -> L 3%nat 0%nat = 0 ->
  lower4 (pull g L) v 0%nat = lower4 g (apply4 L v) 0%nat.
Proof. intros H0 H1 H2 H3. unfold lower4, pull, apply4, sum4. rewrite H0, H1, H2, H3. ring. Qed.
Lemma dot4_ext g g' u u' : (forall i j, (i < 4)%nat -> (j < 4)%nat -> g i j = g' i j) -> eq4 u u' -> dot4 g u u = dot4 g' u' u'.
Proof. intros Hg Hu. unfold dot4, sum4. rewrite !Hg, !Hu by lia. reflexivity. Qed.
Lemma lower4_ext g g' u u' : (forall i j, (i < 4)%nat -> (j < 4)%nat -> g i j = g' i j) -> eq4 u u' -> lower4 g u 0%nat = lower4 g' u' 0%nat.
Proof. intros Hg Hu. unfold lower4, sum4. rewrite !Hg, !Hu by lia. reflexivity. Qed.
Lemma apply4_inverse L K v : inverse4 L K -> eq4 (apply4 L (apply4 K v)) v.
Proof.
  intros H mu Hmu.
  assert (E : apply4 L (apply4 K v) mu = apply4 (mul4 L K) v mu) by (unfold apply4, mul4, sum4; ring).
  rewrite E. unfold apply4, sum4. rewrite (proj1 (H mu 0%nat Hmu ltac:(lia))), (proj1 (H mu 1%nat Hmu ltac:(lia))), (proj1 (H mu 2%nat Hmu ltac:(lia))), (proj1 (H mu 3%nat Hmu ltac:(lia))). idx; unfold delta; cbn; ring.
Qed.
Lemma S2ST_inverse A B : inverse3 A B -> inverse4 (S2ST A) (S2ST B).
Proof.
  intros H i j Hi Hj. unfold mul4, sum4, S2ST.
  assert (Q : forall a b, (a < 3)%nat -> (b < 3)%nat -> (A a 0%nat * B 0%nat b + A a 1%nat * B 1%nat b + A a 2%nat * B 2%nat b = delta a b)
    /\ (B a 0%nat * A 0%nat b + B a 1%nat * A 1%nat b + B a 2%nat * A 2%nat b = delta a b)) by (intros a b Ha Hb; apply (H a b Ha Hb)).
  destruct i as [|i]; destruct j as [|j]; cbn [Nat.eqb orb Nat.sub]; rewrite ?Nat.sub_0_r.
  - unfold delta; cbn; split; ring.
  - unfold delta; cbn; split; ring.
  - unfold delta; cbn; split; ring.
  - destruct (Q i j ltac:(lia) ltac:(lia)) as (Q1 & Q2). change (delta (S i) (S j)) with (delta i j). split; [rewrite <- Q1 | rewrite <- Q2]; cbn; ring.
Qed.

Section Fmks.
Variables (a : R) (m : MGR) (X : point).
Hypothesis (V : mgr_valid m) (H1 : mgr_x0 m <= X.[1]).
Let r := mgr_r m X.[1].
Let th := mgr_th m X.[1] X.[2].
Hypothesis HD : r * r - 2 * r + a * a <> 0.
Let gF := SpacetimeMetric (FMKS a m) X.
Let gB := BL_SpacetimeMetric a (row4 0 r th X.[3]).

Lemma mgr_r_pos (x : R) : 0 < mgr_r m x. Proof. apply exp_pos. Qed.
Lemma gB_pull : forall i j, (i < 4)%nat -> (j < 4)%nat -> gB i j = pull (SpacetimeMetric (SphericalKerrSchild a) (row4 0 r th X.[3])) (bl_to_ks_trans a r) i j.
Proof.
  intros i j Hi Hj. assert (P := mgr_r_pos X.[1]). fold r in P.
  assert (Q := proj1 (C36_bl_is_kerr_schild a (row4 0 r th X.[3]) ltac:(cbn; lra) ltac:(cbn; rewrite Rabs_pos_eq by lra; exact HD)) i j Hi Hj).
  cbn [row4] in Q. rewrite (Rabs_pos_eq r) in Q by lra. exact Q.
Qed.
Lemma gF_pull : forall i j, gF i j = pull (SpacetimeMetric (SphericalKerrSchild a) (row4 0 r th X.[3])) (S2ST (tr_Jcov (McKinneyGammieRyan m) X.[1] X.[2] X.[3])) i j.
Proof. intros i j. reflexivity. Qed.
Lemma fmks_ks u : eq4 (apply4 (S2ST (tr_Jcov (McKinneyGammieRyan m) X.[1] X.[2] X.[3])) (bl_to_fmks m X.[1] X.[2] X.[3] a u)) (bl_to_ks a r u).
Proof. apply (apply4_inverse _ _ (bl_to_ks a r u)). apply S2ST_inverse. now apply C13_mgr_inverse. Qed.
Lemma fmks_dot u : dot4 gF (bl_to_fmks m X.[1] X.[2] X.[3] a u) (bl_to_fmks m X.[1] X.[2] X.[3] a u) = dot4 gB u u.
Proof.
  rewrite (dot4_ext gB _ u u gB_pull) by (intros mu _; reflexivity). rewrite pull_dot. change (apply4 (bl_to_ks_trans a r) u) with (bl_to_ks a r u).
  change (dot4 gF) with (dot4 (pull (SpacetimeMetric (SphericalKerrSchild a) (row4 0 r th X.[3])) (S2ST (tr_Jcov (McKinneyGammieRyan m) X.[1] X.[2] X.[3])))).
  rewrite pull_dot. apply dot4_ext; [reflexivity | apply fmks_ks].
Qed.
Lemma fmks_lower u : lower4 gF (bl_to_fmks m X.[1] X.[2] X.[3] a u) 0%nat = lower4 gB u 0%nat.
Proof.
  rewrite (lower4_ext gB _ u u gB_pull) by (intros mu _; reflexivity). rewrite pull_lower0 by reflexivity. change (apply4 (bl_to_ks_trans a r) u) with (bl_to_ks a r u).
  change (lower4 gF) with (lower4 (pull (SpacetimeMetric (SphericalKerrSchild a) (row4 0 r th X.[3])) (S2ST (tr_Jcov (McKinneyGammieRyan m) X.[1] X.[2] X.[3])))).
  rewrite pull_lower0 by reflexivity. apply lower4_ext; [reflexivity | apply fmks_ks].
Qed.
Lemma fmks_g00 : gF 0%nat 0%nat = gB 0%nat 0%nat.
Proof.
  rewrite gB_pull by lia. rewrite gF_pull. unfold pull, sum4, S2ST, bl_to_ks_trans. cbn. ring.
Qed.
End Fmks.

Lemma fmks_three_plus_one a m X : mgr_valid m -> mgr_x0 m <= X.[1] -> 0 <= X.[2] <= 1 ->
  three_plus_one (Lapse (FMKS a m) X) (ContravariantShift (FMKS a m) X) (Metric (FMKS a m) X) (SpacetimeMetric (FMKS a m) X).
Proof. intros V H1 H2. assert (C := C13_fmks m a X V H1 H2). unfold consistent_at in C. eapply adm_tpo. exact C. Qed.
