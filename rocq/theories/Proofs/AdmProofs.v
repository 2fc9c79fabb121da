(** Consequences of the 3+1 decomposition used by several properties. *)
From Coq Require Import Reals Arith Lia Lra.
From Coquelicot Require Import Coquelicot.
From Verif.Spec Require Import Tensor GeomSpec.
From Verif.Proofs Require Import TensorTac LinearAlgebraProofs.
Local Open Scope R_scope.

Lemma inverse3_symmetric A B : symmetric3 A -> inverse3 A B -> symmetric3 B.
Proof.
  intros Hs HB.
  assert (HT : inverse3 A (fun i j => B j i)).
  { intros i j Hi Hj. destruct (HB j i Hj Hi) as [E1 E2].
    assert (Dl : delta i j = delta j i) by (unfold delta; idx; reflexivity).
    rewrite Dl. unfold mul3, sum3 in *. split.
    - rewrite <- E2. rewrite (Hs i 0%nat), (Hs i 1%nat), (Hs i 2%nat) by lia. ring.
    - rewrite <- E1. rewrite (Hs 0%nat j), (Hs 1%nat j), (Hs 2%nat j) by lia. ring. }
  intros i j Hi Hj. exact (inverse3_unique A B _ HB HT i j Hi Hj).
Qed.

Definition adm_inv_mat (alpha : R) (beta : vec) (gi : mat) : mat := fun mu nu =>
  match mu, nu with
  | O, O => - (1 / (alpha * alpha))
  | O, S n => beta n / (alpha * alpha)
  | S n, O => beta n / (alpha * alpha)
  | S p, S q => gi p q - beta p / (alpha * alpha) * (beta q / (alpha * alpha)) * (alpha * alpha)
  end.

Section A.
Variables (alpha : R) (beta : vec) (g ginv gamma gi : mat) (sg sgg : R).
Hypothesis H : adm_consistent alpha beta g ginv gamma gi sg sgg.
Let a0 := adm_lapse_pos _ _ _ _ _ _ _ _ H.

Lemma adm_gi0 i : (i < 3)%nat -> g (S i) 0%nat = lower3 gamma beta i.
Proof. intros Hi. rewrite (adm_g_sym _ _ _ _ _ _ _ _ H) by lia. now apply (adm_g0i _ _ _ _ _ _ _ _ H). Qed.

(** raising the lowered shift *)
Lemma raise_lower j : (j < 3)%nat ->
  lower3 gamma beta 0%nat * gi 0%nat j + lower3 gamma beta 1%nat * gi 1%nat j + lower3 gamma beta 2%nat * gi 2%nat j = beta j.
Proof.
  intros Hj. pose proof (adm_inv3 _ _ _ _ _ _ _ _ H) as I. pose proof (adm_gamma_sym _ _ _ _ _ _ _ _ H) as Sy.
  transitivity (beta 0%nat * mul3 gamma gi 0%nat j + beta 1%nat * mul3 gamma gi 1%nat j + beta 2%nat * mul3 gamma gi 2%nat j).
  - unfold lower3, mul3, sum3. rewrite (Sy 1 0)%nat, (Sy 2 0)%nat, (Sy 2 1)%nat by lia. ring.
  - rewrite !(inverse3_l _ _ I) by lia. unfold delta. idx; cbn; ring.
Qed.

Lemma adm_product i j : (i < 4)%nat -> (j < 4)%nat -> mul4 g (adm_inv_mat alpha beta gi) i j = delta i j.
Proof.
  intros Hi Hj. assert (A : alpha <> 0) by (pose proof a0; lra).
  pose proof (adm_inv3 _ _ _ _ _ _ _ _ H) as I. 
  assert (E00 := adm_g00 _ _ _ _ _ _ _ _ H).
  assert (E0 := adm_g0i _ _ _ _ _ _ _ _ H).
  assert (Ei := adm_gi0).
  assert (Eij := adm_gij _ _ _ _ _ _ _ _ H).
  assert (D : dot3 gamma beta beta = lower3 gamma beta 0%nat * beta 0%nat + lower3 gamma beta 1%nat * beta 1%nat + lower3 gamma beta 2%nat * beta 2%nat).
  { unfold dot3, lower3, sum3. ring. }
  assert (L : forall p, (p < 3)%nat -> lower3 gamma beta p = gamma p 0%nat * beta 0%nat + gamma p 1%nat * beta 1%nat + gamma p 2%nat * beta 2%nat) by reflexivity.
  unfold mul4, sum4. destruct i as [|p], j as [|q].
  - rewrite E00, !E0, D by lia. cbn [adm_inv_mat]. unfold delta; cbn [Nat.eqb]. field. exact A.
  - rewrite E00, !E0, D by lia. cbn [adm_inv_mat]. unfold delta; cbn [Nat.eqb].
    transitivity (- beta q + (lower3 gamma beta 0%nat * gi 0%nat q + lower3 gamma beta 1%nat * gi 1%nat q + lower3 gamma beta 2%nat * gi 2%nat q)).
    + field. exact A.
    + rewrite raise_lower by lia. ring.
  - rewrite Ei, !Eij by lia. rewrite L by lia. cbn [adm_inv_mat]. unfold delta; cbn [Nat.eqb]. field. exact A.
  - rewrite Ei, !Eij by lia. rewrite L by lia. cbn [adm_inv_mat].
    transitivity (mul3 gamma gi p q).
    + unfold mul3, sum3. field. exact A.
    + rewrite (inverse3_l _ _ I) by lia. reflexivity.
Qed.

(** the inverse spacetime metric in 3+1 form *)
Lemma adm_inverse mu nu : (mu < 4)%nat -> (nu < 4)%nat -> ginv mu nu = adm_inv_mat alpha beta gi mu nu.
Proof.
  intros Hm Hn. pose proof (adm_inv4 _ _ _ _ _ _ _ _ H) as I.
  set (C := adm_inv_mat alpha beta gi).
  transitivity (mul4 ginv (mul4 g C) mu nu).
  - unfold mul4 at 1. unfold sum4. unfold C. rewrite !adm_product by lia. unfold delta. idx; cbn; ring.
  - transitivity (mul4 (mul4 ginv g) C mu nu); [unfold mul4, sum4; ring|].
    unfold mul4 at 1. unfold sum4. rewrite !(inverse4_r _ _ I) by lia. unfold delta. idx; cbn; ring.
Qed.
End A.
