From Coq Require Import Reals Arith ZArith Lia Lra.
From Flocq Require Import Core.
From Verif.Model Require Import Num LinearAlgebra.
From Verif.Spec Require Import Tensor.
From Verif.Proofs Require Import NumR TensorTac.
Local Open Scope R_scope.

Lemma DOP_R (a b c d : R) : DifferenceOfProducts a b c d = a * b - c * d.
Proof. unfold DifferenceOfProducts. cbn. ring. Qed.

Lemma Determinant_det3 A : Determinant A = det3 A.
Proof. unfold Determinant. tensor. ring. Qed.

Lemma symmetric3_eqs A : symmetric3 A ->
  A 1%nat 0%nat = A 0%nat 1%nat /\ A 2%nat 0%nat = A 0%nat 2%nat /\ A 2%nat 1%nat = A 1%nat 2%nat.
Proof. intros H. repeat split; apply H; lia. Qed.

Lemma inv3_det A : symmetric3 A -> snd (matrixInverse3x3 A) = det3 A.
Proof.
  intros H. destruct (symmetric3_eqs A H) as (E1 & E2 & E3).
  unfold matrixInverse3x3. cbn [snd]. rewrite !DOP_R. cbn [nfma Num_R]. tensor.
  rewrite E1, E2, E3. ring.
Qed.

(** what the code computes in general *)
Lemma inv3_entries A i j : (i < 3)%nat -> (j < 3)%nat ->
  let '(Ainv, d) := matrixInverse3x3 A in
  mul3 A Ainv i j = delta i j * det3 A / d /\ mul3 Ainv A i j = delta i j * det3 A / d.
Proof.
  intros Hi Hj. unfold matrixInverse3x3. cbv zeta. rewrite !DOP_R.
  set (d := nfma _ _ _). clearbody d. tensor. unfold Rdiv.
  generalize (/ d). intros e. idx; cbn; split; ring.
Qed.

Lemma inv3_inverse A : symmetric3 A -> det3 A <> 0 -> inverse3 A (fst (matrixInverse3x3 A)).
Proof.
  intros HS HD i j Hi Hj. pose proof (inv3_entries A i j Hi Hj) as H.
  pose proof (inv3_det A HS) as Hd. destruct (matrixInverse3x3 A) as [Ai d]. cbn in Hd |- *. subst d.
  destruct H as [-> ->]. split; field; exact HD.
Qed.

Lemma inv3_symmetric A : symmetric3 A -> symmetric3 (fst (matrixInverse3x3 A)).
Proof.
  intros H i j Hi Hj. destruct (symmetric3_eqs A H) as (E1 & E2 & E3).
  unfold matrixInverse3x3. cbv zeta. rewrite !DOP_R.
  set (d := nfma _ _ _). clearbody d. cbn [fst]. idx; cbn; rewrite ?E1, ?E2, ?E3; ring.
Qed.

Lemma solve2x2 A b : A.[0,0] * A.[1,1] - A.[0,1] * A.[1,0] <> 0 ->
  let x := SolveAxb2x2 A b in
  A.[0,0] * x.[0] + A.[0,1] * x.[1] = b.[0] /\ A.[1,0] * x.[0] + A.[1,1] * x.[1] = b.[1].
Proof. intros H. unfold SolveAxb2x2. cbv zeta. rewrite !DOP_R. split; field; exact H. Qed.

Lemma flatten_at A i j : (i < 4)%nat -> (j < 4)%nat -> flatten A (4 * i + j)%nat = A i j.
Proof. intros Hi Hj. unfold flatten. idx; reflexivity. Qed.

Lemma determinant_det4 A : determinant (flatten A) = det4 A.
Proof. unfold determinant, MINOR. tensor. unfold flatten. cbn [Nat.div Nat.modulo Nat.divmod Nat.add Nat.mul fst snd Nat.sub]. ring. Qed.

Lemma adj4 A i j : (i < 4)%nat -> (j < 4)%nat ->
  sum4 (fun k => A i k * adjoint (flatten A) (4 * k + j)%nat) = delta i j * det4 A /\
  sum4 (fun k => adjoint (flatten A) (4 * i + k)%nat * A k j) = delta i j * det4 A.
Proof.
  intros Hi Hj. rewrite <- determinant_det4.
  unfold determinant, adjoint, MINOR, sum4, delta, flatten.
  idx; cbn [Nat.div Nat.modulo Nat.divmod Nat.add Nat.mul fst snd Nat.sub Nat.eqb]; split; ring.
Qed.

Lemma inv4_inverse A : det4 A <> 0 -> inverse4 A (matrixInverse4x4 A).
Proof.
  intros HD i j Hi Hj. destruct (adj4 A i j Hi Hj) as [H1 H2].
  unfold matrixInverse4x4. rewrite determinant_det4. unfold mul4. split.
  - transitivity (sum4 (fun k => A i k * adjoint (flatten A) (4 * k + j)%nat) / det4 A).
    + unfold sum4. field. exact HD.
    + rewrite H1. field. exact HD.
  - transitivity (sum4 (fun k => adjoint (flatten A) (4 * i + k)%nat * A k j) / det4 A).
    + unfold sum4. field. exact HD.
    + rewrite H2. field. exact HD.
Qed.

(** uniqueness of inverses and invertibility <-> det <> 0 *)
Lemma det4_mul A B : det4 (mul4 A B) = det4 A * det4 B.
Proof. tensor. ring. Qed.
Lemma det3_mul A B : det3 (mul3 A B) = det3 A * det3 B.
Proof. tensor. ring. Qed.
Lemma det3_ext A B : (forall i j, (i < 3)%nat -> (j < 3)%nat -> A i j = B i j) -> det3 A = det3 B.
Proof. intros H. tensor. rewrite !H by lia. reflexivity. Qed.
Lemma det4_ext A B : (forall i j, (i < 4)%nat -> (j < 4)%nat -> A i j = B i j) -> det4 A = det4 B.
Proof. intros H. tensor. rewrite !H by lia. reflexivity. Qed.
Lemma det3_delta : det3 delta = 1.
Proof. tensor. cbn. ring. Qed.
Lemma det4_delta : det4 delta = 1.
Proof. tensor. cbn. ring. Qed.
Lemma inverse3_det A B : inverse3 A B -> det3 A * det3 B = 1.
Proof.
  intros H. rewrite <- det3_mul, <- det3_delta. apply det3_ext. intros. apply H; assumption.
Qed.
Lemma inverse4_det A B : inverse4 A B -> det4 A * det4 B = 1.
Proof.
  intros H. rewrite <- det4_mul, <- det4_delta. apply det4_ext. intros. apply H; assumption.
Qed.
Lemma inverse3_l A B : inverse3 A B -> forall i j, (i < 3)%nat -> (j < 3)%nat ->
  mul3 A B i j = delta i j.
Proof. intros H i j Hi Hj. exact (proj1 (H i j Hi Hj)). Qed.
Lemma inverse3_r A B : inverse3 A B -> forall i j, (i < 3)%nat -> (j < 3)%nat ->
  mul3 B A i j = delta i j.
Proof. intros H i j Hi Hj. exact (proj2 (H i j Hi Hj)). Qed.
Lemma inverse3_unique A B C : inverse3 A B -> inverse3 A C ->
  forall i j, (i < 3)%nat -> (j < 3)%nat -> B i j = C i j.
Proof.
  intros HB HC i j Hi Hj.
  (* B = B (A C) = (B A) C = C *)
  transitivity (mul3 B (mul3 A C) i j).
  - unfold mul3 at 1. unfold sum3. rewrite !(inverse3_l _ _ HC) by lia. unfold delta. idx; cbn; ring.
  - transitivity (mul3 (mul3 B A) C i j); [unfold mul3, sum3; ring|].
    unfold mul3 at 1. unfold sum3. rewrite !(inverse3_r _ _ HB) by lia. unfold delta. idx; cbn; ring.
Qed.
Lemma inverse4_l A B : inverse4 A B -> forall i j, (i < 4)%nat -> (j < 4)%nat ->
  mul4 A B i j = delta i j.
Proof. intros H i j Hi Hj. exact (proj1 (H i j Hi Hj)). Qed.
Lemma inverse4_r A B : inverse4 A B -> forall i j, (i < 4)%nat -> (j < 4)%nat ->
  mul4 B A i j = delta i j.
Proof. intros H i j Hi Hj. exact (proj2 (H i j Hi Hj)). Qed.
Lemma inverse4_unique A B C : inverse4 A B -> inverse4 A C ->
  forall i j, (i < 4)%nat -> (j < 4)%nat -> B i j = C i j.
Proof.
  intros HB HC i j Hi Hj.
  transitivity (mul4 B (mul4 A C) i j).
  - unfold mul4 at 1. unfold sum4. rewrite !(inverse4_l _ _ HC) by lia. unfold delta. idx; cbn; ring.
  - transitivity (mul4 (mul4 B A) C i j); [unfold mul4, sum4; ring|].
    unfold mul4 at 1. unfold sum4. rewrite !(inverse4_r _ _ HB) by lia. unfold delta. idx; cbn; ring.
Qed.
