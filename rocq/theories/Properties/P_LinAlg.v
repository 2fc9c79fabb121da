(** C09: small dense linear algebra.  Vocabulary in Spec/Tensor.v. *)
From Coq Require Import Reals Arith ZArith Lia Lra.
From Verif.Model Require Import Num LinearAlgebra.
From Verif.Spec Require Import Tensor.
From Verif.Proofs Require Import NumR TensorTac LinearAlgebraProofs.
Local Open Scope R_scope.

Theorem C09_determinant3 : forall A, Determinant A = det3 A.
Proof. exact Determinant_det3. Qed.
Print Assumptions C09_determinant3.

Theorem C09_determinant4 : forall A, determinant (flatten A) = det4 A.
Proof. exact determinant_det4. Qed.
Print Assumptions C09_determinant4.

(** the specification determinants are the determinant: multiplicative, one on the
    identity, nonzero on invertible matrices *)
Theorem C09_det_spec : (forall A B, det3 (mul3 A B) = det3 A * det3 B) /\
  (forall A B, det4 (mul4 A B) = det4 A * det4 B) /\ det3 delta = 1 /\ det4 delta = 1 /\
  (forall A B, inverse3 A B -> det3 A * det3 B = 1) /\
  (forall A B, inverse4 A B -> det4 A * det4 B = 1).
Proof.
  repeat split; [exact det3_mul|exact det4_mul|exact det3_delta|exact det4_delta
    |exact inverse3_det|exact inverse4_det].
Qed.
Print Assumptions C09_det_spec.

(** every nonsingular 4x4 matrix *)
Theorem C09_inverse4 : forall A, det4 A <> 0 -> inverse4 A (matrixInverse4x4 A).
Proof. exact inv4_inverse. Qed.
Print Assumptions C09_inverse4.
Example C09_inverse4_nonvacuous :
  det4 (rows4 (row4 0 1 0 0) (row4 2 0 0 0) (row4 0 5 0 1) (row4 0 0 1 0)) = 2.
Proof. tensor. cbn. ring. Qed.

(** every nonsingular symmetric 3x3 matrix: the inverse, its symmetry and the
    returned determinant *)
Theorem C09_inverse3_symmetric : forall A, symmetric3 A -> det3 A <> 0 ->
  inverse3 A (fst (matrixInverse3x3 A)) /\ symmetric3 (fst (matrixInverse3x3 A)) /\
  snd (matrixInverse3x3 A) = det3 A.
Proof.
  intros A HS HD. split; [exact (inv3_inverse A HS HD)|].
  split; [exact (inv3_symmetric A HS)|exact (inv3_det A HS)].
Qed.
Print Assumptions C09_inverse3_symmetric.
Example C09_inverse3_nonvacuous :
  let A := rows3 (row3 2 1 0) (row3 1 2 0) (row3 0 0 1) in symmetric3 A /\ det3 A = 3.
Proof. split; [intros i j Hi Hj; idx; reflexivity|tensor; cbn; ring]. Qed.

(** for a non-symmetric matrix the determinant is expanded along the first column
    with the cofactors of the first row, so both results are wrong *)
Theorem C09_inverse3_general_refuted :
  let A := rows3 (row3 2 0 0) (row3 1 1 0) (row3 0 0 1) in
  det3 A = 2 /\ snd (matrixInverse3x3 A) = 1 /\ ~ inverse3 A (fst (matrixInverse3x3 A)).
Proof.
  cbv zeta. set (A := rows3 _ _ _).
  assert (D : det3 A = 2) by (tensor; cbn; ring).
  assert (S : snd (matrixInverse3x3 A) = 1).
  { unfold matrixInverse3x3. cbn [snd]. rewrite !DOP_R. cbn. ring. }
  split; [exact D|]. split; [exact S|]. intros H.
  pose proof (inv3_entries A 0 0 ltac:(lia) ltac:(lia)) as E.
  destruct (H 0%nat 0%nat ltac:(lia) ltac:(lia)) as [H1 _].
  destruct (matrixInverse3x3 A) as [Ai d]. cbn in S, H1. destruct E as [E _].
  rewrite E, D, S in H1. unfold delta in H1. cbn in H1. lra.
Qed.
Print Assumptions C09_inverse3_general_refuted.

Theorem C09_solve2x2 : forall A b, A.[0,0] * A.[1,1] - A.[0,1] * A.[1,0] <> 0 ->
  let x := SolveAxb2x2 A b in
  A.[0,0] * x.[0] + A.[0,1] * x.[1] = b.[0] /\ A.[1,0] * x.[0] + A.[1,1] * x.[1] = b.[1].
Proof. exact solve2x2. Qed.
Print Assumptions C09_solve2x2.
Example C09_solve2x2_nonvacuous : 3 * 1 - 2 * 1 <> 0. Proof. lra. Qed.

(** inverses are unique, so the results above are the inverse *)
Theorem C09_inverse_unique :
  (forall A B C, inverse3 A B -> inverse3 A C -> forall i j, (i < 3)%nat -> (j < 3)%nat -> B i j = C i j) /\
  (forall A B C, inverse4 A B -> inverse4 A C -> forall i j, (i < 4)%nat -> (j < 4)%nat -> B i j = C i j).
Proof. split; [exact inverse3_unique|exact inverse4_unique]. Qed.
Print Assumptions C09_inverse_unique.
