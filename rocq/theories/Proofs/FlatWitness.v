(** Flat space, used by concrete examples. *)
From Coq Require Import Reals Arith Lia Lra Psatz Bool.
From Flocq Require Import Core.
From Verif.Spec Require Import Tensor GeomSpec SystemSpec Relativity GRMHD.
From Verif.Model Require Import Num Robust Geometry Relativity Prim2Con.
From Verif.Proofs Require Import NumR RobustProofs TensorTac LinearAlgebraProofs GeomBase AdmProofs RelProofs RelativityProofs Prim2ConProofs.
Local Open Scope R_scope.

Definition eta4 : mat := fun i j => if Nat.eqb i j then (if Nat.eqb i 0 then -1 else 1) else 0.
Definition v3 (a b c : R) : vec := fun i => match i with 0%nat => a | 1%nat => b | _ => c end.
Definition zero3 : vec := fun _ => 0.
Lemma eta4_consistent : adm_consistent 1 zero3 eta4 eta4 delta delta 1 1.
Proof.
  unfold zero3. split; try lra.
  - intros i j Hi Hj. idx; reflexivity.
  - intros x (k & Hk & Hx). unfold dot3, sum3, delta; cbn [Nat.eqb].
    assert (forall y, 0 <= y * y) by (intros; apply Rle_0_sqr).
    pose proof (H (x 0%nat)); pose proof (H (x 1%nat)); pose proof (H (x 2%nat)).
    assert (0 < x k * x k) by (apply Rsqr_pos_lt in Hx; exact Hx).
    destruct k as [|[|[|]]]; try lia; lra.
  - intros i j Hi Hj. idx; reflexivity.
  - unfold eta4, dot3, sum3; cbn. lra.
  - intros i Hi. unfold eta4, lower3, sum3; cbn. ring.
  - intros i j _ _. reflexivity.
  - intros i j Hi Hj. idx; unfold eta4, delta, mul4, sum4; cbn; lra.
  - intros i j Hi Hj. idx; unfold delta, mul3, sum3; cbn; lra.
  - split; [lra|]. tensor. lra.
  - split; [lra|]. unfold eta4; tensor. lra.
Qed.
