From Coq Require Import Reals Arith Lia Lra.
From Verif.Spec Require Import Tensor.
Local Open Scope R_scope.

Lemma lt3_cases i : (i < 3)%nat -> i = 0%nat \/ i = 1%nat \/ i = 2%nat. Proof. lia. Qed.
Lemma lt4_cases i : (i < 4)%nat -> i = 0%nat \/ i = 1%nat \/ i = 2%nat \/ i = 3%nat. Proof. lia. Qed.

(** case split on every bounded index *)
Ltac idx := repeat match goal with
  | H : (?i < 3)%nat |- _ => is_var i; destruct (lt3_cases i H) as [->|[->| ->]]; clear H
  | H : (?i < 4)%nat |- _ => is_var i; destruct (lt4_cases i H) as [->|[->|[->| ->]]]; clear H
  end.

(** unfold the spec-level sums *)
Ltac tensor := unfold mul3, mul4, transpose, dot3, dot4, lower3, lower4, sum3, sum4, det4, det3, det2,
  minor, skip, delta in *; cbn [Nat.ltb Nat.leb Nat.eqb row3 row4 rows3 rows4] in *.

Lemma pd_diag3 a b c : 0 < a -> 0 < b -> 0 < c ->
  positive_definite3 (fun i j => if Nat.eqb i j then row3 a b c i else 0).
Proof.
  intros Ha Hb Hc v (i & Hi & Hv). unfold dot3, sum3. cbn.
  assert (0 <= v 0%nat * v 0%nat) by apply Rle_0_sqr.
  assert (0 <= v 1%nat * v 1%nat) by apply Rle_0_sqr.
  assert (0 <= v 2%nat * v 2%nat) by apply Rle_0_sqr.
  assert (0 < v i * v i) by (apply Rsqr_pos_lt; exact Hv).
  assert (0 <= a * (v 0%nat * v 0%nat)) by (apply Rmult_le_pos; lra).
  assert (0 <= b * (v 1%nat * v 1%nat)) by (apply Rmult_le_pos; lra).
  assert (0 <= c * (v 2%nat * v 2%nat)) by (apply Rmult_le_pos; lra).
  idx.
  - assert (0 < a * (v 0%nat * v 0%nat)) by (apply Rmult_lt_0_compat; lra). lra.
  - assert (0 < b * (v 1%nat * v 1%nat)) by (apply Rmult_lt_0_compat; lra). lra.
  - assert (0 < c * (v 2%nat * v 2%nat)) by (apply Rmult_lt_0_compat; lra). lra.
Qed.
