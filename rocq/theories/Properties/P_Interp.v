(** C26: interpolation on the cell-centred grid (phoebus_interpolation.hpp).  Vocabulary
    in Spec/InterpSpec.v.  Exact real arithmetic. *)
From Coq Require Import Reals ZArith Lra Lia Bool.
From Flocq Require Import Core.
From Verif.Model Require Import Num Robust Geometry Interpolation.
From Verif.Spec Require Import InterpSpec.
From Verif.Proofs Require Import GeomBase InterpProofs.
Local Open Scope R_scope.

(** For EVERY position, also far outside the block, both indices read are inside the
    table and the weights sum to one and reproduce the position. *)
Theorem C26_index_and_weights : forall a x, good_axis a ->
  let '(ix, w0, w1) := weights a x in
  (0 <= ix /\ ix + 1 < ax_n a)%Z /\ w0 + w1 = 1 /\ w0 * node a ix + w1 * node a (ix + 1) = x.
Proof.
  intros a x H. pose proof (weights_index a x H) as I. pose proof (weights_sum a x H) as S.
  pose proof (weights_pos a x H) as P. destruct (weights a x) as [[ix w0] w1]. tauto.
Qed.
Print Assumptions C26_index_and_weights.

(** Inside the table the two nodes bracket the position and both weights are in [0,1]. *)
Theorem C26_bracket : forall a x, good_axis a -> node a 0 <= x <= node a (ax_n a - 1) ->
  let '(ix, w0, w1) := weights a x in
  node a ix <= x <= node a (ix + 1) /\ 0 <= w0 <= 1 /\ 0 <= w1 <= 1.
Proof. exact weights_bracket. Qed.
Print Assumptions C26_bracket.

(** Do returns the tabulated value at every node of a 1-D, 2-D or 3-D block. *)
Theorem C26_node : forall a1 a2 a3 p k j i, used_axes a1 a2 a3 ->
  (0 <= i < ax_n a1)%Z -> (0 <= j < ax_n a2)%Z -> (0 <= k < ax_n a3)%Z ->
  Do a1 a2 a3 (node a1 i) (node a2 j) (node a3 k) p = p k j i.
Proof. exact Do_node. Qed.
Print Assumptions C26_node.

(** Inside the table the result lies between the values at the neighbouring nodes. *)
Theorem C26_between : forall a1 a2 a3 X1 X2 X3 p lo hi, used_axes a1 a2 a3 ->
  in_table a1 X1 -> in_table a2 X2 -> in_table a3 X3 ->
  (forall k j i, neighbour a3 X3 k -> neighbour a2 X2 j -> neighbour a1 X1 i -> lo <= p k j i <= hi) ->
  lo <= Do a1 a2 a3 X1 X2 X3 p <= hi.
Proof. exact Do_between. Qed.
Print Assumptions C26_between.

(** Exactness for (multi)linear data, at every position: extrapolation is linear too. *)
Theorem C26_affine_1d : forall a1 a2 a3 X1 X2 X3 c0 c1 p, good_axis a1 ->
  (ax_n a2 = 1)%Z -> (ax_n a3 = 1)%Z ->
  (forall i, p 0%Z 0%Z i = c0 + c1 * node a1 i) -> Do a1 a2 a3 X1 X2 X3 p = c0 + c1 * X1.
Proof. exact Do_affine_1d. Qed.
Print Assumptions C26_affine_1d.
Theorem C26_multilinear_2d : forall a1 a2 a3 X1 X2 X3 c0 c1 c2 c3 p, good_axis a1 ->
  good_axis a2 -> (ax_n a3 = 1)%Z ->
  (forall j i, p 0%Z j i = c0 + c1 * node a1 i + c2 * node a2 j + c3 * (node a1 i * node a2 j)) ->
  Do a1 a2 a3 X1 X2 X3 p = c0 + c1 * X1 + c2 * X2 + c3 * (X1 * X2).
Proof. exact Do_affine_2d. Qed.
Print Assumptions C26_multilinear_2d.
Theorem C26_multilinear_3d : forall a1 a2 a3 X1 X2 X3 (c : nat -> R) p, used_axes a1 a2 a3 ->
  (1 < ax_n a3)%Z ->
  (forall k j i, p k j i =
     let x := node a1 i in let y := node a2 j in let z := node a3 k in
     c 0%nat + c 1%nat * x + c 2%nat * y + c 3%nat * z + c 4%nat * (x * y)
     + c 5%nat * (y * z) + c 6%nat * (x * z) + c 7%nat * (x * y * z)) ->
  Do a1 a2 a3 X1 X2 X3 p =
     c 0%nat + c 1%nat * X1 + c 2%nat * X2 + c 3%nat * X3 + c 4%nat * (X1 * X2)
     + c 5%nat * (X2 * X3) + c 6%nat * (X1 * X3) + c 7%nat * (X1 * X2 * X3).
Proof. exact Do_multilinear. Qed.
Print Assumptions C26_multilinear_3d.

Definition ax4 : Axis := mkAxis (-1) (1 / 2) 4.
Definition ax1 : Axis := mkAxis 3 2 1.
Example C26_nonvacuous : used_axes ax4 ax4 ax4 /\ used_axes ax4 ax1 ax1 /\ in_table ax4 (1 / 5) /\
  neighbour ax4 (1 / 5) 2 /\ ~ neighbour ax4 (1 / 5) 1.
Proof.
  assert (B : Rabs (1 / 5 - node ax4 2) <= 1 / 2) by (apply Rabs_le; unfold node; cbn; lra).
  assert (N : ~ Rabs (1 / 5 - node ax4 1) <= 1 / 2).
  { intros H. apply Rabs_le_inv in H. unfold node in H. cbn in H. lra. }
  unfold used_axes, good_axis, in_table, neighbour; cbn.
  repeat split; try lia; try lra; try (unfold node; cbn; lra); try exact B.
  intros [_ H]. apply N. apply H. lia.
Qed.

(** Along an axis with a single node the index would be -1, outside the table: the
    dispatch in Do on the extents is what makes this unreachable. *)
Theorem C26_single_node_index : forall x min dx, fst (fst (GetWeights x min dx 1)) = (-1)%Z.
Proof. intros. unfold GetWeights. cbn [fst]. lia. Qed.
Print Assumptions C26_single_node_index.

(** PiecewiseConstant (used to shift groups between energy bins): an entry inside the
    support is reproduced with weight one, outside the data are forced to zero, and the
    index is always inside the table. *)
Theorem C26_piecewise_constant : forall n sh i, (0 < n)%Z ->
  let '(idx, w) := pc_indices n sh i in
  (0 <= idx < n)%Z /\
  ((0 <= i + sh < n)%Z -> idx = (i + sh)%Z /\ w = 1) /\
  (~ (0 <= i + sh < n)%Z -> w = 0).
Proof.
  intros n sh i Hn. unfold pc_indices.
  destruct (Z.ltb_spec (i + sh) 0), (Z.leb_spec n (i + sh)); cbn; repeat split; try lia; intros; lia.
Qed.
Print Assumptions C26_piecewise_constant.
