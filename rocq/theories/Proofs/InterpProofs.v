From Coq Require Import Reals ZArith Lra Lia Bool.
From Flocq Require Import Core.
From Verif.Model Require Import Num Robust Geometry Interpolation.
From Verif.Spec Require Import InterpSpec.
From Verif.Proofs Require Import GeomBase.
Local Open Scope R_scope.


Lemma weights_eq a x : good_axis a ->
  exists ix, (0 <= ix <= ax_n a - 2)%Z /\
   weights a x = (ix, 1 - (x - node a ix) / ax_dx a, (x - node a ix) / ax_dx a) /\
   ix = Z.min (Z.max 0 (Ztrunc ((x - ax_min a) / ax_dx a))) (ax_n a - 2).
Proof.
  intros [Hd Hn]. unfold weights, GetWeights. rewrite gratio_nz by lra.
  set (ix := Z.min _ _). exists ix. split; [unfold ix; lia|].
  rewrite gratio_nz by lra. split; reflexivity.
Qed.

(** inside the table the point lies between the two nodes *)
Lemma weights_bracket a x : good_axis a -> node a 0 <= x <= node a (ax_n a - 1) ->
  let '(ix, w0, w1) := weights a x in
  node a ix <= x <= node a (ix + 1) /\ 0 <= w0 <= 1 /\ 0 <= w1 <= 1.
Proof.
  intros Hg Hx. destruct (weights_eq a x Hg) as (ix & Hi & -> & Ei). destruct Hg as [Hd Hn].
  unfold node in *. set (m := ax_min a) in *. set (d := ax_dx a) in *. set (n := ax_n a) in *.
  set (q := (x - m) / d) in *.
  assert (Eq : x = m + q * d) by (unfold q; field; lra).
  assert (Hq0 : 0 <= q). { unfold q. apply Rmult_le_pos; [lra|left; apply Rinv_0_lt_compat; lra]. }
  rewrite Ztrunc_floor in Ei by assumption.
  pose proof (Zfloor_lb q) as L. pose proof (Zfloor_ub q) as U.
  assert (F0 : (0 <= Zfloor q)%Z) by now apply Zfloor_lub.
  assert (B : IZR ix <= q <= IZR ix + 1).
  { destruct (Z_le_gt_dec (Zfloor q) (n - 2)).
    - replace ix with (Zfloor q) by lia. lra.
    - replace ix with (n - 2)%Z by lia.
      assert (IZR (n - 1) <= IZR (Zfloor q)) by (apply IZR_le; lia).
      replace (n - 1)%Z with (n - 2 + 1)%Z in * by lia. rewrite plus_IZR in *.
      split; [lra|].
      apply Rmult_le_reg_r with d; [assumption|]. lra. }
  rewrite plus_IZR. 
  replace ((x - (m + IZR ix * d)) / d) with (q - IZR ix) by (rewrite Eq; field; lra).
  assert (IZR ix * d <= q * d) by (apply Rmult_le_compat_r; lra).
  assert (q * d <= (IZR ix + 1) * d) by (apply Rmult_le_compat_r; lra).
  split; [lra|]. split; lra.
Qed.

Lemma weights_sum a x : good_axis a -> let '(_, w0, w1) := weights a x in w0 + w1 = 1.
Proof. intros H. destruct (weights_eq a x H) as (ix & _ & -> & _). ring. Qed.

(** the two nodes reproduce the position, also outside the table *)
Lemma weights_pos a x : good_axis a ->
  let '(ix, w0, w1) := weights a x in w0 * node a ix + w1 * node a (ix + 1) = x.
Proof.
  intros H. destruct (weights_eq a x H) as (ix & _ & -> & _). destruct H.
  unfold node. rewrite plus_IZR. field. lra.
Qed.

Lemma weights_node a i : good_axis a -> (0 <= i <= ax_n a - 1)%Z ->
  let '(ix, w0, w1) := weights a (node a i) in
  (i = ix /\ w0 = 1 /\ w1 = 0) \/ (i = (ix + 1)%Z /\ w0 = 0 /\ w1 = 1).
Proof.
  intros Hg Hi. destruct (weights_eq a (node a i) Hg) as (ix & Hix & -> & Ei). destruct Hg as [Hd Hn].
  unfold node in *.
  replace ((ax_min a + IZR i * ax_dx a - ax_min a) / ax_dx a) with (IZR i) in Ei by (field; lra).
  rewrite Ztrunc_IZR in Ei.
  replace ((ax_min a + IZR i * ax_dx a - (ax_min a + IZR ix * ax_dx a)) / ax_dx a) with (IZR i - IZR ix) by (field; lra).
  destruct (Z_le_gt_dec i (ax_n a - 2)).
  - left. assert (E : ix = i) by lia. clear Ei. rewrite E. repeat split; lra.
  - right. assert (E : (i = ix + 1)%Z) by lia. clear Ei. rewrite E, plus_IZR. repeat split; lra.
Qed.

(** blending of an arbitrary pair of values *)
Lemma blend_between w0 w1 a b lo hi : w0 + w1 = 1 -> 0 <= w0 -> 0 <= w1 ->
  lo <= a <= hi -> lo <= b <= hi -> lo <= w0 * a + w1 * b <= hi.
Proof.
  intros Hs H0 H1 Ha Hb.
  assert (0 <= w0 * (a - lo)) by (apply Rmult_le_pos; lra). assert (0 <= w1 * (b - lo)) by (apply Rmult_le_pos; lra).
  assert (0 <= w0 * (hi - a)) by (apply Rmult_le_pos; lra). assert (0 <= w1 * (hi - b)) by (apply Rmult_le_pos; lra).
  replace w0 with (1 - w1) in * by lra. lra.
Qed.


Lemma good_of a : 0 < ax_dx a -> (1 < ax_n a)%Z -> good_axis a.
Proof. intros; split; [assumption|lia]. Qed.


Lemma weights_neigh a x : good_axis a -> node a 0 <= x <= node a (ax_n a - 1) ->
  let '(ix, w0, w1) := weights a x in neighbour a x ix /\ neighbour a x (ix + 1) /\ 0 <= w0 /\ 0 <= w1 /\ w0 + w1 = 1.
Proof.
  intros Hg Hx. pose proof (weights_bracket a x Hg Hx) as B. pose proof (weights_sum a x Hg) as S.
  destruct (weights_eq a x Hg) as (ix & Hi & E & _). rewrite E in *. clear E.
  destruct B as ((L & U) & W0 & W1). destruct Hg as [Hd Hn].
  assert (N : node a (ix + 1) = node a ix + ax_dx a) by (unfold node; rewrite plus_IZR; ring).
  split; [|split; [|repeat split; try tauto; try lra]].
  - split; [lia|]. intros _. apply Rabs_le. lra.
  - split; [lia|]. intros _. apply Rabs_le. lra.
Qed.

Lemma Do_between a1 a2 a3 X1 X2 X3 p lo hi : used_axes a1 a2 a3 ->
  in_table a1 X1 -> in_table a2 X2 -> in_table a3 X3 ->
  (forall k j i, neighbour a3 X3 k -> neighbour a2 X2 j -> neighbour a1 X1 i -> lo <= p k j i <= hi) ->
  lo <= Do a1 a2 a3 X1 X2 X3 p <= hi.
Proof.
  intros (G1 & D2 & D3 & N2 & N3 & H32) T1 T2 T3 Hp. unfold Do.
  assert (n1 := proj2 G1).
  pose proof (weights_neigh a1 X1 G1 (T1 ltac:(lia))) as W1.
  destruct (Z.ltb_spec 1 (ax_n a3)) as [L3|L3].
  - pose proof (H32 L3) as L2.
    pose proof (weights_neigh a2 X2 (good_of a2 D2 L2) (T2 L2)) as W2.
    pose proof (weights_neigh a3 X3 (good_of a3 D3 L3) (T3 L3)) as W3.
    unfold Do3D. destruct (weights a1 X1) as [[i u0] u1]. destruct (weights a2 X2) as [[j v0] v1].
    destruct (weights a3 X3) as [[k w0] w1].
    destruct W1 as (A1 & A2 & ? & ? & ?). destruct W2 as (B1 & B2 & ? & ? & ?). destruct W3 as (C1 & C2 & ? & ? & ?).
    repeat (apply blend_between; try assumption); apply Hp; assumption.
  - assert (Z3 : neighbour a3 X3 0) by (split; lia).
    destruct (Z.ltb_spec 1 (ax_n a2)) as [L2|L2].
    + pose proof (weights_neigh a2 X2 (good_of a2 D2 L2) (T2 L2)) as W2.
      unfold Do2D. destruct (weights a1 X1) as [[i u0] u1]. destruct (weights a2 X2) as [[j v0] v1].
      destruct W1 as (A1 & A2 & ? & ? & ?). destruct W2 as (B1 & B2 & ? & ? & ?).
      repeat (apply blend_between; try assumption); apply Hp; assumption.
    + assert (Z2 : neighbour a2 X2 0) by (split; lia).
      unfold Do1D. destruct (weights a1 X1) as [[i u0] u1]. destruct W1 as (A1 & A2 & ? & ? & ?).
      repeat (apply blend_between; try assumption); apply Hp; assumption.
Qed.

(** value at a node *)
Lemma Do_node a1 a2 a3 p k j i : used_axes a1 a2 a3 ->
  (0 <= i < ax_n a1)%Z -> (0 <= j < ax_n a2)%Z -> (0 <= k < ax_n a3)%Z ->
  Do a1 a2 a3 (node a1 i) (node a2 j) (node a3 k) p = p k j i.
Proof.
  intros (G1 & D2 & D3 & N2 & N3 & H32) Hi Hj Hk. unfold Do.
  pose proof (weights_node a1 i G1 ltac:(lia)) as W1.
  destruct (Z.ltb_spec 1 (ax_n a3)) as [L3|L3].
  - pose proof (H32 L3) as L2.
    pose proof (weights_node a2 j (good_of a2 D2 L2) ltac:(lia)) as W2.
    pose proof (weights_node a3 k (good_of a3 D3 L3) ltac:(lia)) as W3.
    unfold Do3D. destruct (weights a1 (node a1 i)) as [[i' u0] u1]. destruct (weights a2 (node a2 j)) as [[j' v0] v1].
    destruct (weights a3 (node a3 k)) as [[k' w0] w1].
    destruct W1 as [(-> & -> & ->)|(-> & -> & ->)]; destruct W2 as [(-> & -> & ->)|(-> & -> & ->)];
      destruct W3 as [(-> & -> & ->)|(-> & -> & ->)]; ring.
  - assert (k = 0)%Z by lia. subst k.
    destruct (Z.ltb_spec 1 (ax_n a2)) as [L2|L2].
    + pose proof (weights_node a2 j (good_of a2 D2 L2) ltac:(lia)) as W2.
      unfold Do2D. destruct (weights a1 (node a1 i)) as [[i' u0] u1]. destruct (weights a2 (node a2 j)) as [[j' v0] v1].
      destruct W1 as [(-> & -> & ->)|(-> & -> & ->)]; destruct W2 as [(-> & -> & ->)|(-> & -> & ->)]; ring.
    + assert (j = 0)%Z by lia. subst j.
      unfold Do1D. destruct (weights a1 (node a1 i)) as [[i' u0] u1].
      destruct W1 as [(-> & -> & ->)|(-> & -> & ->)]; ring.
Qed.

(** exact for multilinear data, also when extrapolating *)
Lemma Do_multilinear a1 a2 a3 X1 X2 X3 (c : nat -> R) p : used_axes a1 a2 a3 ->
  (1 < ax_n a3)%Z ->
  (forall k j i, p k j i =
     let x := node a1 i in let y := node a2 j in let z := node a3 k in
     c 0%nat + c 1%nat * x + c 2%nat * y + c 3%nat * z + c 4%nat * (x * y)
     + c 5%nat * (y * z) + c 6%nat * (x * z) + c 7%nat * (x * y * z)) ->
  Do a1 a2 a3 X1 X2 X3 p =
     c 0%nat + c 1%nat * X1 + c 2%nat * X2 + c 3%nat * X3 + c 4%nat * (X1 * X2)
     + c 5%nat * (X2 * X3) + c 6%nat * (X1 * X3) + c 7%nat * (X1 * X2 * X3).
Proof.
  intros (G1 & D2 & D3 & N2 & N3 & H32) L3 Hp. pose proof (H32 L3) as L2. unfold Do.
  destruct (Z.ltb_spec 1 (ax_n a3)); [|lia].
  pose proof (weights_pos a1 X1 G1) as P1. pose proof (weights_sum a1 X1 G1) as S1.
  pose proof (weights_pos a2 X2 (good_of a2 D2 L2)) as P2. pose proof (weights_sum a2 X2 (good_of a2 D2 L2)) as S2.
  pose proof (weights_pos a3 X3 (good_of a3 D3 L3)) as P3. pose proof (weights_sum a3 X3 (good_of a3 D3 L3)) as S3.
  unfold Do3D. destruct (weights a1 X1) as [[i u0] u1]. destruct (weights a2 X2) as [[j v0] v1].
  destruct (weights a3 X3) as [[k w0] w1].
  rewrite !Hp. cbv zeta. rewrite <- P1, <- P2, <- P3.
  replace u0 with (1 - u1) by lra. replace v0 with (1 - v1) by lra. replace w0 with (1 - w1) by lra. ring.
Qed.

Lemma Do_affine_1d a1 a2 a3 X1 X2 X3 c0 c1 p : good_axis a1 -> (ax_n a2 = 1)%Z -> (ax_n a3 = 1)%Z ->
  (forall i, p 0%Z 0%Z i = c0 + c1 * node a1 i) -> Do a1 a2 a3 X1 X2 X3 p = c0 + c1 * X1.
Proof.
  intros G1 E2 E3 Hp. unfold Do. rewrite E2, E3. change (1 <? 1)%Z with false. cbv iota.
  pose proof (weights_pos a1 X1 G1) as P1. pose proof (weights_sum a1 X1 G1) as S1.
  unfold Do1D. destruct (weights a1 X1) as [[i u0] u1]. rewrite !Hp, <- P1. replace u0 with (1 - u1) by lra. ring.
Qed.
Lemma Do_affine_2d a1 a2 a3 X1 X2 X3 c0 c1 c2 c3 p : good_axis a1 -> good_axis a2 -> (ax_n a3 = 1)%Z ->
  (forall j i, p 0%Z j i = c0 + c1 * node a1 i + c2 * node a2 j + c3 * (node a1 i * node a2 j)) ->
  Do a1 a2 a3 X1 X2 X3 p = c0 + c1 * X1 + c2 * X2 + c3 * (X1 * X2).
Proof.
  intros G1 G2 E3 Hp. unfold Do. rewrite E3. change (1 <? 1)%Z with false. cbv iota. destruct (Z.ltb_spec 1 (ax_n a2)); [|destruct G2; lia].
  pose proof (weights_pos a1 X1 G1) as P1. pose proof (weights_sum a1 X1 G1) as S1.
  pose proof (weights_pos a2 X2 G2) as P2. pose proof (weights_sum a2 X2 G2) as S2.
  unfold Do2D. destruct (weights a1 X1) as [[i u0] u1]. destruct (weights a2 X2) as [[j v0] v1].
  rewrite !Hp, <- P1, <- P2. replace u0 with (1 - u1) by lra. replace v0 with (1 - v1) by lra. ring.
Qed.

(** every access is inside the table *)
Lemma weights_index a x : good_axis a -> let '(ix, _, _) := weights a x in (0 <= ix /\ ix + 1 < ax_n a)%Z.
Proof. intros H. destruct (weights_eq a x H) as (ix & Hi & -> & _). lia. Qed.
