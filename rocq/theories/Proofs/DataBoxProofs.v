(** Linear interpolation on a regular grid. *)
From Coq Require Import Reals ZArith List Lia Lra Arith.
From Coquelicot Require Import Coquelicot.
From Flocq Require Import Core.
From Verif.Model Require Import MonopoleGR DataBox.
Local Open Scope R_scope.

Section Table.
Variables (G : Grid) (d : nat -> R).
Hypotheses (Hdx : 0 < g_dx G) (Hn : (2 <= g_n G)%nat).

Lemma grid_x_lt (i j : nat) : (i < j)%nat -> grid_x G i < grid_x G j.
Proof. intros H. unfold grid_x. apply lt_INR in H. nra. Qed.
Lemma grid_x_le (i j : nat) : (i <= j)%nat -> grid_x G i <= grid_x G j.
Proof. intros H. unfold grid_x. apply le_INR in H. nra. Qed.
Lemma grid_x_S (i : nat) : grid_x G (S i) = grid_x G i + g_dx G.
Proof. unfold grid_x. rewrite S_INR. ring. Qed.

Lemma grid_index_spec (x : R) : let k := grid_index G x in
  (k <= g_n G - 2)%nat /\ (k = 0%nat \/ grid_x G k <= x) /\ (k = (g_n G - 2)%nat \/ x < grid_x G (S k)).
Proof.
  intros k. set (t := (x - g_min G) / g_dx G).
  assert (Ex : x = t * g_dx G + g_min G) by (unfold t; field; lra).
  split; [unfold k, grid_index; lia|].
  destruct (Rlt_or_le t 0) as [L|L].
  - assert (K : k = 0%nat).
    { unfold k, grid_index. fold t. pose proof (Ztrunc_le t 0 (Rlt_le _ _ L)) as Z. rewrite Ztrunc_IZR in Z.
      assert (Ztrunc t <= 0)%Z by exact Z. replace (Z.to_nat (Ztrunc t)) with 0%nat by lia. reflexivity. }
    rewrite K. split; [left; reflexivity|right]. unfold grid_x. rewrite Ex. cbn [INR]. nra.
  - assert (F : IZR (Ztrunc t) <= t < IZR (Ztrunc t) + 1).
    { rewrite (Ztrunc_floor t L). pose proof (Zfloor_lb t). pose proof (Zfloor_ub t). lra. }
    assert (Z0 : (0 <= Ztrunc t)%Z).
    { apply (Ztrunc_le 0 t) in L. rewrite Ztrunc_IZR in L. exact L. }
    assert (N : INR (Z.to_nat (Ztrunc t)) = IZR (Ztrunc t)) by (rewrite INR_IZR_INZ, Z2Nat.id; auto).
    unfold k, grid_index. fold t. set (m := Z.to_nat (Ztrunc t)) in *.
    destruct (le_lt_dec m (g_n G - 2)) as [C|C].
    + rewrite Nat.min_l by auto. split; right.
      * unfold grid_x. rewrite N, Ex. nra.
      * unfold grid_x. rewrite S_INR, N, Ex. nra.
    + rewrite Nat.min_r by lia. split; [right|left; reflexivity].
      apply Rle_trans with (grid_x G m); [apply grid_x_le; lia|]. unfold grid_x. rewrite N, Ex. nra.
Qed.

Lemma interp_on (k : nat) (x : R) : grid_index G x = k -> interpToReal G d x = d k + (d (S k) - d k) * ((x - grid_x G k) / g_dx G).
Proof. intros E. unfold interpToReal. rewrite E. ring. Qed.

(** in cell k the interpolant is the straight line *)
Lemma interp_cell (k : nat) (x : R) : (S k < g_n G)%nat -> grid_x G k <= x <= grid_x G (S k) ->
  interpToReal G d x = d k + (d (S k) - d k) * ((x - grid_x G k) / g_dx G).
Proof.
  intros Hk [H1 H2]. destruct (grid_index_spec x) as (A & B & C). set (m := grid_index G x) in *.
  rewrite (interp_on m x eq_refl).
  destruct (lt_eq_lt_dec m k) as [[L|E]|L].
  - exfalso. destruct C as [C|C]; [lia|]. pose proof (grid_x_le (S m) k ltac:(lia)). lra.
  - rewrite E. reflexivity.
  - destruct B as [B|B]; [lia|].
    destruct (Nat.eq_dec m (S k)) as [E|N].
    + assert (X : x = grid_x G (S k)) by (rewrite E in B; lra). rewrite E, X, grid_x_S. field. lra.
    + exfalso. pose proof (grid_x_lt (S k) m ltac:(lia)). lra.
Qed.
Lemma interp_node (i : nat) : (i < g_n G)%nat -> interpToReal G d (grid_x G i) = d i.
Proof.
  intros Hi. destruct i as [|i].
  - rewrite (interp_cell 0) by (try lia; rewrite grid_x_S; lra). unfold Rdiv. ring.
  - rewrite (interp_cell i) by (try lia; rewrite grid_x_S; lra). rewrite grid_x_S. field. lra.
Qed.
(** every point of the grid's range is in a cell *)
Lemma cell_of (x : R) : grid_x G 0 <= x <= grid_x G (g_n G - 1) -> exists k, (S k < g_n G)%nat /\ grid_x G k <= x <= grid_x G (S k).
Proof.
  intros [H1 H2]. destruct (grid_index_spec x) as (A & B & C). set (m := grid_index G x) in *.
  exists m. split; [lia|]. split.
  - destruct B as [B|B]; [rewrite B; exact H1|exact B].
  - destruct C as [C|C]; [|lra]. replace (S m) with (g_n G - 1)%nat by lia. exact H2.
Qed.

(** ** continuity: the interpolant as a sum of clamped ramps *)
Definition ramp (i : nat) (x : R) : R :=
  let t := (x - grid_x G i) / g_dx G in
  let t := if Nat.eqb i 0 then t else Rmax 0 t in
  if Nat.eqb i (g_n G - 2) then t else Rmin 1 t.
Fixpoint ramps (m : nat) (x : R) : R :=
  match m with O => 0 | S m => ramps m x + (d (S m) - d m) * ramp m x end.
Lemma ramp_t (i : nat) (x : R) : (x - grid_x G i) / g_dx G = (x - g_min G) / g_dx G - INR i.
Proof. unfold grid_x. field. lra. Qed.
Lemma interp_ramps (x : R) : interpToReal G d x = d 0%nat + ramps (g_n G - 1) x.
Proof.
  destruct (grid_index_spec x) as (A & B & C). set (k := grid_index G x) in *.
  rewrite (interp_on k x eq_refl).
  set (t := (x - g_min G) / g_dx G).
  assert (Ex : x = t * g_dx G + g_min G) by (unfold t; field; lra).
  assert (B' : k = 0%nat \/ INR k <= t).
  { destruct B as [B|B]; [left; exact B|right]. unfold grid_x in B. rewrite Ex in B. nra. }
  assert (C' : k = (g_n G - 2)%nat \/ t < INR k + 1).
  { destruct C as [C|C]; [left; exact C|right]. unfold grid_x in C. rewrite Ex, S_INR in C. nra. }
  assert (R1 : forall m, (m <= k)%nat -> ramps m x = d m - d 0%nat).
  { induction m as [|m IH]; intros Hm; cbn [ramps]; [ring|]. rewrite IH by lia.
    assert (E : ramp m x = 1); [|rewrite E; ring].
    unfold ramp. rewrite ramp_t. fold t.
    destruct B' as [B'|B']; [lia|]. assert (L : INR m + 1 <= INR k) by (rewrite <- S_INR; apply le_INR; lia).
    replace (Nat.eqb m (g_n G - 2)) with false by (symmetry; apply Nat.eqb_neq; lia).
    destruct (Nat.eqb m 0); [apply Rmin_left; lra|]. rewrite Rmax_right by lra. apply Rmin_left; lra. }
  assert (R2 : ramps (S k) x = d k - d 0%nat + (d (S k) - d k) * (t - INR k)).
  { cbn [ramps]. rewrite R1 by lia. f_equal. f_equal. unfold ramp. rewrite ramp_t. fold t.
    destruct (Nat.eqb_spec k 0) as [K0|K0].
    - destruct (Nat.eqb_spec k (g_n G - 2)) as [K1|K1]; [reflexivity|].
      destruct C' as [C'|C']; [lia|]. apply Rmin_right. lra.
    - destruct B' as [B'|B']; [lia|]. rewrite Rmax_right by lra.
      destruct (Nat.eqb_spec k (g_n G - 2)) as [K1|K1]; [reflexivity|].
      destruct C' as [C'|C']; [lia|]. apply Rmin_right. lra. }
  assert (R3 : forall j, (S k + j <= g_n G - 1)%nat -> ramps (S k + j) x = ramps (S k) x).
  { induction j as [|j IH]; intros Hj; [rewrite Nat.add_0_r; reflexivity|].
    replace (S k + S j)%nat with (S (S k + j)) by lia.
    change (ramps (S k + j) x + (d (S (S k + j)) - d (S k + j)%nat) * ramp (S k + j) x = ramps (S k) x).
    rewrite IH by lia.
    assert (E : ramp (S k + j) x = 0); [|rewrite E; ring].
    unfold ramp. rewrite ramp_t. fold t.
    destruct C' as [C'|C']; [lia|]. assert (L : INR k + 1 <= INR (S k + j)) by (rewrite <- S_INR; apply le_INR; lia).
    replace (Nat.eqb (S k + j) 0) with false by reflexivity.
    rewrite Rmax_left by lra.
    destruct (Nat.eqb (S k + j) (g_n G - 2)); [reflexivity|]. apply Rmin_right; lra. }
  replace (g_n G - 1)%nat with (S k + (g_n G - 1 - S k))%nat by lia.
  rewrite R3 by lia. rewrite R2, ramp_t. fold t. ring.
Qed.
Lemma ramp_continuous (i : nat) (x : R) : continuity_pt (ramp i) x.
Proof.
  assert (L : continuity_pt (fun x => (x - grid_x G i) / g_dx G) x).
  { unfold Rdiv. apply continuity_pt_mult; [|apply continuity_pt_const; intros a b; reflexivity].
    apply continuity_pt_minus; [apply derivable_continuous_pt, derivable_pt_id|apply continuity_pt_const; intros a b; reflexivity]. }
  assert (M : forall (f : R -> R) c, continuity_pt f x -> continuity_pt (fun y => Rmax c (f y)) x).
  { intros f c Hf. apply (continuity_pt_ext (fun y => (c + f y + Rabs (c - f y)) / 2)).
    - intros y. unfold Rmax. destruct (Rle_dec c (f y)); [rewrite Rabs_left1 by lra|rewrite Rabs_pos_eq by lra]; lra.
    - unfold Rdiv. apply continuity_pt_mult; [|apply continuity_pt_const; intros a b; reflexivity].
      apply continuity_pt_plus.
      + apply continuity_pt_plus; [apply continuity_pt_const; intros a b; reflexivity|exact Hf].
      + apply (continuity_pt_comp (fun y => c - f y) Rabs); [|apply Rcontinuity_abs].
        apply continuity_pt_minus; [apply continuity_pt_const; intros a b; reflexivity|exact Hf]. }
  assert (Mi : forall (f : R -> R) c, continuity_pt f x -> continuity_pt (fun y => Rmin c (f y)) x).
  { intros f c Hf. apply (continuity_pt_ext (fun y => - Rmax (- c) (- f y))).
    - intros y. rewrite <- Ropp_Rmin. ring.
    - apply continuity_pt_opp. apply (M (fun y => - f y)). apply continuity_pt_opp. exact Hf. }
  unfold ramp. destruct (Nat.eqb i (g_n G - 2)), (Nat.eqb i 0).
  - exact L.
  - apply (M (fun x => (x - grid_x G i) / g_dx G)). exact L.
  - apply (Mi (fun x => (x - grid_x G i) / g_dx G)). exact L.
  - apply (Mi (fun x => Rmax 0 ((x - grid_x G i) / g_dx G))). apply (M (fun x => (x - grid_x G i) / g_dx G)). exact L.
Qed.
Lemma interp_continuous (x : R) : continuity_pt (interpToReal G d) x.
Proof.
  apply (continuity_pt_ext (fun x => d 0%nat + ramps (g_n G - 1) x)); [intros y; symmetry; apply interp_ramps|].
  apply continuity_pt_plus; [apply continuity_pt_const; intros a b; reflexivity|].
  generalize (g_n G - 1)%nat. induction n as [|n IH]; [apply continuity_pt_const; intros a b; reflexivity|].
  change (continuity_pt (fun x => ramps n x + (d (S n) - d n) * ramp n x) x).
  apply continuity_pt_plus; [exact IH|]. apply continuity_pt_mult; [apply continuity_pt_const; intros a b; reflexivity|].
  apply ramp_continuous.
Qed.
End Table.

Lemma setRange_dx (lo hi : R) (n : nat) : lo < hi -> (2 <= n)%nat -> 0 < g_dx (setRange lo hi n).
Proof. intros H Hn. cbn. apply Rdiv_lt_0_compat; [lra|apply lt_0_INR; lia]. Qed.
Lemma setRange_first (lo hi : R) (n : nat) : grid_x (setRange lo hi n) 0 = lo.
Proof. unfold grid_x. cbn. ring. Qed.
Lemma setRange_last (lo hi : R) (n : nat) : (2 <= n)%nat -> grid_x (setRange lo hi n) (n - 1) = hi.
Proof. intros H. unfold grid_x. cbn [setRange g_dx g_min]. field. apply not_0_INR. lia. Qed.
