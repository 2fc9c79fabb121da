(** C32, continued: tables, matter averages, time step. *)
From Coq Require Import Reals ZArith List Lia Lra Permutation.
From Coquelicot Require Import Coquelicot.
From Flocq Require Import Core.
From Verif.Model Require Import Num Robust Geometry Modified MonopoleGR.
From Verif.Spec Require Import Tensor GeomSpec Hypersurface.
From Verif.Proofs Require Import TensorTac NumR RobustProofs ThomasProofs TransformProofs.
Import ListNotations.
Local Open Scope R_scope.

(** ** Interpolation of the tables *)
Lemma index_le G r : (grid_index G r <= g_n G - 2)%nat.
Proof. unfold grid_index. lia. Qed.
Lemma interp_form G A r : (3 <= g_n G)%nat -> g_dx G <> 0 ->
  let ix := grid_index G r in let t := (r - grid_x G ix) / g_dx G in
  Interpolate G A r =
  if Nat.eqb ix 0 then A 0%nat + t * (- (3 * A 0%nat - 4 * A 1%nat + A 2%nat) / 2 + t / 2 * (A 0%nat - 2 * A 1%nat + A 2%nat))
  else A ix + t * ((A (S ix) - A (ix - 1)%nat) / 2 + t / 2 * (A (S ix) - 2 * A ix + A (ix - 1)%nat)).
Proof.
  intros Hn Hd ix t. unfold Interpolate. fold ix. unfold t, grid_x. pose proof (index_le G r) as L. fold ix in L.
  destruct (Nat.eqb ix 0) eqn:E.
  - apply Nat.eqb_eq in E. rewrite E. cbn [Nat.add]. field. exact Hd.
  - assert (E1 : Nat.eqb ix (g_n G - 1) = false) by (apply Nat.eqb_neq; lia). rewrite E1. replace (ix + 1)%nat with (S ix) by lia. field. exact Hd.
Qed.
Lemma index_grid G i : 0 < g_dx G -> grid_index G (grid_x G i) = Nat.min i (g_n G - 2).
Proof.
  intros Hd. unfold grid_index, grid_x. f_equal.
  replace ((INR i * g_dx G + g_min G - g_min G) / g_dx G) with (IZR (Z.of_nat i)) by (rewrite <- INR_IZR_INZ; field; lra).
  rewrite Ztrunc_IZR, Nat2Z.id. reflexivity.
Qed.

(** Tables are reproduced at every grid point, and tables of any quadratic are reproduced everywhere. *)
Theorem C32_interpolate (G : Grid) (A : nat -> R) :
  (3 <= g_n G)%nat -> 0 < g_dx G ->
  (forall i, (i < g_n G)%nat -> Interpolate G A (grid_x G i) = A i) /\
  (forall c0 c1 c2, let q x := c0 + c1 * x + c2 * (x * x) in
     (forall k, (k < g_n G)%nat -> A k = q (grid_x G k)) -> forall r, Interpolate G A r = q r).
Proof.
  intros Hn Hd. split.
  - intros i Hi. rewrite interp_form by (assumption || lra). rewrite index_grid by exact Hd.
    destruct (Nat.eq_dec i (g_n G - 1)) as [->|N].
    + replace (Nat.min (g_n G - 1) (g_n G - 2)) with (g_n G - 2)%nat by lia.
      assert (E : Nat.eqb (g_n G - 2) 0 = false) by (apply Nat.eqb_neq; lia). rewrite E.
      replace ((grid_x G (g_n G - 1) - grid_x G (g_n G - 2)) / g_dx G) with 1.
      * replace (S (g_n G - 2)) with (g_n G - 1)%nat by lia. field.
      * unfold grid_x. rewrite !minus_INR by lia. cbn [INR]. field. lra.
    + replace (Nat.min i (g_n G - 2)) with i by lia. replace ((grid_x G i - grid_x G i) / g_dx G) with 0 by (field; lra).
      destruct (Nat.eqb i 0) eqn:E; [apply Nat.eqb_eq in E; subst i|]; field.
  - intros c0 c1 c2 q Hq r. rewrite interp_form by (assumption || lra). pose proof (index_le G r) as L. set (ix := grid_index G r) in *. clearbody ix.
    destruct (Nat.eqb ix 0) eqn:E.
    + apply Nat.eqb_eq in E. subst ix. rewrite !Hq by lia. unfold q, grid_x. cbn [INR]. field. lra.
    + apply Nat.eqb_neq in E. rewrite !Hq by lia. unfold q, grid_x. rewrite S_INR, minus_INR by lia. cbn [INR]. field. lra.
Qed.
Print Assumptions C32_interpolate.

(** Between grid points of an increasing table the value never falls below the left entry, except in the first
    interval: there a table with equal first two entries dips, by at most an eighth of the next increment. *)
Theorem C32_interpolate_lower (G : Grid) (A : nat -> R) (r : R) :
  (3 <= g_n G)%nat -> 0 < g_dx G ->
  (forall k, (S k < g_n G)%nat -> A k <= A (S k)) -> A 0%nat = A 1%nat ->
  g_min G <= r < grid_x G (g_n G - 1) ->
  let ix := grid_index G r in
  grid_x G ix <= r < grid_x G (S ix) /\
  (ix <> 0%nat -> A ix <= Interpolate G A r) /\
  (ix = 0%nat -> A 0%nat - (A 2%nat - A 1%nat) / 8 <= Interpolate G A r <= A 0%nat).
Proof.
  intros Hn Hd Hm H01 Hr ix.
  assert (B : grid_x G ix <= r < grid_x G (S ix)).
  { unfold ix, grid_index, grid_x in *. set (y := (r - g_min G) / g_dx G).
    assert (Ey : r = y * g_dx G + g_min G) by (unfold y; field; lra).
    assert (Y0 : 0 <= y) by (unfold y; apply Rmult_le_pos; [lra | left; apply Rinv_0_lt_compat; exact Hd]).
    assert (Yn : y < INR (g_n G - 1)).
    { apply (Rmult_lt_reg_r (g_dx G)); [exact Hd|]. lra. }
    rewrite Ztrunc_floor by exact Y0. pose proof (Zfloor_lb y) as F1. pose proof (Zfloor_ub y) as F2.
    assert (F0 : (0 <= Zfloor y)%Z) by (apply Zfloor_lub; exact Y0).
    assert (FN : (Z.to_nat (Zfloor y) <= g_n G - 2)%nat).
    { assert (Q : IZR (Zfloor y) < IZR (Z.of_nat (g_n G - 1))) by (rewrite <- INR_IZR_INZ; lra). apply lt_IZR in Q. lia. }
    rewrite Nat.min_l by exact FN. rewrite S_INR, INR_IZR_INZ, Z2Nat.id by exact F0. rewrite Ey. split.
    - assert (IZR (Zfloor y) * g_dx G <= y * g_dx G) by (apply Rmult_le_compat_r; lra). lra.
    - assert (y * g_dx G < (IZR (Zfloor y) + 1) * g_dx G) by (apply Rmult_lt_compat_r; lra). lra. }
  split; [exact B|].
  rewrite interp_form by (assumption || lra). fold ix. pose proof (index_le G r) as L. fold ix in L.
  set (t := (r - grid_x G ix) / g_dx G).
  assert (T : 0 <= t < 1).
  { unfold t. unfold grid_x in *. rewrite S_INR in B. split.
    - apply Rmult_le_pos; [lra | left; apply Rinv_0_lt_compat; exact Hd].
    - apply (Rmult_lt_reg_r (g_dx G)); [exact Hd|]. unfold Rdiv. rewrite Rmult_assoc, Rinv_l by lra. lra. }
  clearbody t ix. split; intros E0.
  - assert (E : Nat.eqb ix 0 = false) by (apply Nat.eqb_neq; exact E0). rewrite E.
    pose proof (Hm ix ltac:(lia)) as M1. pose proof (Hm (ix - 1)%nat ltac:(lia)) as M2. replace (S (ix - 1)) with ix in M2 by lia.
    assert (Q : 0 <= (A (S ix) - A (ix - 1)%nat) / 2 + t / 2 * (A (S ix) - 2 * A ix + A (ix - 1)%nat)).
    { assert (0 <= (A (S ix) - A ix) * (1 + t)) by (apply Rmult_le_pos; lra).
      assert (0 <= (A ix - A (ix - 1)%nat) * (1 - t)) by (apply Rmult_le_pos; lra). lra. }
    assert (0 <= t * ((A (S ix) - A (ix - 1)%nat) / 2 + t / 2 * (A (S ix) - 2 * A ix + A (ix - 1)%nat))) by (apply Rmult_le_pos; lra). lra.
  - rewrite E0. cbn [Nat.eqb]. pose proof (Hm 1%nat ltac:(lia)) as M1. rewrite H01.
    replace (A 1%nat + t * (- (3 * A 1%nat - 4 * A 1%nat + A 2%nat) / 2 + t / 2 * (A 1%nat - 2 * A 1%nat + A 2%nat)))
      with (A 1%nat - (A 2%nat - A 1%nat) * (t * (1 - t)) / 2) by field.
    assert (Q : 0 <= t * (1 - t) <= / 4) by (split; [apply Rmult_le_pos; lra | pose proof (Rle_0_sqr (t - / 2)) as Sq; unfold Rsqr in Sq; lra]).
    assert (0 <= (A 2%nat - A 1%nat) * (t * (1 - t))) by (apply Rmult_le_pos; lra).
    assert ((A 2%nat - A 1%nat) * (t * (1 - t)) <= (A 2%nat - A 1%nat) * / 4) by (apply Rmult_le_compat_l; lra). lra.
Qed.
Print Assumptions C32_interpolate_lower.
Example C32_interpolate_dips : let G := {| g_min := 0; g_dx := 1; g_n := 4 |} in
  Interpolate G (fun k => match k with 0%nat | 1%nat => / 10 | _ => 1 end) (/ 2) = / 10 - (9 / 10) / 8.
Proof.
  cbv zeta. rewrite interp_form by (cbn; first [lia | lra]).
  assert (E : grid_index {| g_min := 0; g_dx := 1; g_n := 4 |} (/ 2) = 0%nat).
  { unfold grid_index. cbn [g_min g_dx g_n]. replace ((/ 2 - 0) / 1) with (/ 2) by field. rewrite Ztrunc_floor by lra.
    rewrite (Zfloor_imp 0); [reflexivity|]. cbn [IZR]. simpl. lra. }
  rewrite E. cbn [Nat.eqb]. unfold grid_x. cbn [INR g_dx g_min]. lra.
Qed.

(** ** The sources are the projections of T^{mu nu} on the slices *)
Theorem C32_projection (g T : mat) (alpha : R) (beta : vec) (c2s s2c : mat) :
  alpha <> 0 -> symmetric4 g -> symmetric4 T -> inverse3 c2s s2c ->
  let rho := energy_density alpha T in
  let S (d : nat) := momentum_density alpha beta T (S d) in
  let P (l m : nat) := spatial_stress alpha beta g T (1 + l) (1 + m) in
  vars_sph g alpha beta T = (rho, S 0%nat, P 0%nat 0%nat, sum3 (fun d => P d d)) /\
  vars_cart c2s s2c g alpha beta T =
    (rho, sum3 (fun d => c2s 0%nat d * S d), sum3 (fun l => sum3 (fun m => c2s 0%nat l * P l m * s2c m 0%nat)), sum3 (fun d => P d d)).
Proof.
  intros Ha Sg ST Hinv rho S P.
  assert (E1 : adm_rho alpha T = rho).
  { unfold rho, adm_rho, energy_density, sum4, n_cov. cbn [Nat.eqb]. ring. }
  assert (E2 : forall d, (d < 3)%nat -> adm_S alpha beta T d = S d).
  { intros d Hd. unfold S, adm_S, momentum_density, sum4, projector, n_con, n_cov, delta.
    rewrite (ST 0%nat (Datatypes.S d)) by lia. idx; cbn [Nat.eqb]; field; exact Ha. }
  assert (E3 : forall l m, (l < 3)%nat -> (m < 3)%nat -> adm_stress g beta T l m = P l m).
  { intros l m Hl Hm. unfold P, adm_stress, TConCov, spatial_stress, sum4, projector, n_con, n_cov, delta.
    rewrite (Sg (Datatypes.S m) 0%nat), (Sg (Datatypes.S m) 1%nat), (Sg (Datatypes.S m) 2%nat), (Sg (Datatypes.S m) 3%nat) by lia.
    idx; cbn [Nat.eqb Nat.add]; field; exact Ha. }
  split.
  - unfold vars_sph, sum3. rewrite E1, E2, !E3 by lia. reflexivity.
  - unfold vars_cart. rewrite E1. apply f_equal2; [apply f_equal2; [apply f_equal2; [reflexivity|]|]|].
    + unfold sum3. rewrite !E2 by lia. reflexivity.
    + unfold ssph, sum3. rewrite !E3 by lia. ring.
    + unfold ssph, sum3. rewrite <- (E3 0 0)%nat, <- (E3 1 1)%nat, <- (E3 2 2)%nat by lia.
      assert (I : forall m l, (m < 3)%nat -> (l < 3)%nat -> mul3 s2c c2s m l = delta m l) by (intros m l Hm Hl; apply (Hinv m l Hm Hl)).
      pose proof (I 0 0)%nat as I00. pose proof (I 0 1)%nat as I01. pose proof (I 0 2)%nat as I02.
      pose proof (I 1 0)%nat as I10. pose proof (I 1 1)%nat as I11. pose proof (I 1 2)%nat as I12.
      pose proof (I 2 0)%nat as I20. pose proof (I 2 1)%nat as I21. pose proof (I 2 2)%nat as I22.
      unfold mul3, sum3, delta in *. cbn [Nat.eqb] in *.
      specialize (I00 ltac:(lia) ltac:(lia)). specialize (I01 ltac:(lia) ltac:(lia)). specialize (I02 ltac:(lia) ltac:(lia)).
      specialize (I10 ltac:(lia) ltac:(lia)). specialize (I11 ltac:(lia) ltac:(lia)). specialize (I12 ltac:(lia) ltac:(lia)).
      specialize (I20 ltac:(lia) ltac:(lia)). specialize (I21 ltac:(lia) ltac:(lia)). specialize (I22 ltac:(lia) ltac:(lia)).
      set (st := adm_stress g beta T).
      match goal with |- ?L = ?Rr => replace L with
        ((s2c 0%nat 0%nat * c2s 0%nat 0%nat + s2c 0%nat 1%nat * c2s 1%nat 0%nat + s2c 0%nat 2%nat * c2s 2%nat 0%nat) * st 0%nat 0%nat +
         (s2c 0%nat 0%nat * c2s 0%nat 1%nat + s2c 0%nat 1%nat * c2s 1%nat 1%nat + s2c 0%nat 2%nat * c2s 2%nat 1%nat) * st 1%nat 0%nat +
         (s2c 0%nat 0%nat * c2s 0%nat 2%nat + s2c 0%nat 1%nat * c2s 1%nat 2%nat + s2c 0%nat 2%nat * c2s 2%nat 2%nat) * st 2%nat 0%nat +
         (s2c 1%nat 0%nat * c2s 0%nat 0%nat + s2c 1%nat 1%nat * c2s 1%nat 0%nat + s2c 1%nat 2%nat * c2s 2%nat 0%nat) * st 0%nat 1%nat +
         (s2c 1%nat 0%nat * c2s 0%nat 1%nat + s2c 1%nat 1%nat * c2s 1%nat 1%nat + s2c 1%nat 2%nat * c2s 2%nat 1%nat) * st 1%nat 1%nat +
         (s2c 1%nat 0%nat * c2s 0%nat 2%nat + s2c 1%nat 1%nat * c2s 1%nat 2%nat + s2c 1%nat 2%nat * c2s 2%nat 2%nat) * st 2%nat 1%nat +
         (s2c 2%nat 0%nat * c2s 0%nat 0%nat + s2c 2%nat 1%nat * c2s 1%nat 0%nat + s2c 2%nat 2%nat * c2s 2%nat 0%nat) * st 0%nat 2%nat +
         (s2c 2%nat 0%nat * c2s 0%nat 1%nat + s2c 2%nat 1%nat * c2s 1%nat 1%nat + s2c 2%nat 2%nat * c2s 2%nat 1%nat) * st 1%nat 2%nat +
         (s2c 2%nat 0%nat * c2s 0%nat 2%nat + s2c 2%nat 1%nat * c2s 1%nat 2%nat + s2c 2%nat 2%nat * c2s 2%nat 2%nat) * st 2%nat 2%nat) by ring end.
      rewrite I00, I01, I02, I10, I11, I12, I20, I21, I22. ring.
Qed.
Print Assumptions C32_projection.
Example C32_projection_nonvacuous : exists g T : mat, exists beta : vec,
  symmetric4 g /\ symmetric4 T /\ inverse3 delta delta /\ beta 0%nat <> 0 /\ energy_density 2 T = 20 /\ vars_sph g 2 beta T = (20, 22, 44, 44).
Proof.
  exists (fun i j => if Nat.eqb i j then 1 else 0), (fun i j => match i, j with 0%nat, 0%nat => 5 | 0%nat, 1%nat | 1%nat, 0%nat => 1 | 1%nat, 1%nat => 42 | _, _ => 0 end),
    (fun i => match i with 0%nat => 2 | _ => 0 end).
  split; [intros i j Hi Hj; idx; reflexivity|]. split; [intros i j Hi Hj; idx; reflexivity|].
  split; [intros i j Hi Hj; unfold mul3, sum3, delta; idx; cbn [Nat.eqb]; split; ring|]. split; [lra|].
  split; [unfold energy_density, sum4, n_cov; cbn [Nat.eqb]; ring|].
  unfold vars_sph, adm_rho, adm_S, adm_stress, TConCov, sum3, sum4. cbn [Nat.eqb]. repeat f_equal; ring.
Qed.

(** ** Averaging the 3-D matter onto the 1-D cells *)
Lemma overlap_helper rs drs rb drb : 0 < drs <= drb ->
  GetVolIntersect rs drs rb drb = overlap rs drs rb drb / drb.
Proof.
  intros [H1 H2]. unfold GetVolIntersect, InBounds, overlap.
  set (L := rs - / 2 * drs). set (Q := rs + / 2 * drs). set (A := rb - / 2 * drb). set (B := rb + / 2 * drb).
  replace (rs + drs / 2) with Q by (unfold Q; field). replace (rs - drs / 2) with L by (unfold L; field).
  replace (rb + drb / 2) with B by (unfold B; field). replace (rb - drb / 2) with A by (unfold A; field).
  assert (E1 : drs = Q - L) by (unfold Q, L; field). assert (E2 : drb = B - A) by (unfold B, A; field).
  clearbody L Q A B. subst drs drb.
  destruct (Rle_bool_spec A L), (Rlt_bool_spec L B), (Rle_bool_spec A Q), (Rlt_bool_spec Q B); cbn [andb negb]; try (exfalso; lra);
    (first [rewrite (Rmin_left Q B) by lra | rewrite (Rmin_right Q B) by lra]);
    (first [rewrite (Rmax_left L A) by lra | rewrite (Rmax_right L A) by lra]);
    (first [rewrite Rmax_left by lra | rewrite Rmax_right by lra]); unfold Rdiv; ring.
Qed.
Lemma overlap_left x dx r dr : x + dx / 2 <= r - dr / 2 -> overlap x dx r dr = 0.
Proof.
  intros H. unfold overlap. apply Rmax_left. pose proof (Rmin_l (x + dx / 2) (r + dr / 2)). pose proof (Rmax_r (x - dx / 2) (r - dr / 2)). lra.
Qed.
Lemma overlap_right x dx r dr : r + dr / 2 <= x - dx / 2 -> overlap x dx r dr = 0.
Proof.
  intros H. unfold overlap. apply Rmax_left. pose proof (Rmin_r (x + dx / 2) (r + dr / 2)). pose proof (Rmax_l (x - dx / 2) (r - dr / 2)). lra.
Qed.
Lemma overlap_nonneg x dx r dr : 0 <= overlap x dx r dr.
Proof. apply Rmax_l. Qed.
Lemma grid_x_S G i : grid_x G (S i) = grid_x G i + g_dx G.
Proof. unfold grid_x. rewrite S_INR. ring. Qed.
(** the cells tile the line *)
Lemma overlap_sum G r dr n : 0 < g_dx G -> 0 < dr -> grid_x G 0 - g_dx G / 2 <= r - dr / 2 ->
  sum_n n (fun i => overlap (grid_x G i) (g_dx G) r dr) =
  Rmax 0 (Rmin (grid_x G n - g_dx G / 2) (r + dr / 2) - (r - dr / 2)).
Proof.
  intros Hd Hr H0. induction n as [|n IH].
  - cbn [sum_n]. rewrite Rmax_left; [reflexivity|]. pose proof (Rmin_l (grid_x G 0 - g_dx G / 2) (r + dr / 2)). lra.
  - cbn [sum_n]. rewrite IH, grid_x_S. unfold overlap. set (x := grid_x G n) in *.
    set (A := r - dr / 2) in *. set (B := r + dr / 2) in *. assert (AB : A < B) by (unfold A, B; lra).
    replace (x + g_dx G - g_dx G / 2) with (x + g_dx G / 2) by field. set (h := g_dx G / 2) in *. assert (HH : 0 < h) by (unfold h; lra).
    clearbody x A B h. unfold Rmin, Rmax. destruct (Rle_dec (x - h) B), (Rle_dec (x + h) B), (Rle_dec (x - h) A);
      repeat match goal with |- context [Rle_dec ?a ?b] => destruct (Rle_dec a b) end; lra.
Qed.

(** the zone is on the 1-D grid and at least as wide as a cell *)
Definition on_grid (G : Grid) (z : Zone) : Prop :=
  g_dx G <= z_dr z /\ grid_x G 0 - g_dx G / 2 <= z_r z - z_dr z / 2 /\ z_r z + z_dr z / 2 <= grid_x G (g_n G - 1) + g_dx G / 2.
Definition share (G : Grid) (z : Zone) (i : nat) : R := overlap (grid_x G i) (g_dx G) (z_r z) (z_dr z) / z_dr z * z_dv z.

Lemma weight_share G z i : 0 < g_dx G -> on_grid G z -> zone_weight G z i = share G z i.
Proof. intros Hd (H & _). unfold zone_weight, share. rewrite overlap_helper by lra. reflexivity. Qed.
(** cells outside the loop bounds have no share *)
Lemma share_outside G z i : (2 <= g_n G)%nat -> 0 < g_dx G -> on_grid G z -> (i < g_n G)%nat ->
  (i < i1dleft G z \/ i1dright G z < i)%nat -> share G z i = 0.
Proof.
  intros Hn Hd (H1 & H2 & H3) Hi Ho. unfold share.
  assert (E : overlap (grid_x G i) (g_dx G) (z_r z) (z_dr z) = 0); [|rewrite E; unfold Rdiv; ring].
  destruct Ho as [Ho|Ho].
  - apply overlap_left. unfold i1dleft, grid_index in Ho. set (y := (z_r z - z_dr z - g_min G) / g_dx G) in *.
    assert (Ey : z_r z - z_dr z = y * g_dx G + g_min G) by (unfold y; field; lra).
    assert (K : (i + 2 <= Z.to_nat (Ztrunc y))%nat) by lia.
    assert (K2 : (Z.of_nat (i + 2) <= Ztrunc y)%Z) by lia.
    assert (Y : IZR (Z.of_nat (i + 2)) <= y).
    { assert (P : 0 <= y). { destruct (Rle_or_lt 0 y) as [P|N]; [exact P|]. rewrite Ztrunc_ceil in K2 by lra.
        assert (Zceil y <= 0)%Z by (apply Zceil_glb; lra). lia. }
      rewrite Ztrunc_floor in K2 by exact P. apply Rle_trans with (IZR (Zfloor y)); [apply IZR_le; exact K2 | apply Zfloor_lb]. }
    rewrite <- INR_IZR_INZ, plus_INR in Y. cbn [INR] in Y.
    assert (M : (INR i + 2) * g_dx G <= y * g_dx G) by (apply Rmult_le_compat_r; lra). unfold grid_x. lra.
  - apply overlap_right. unfold i1dright, grid_index in Ho. set (y := (z_r z + z_dr z - g_min G) / g_dx G) in *.
    assert (Ey : z_r z + z_dr z = y * g_dx G + g_min G) by (unfold y; field; lra).
    assert (K : (Z.to_nat (Ztrunc y) + 2 <= i)%nat) by lia.
    assert (Y : y < IZR (Ztrunc y) + 1).
    { destruct (Rle_or_lt 0 y) as [P|N].
      - rewrite Ztrunc_floor by exact P. apply Zfloor_ub.
      - rewrite Ztrunc_ceil by lra. pose proof (Zceil_ub y). lra. }
    assert (Z1 : (Ztrunc y + 2 <= Z.of_nat i)%Z) by lia. apply IZR_le in Z1. rewrite plus_IZR, <- INR_IZR_INZ in Z1.
    assert (M : (y + 1) * g_dx G <= INR i * g_dx G) by (apply Rmult_le_compat_r; lra). unfold grid_x. lra.
Qed.
Lemma share_total G z : (2 <= g_n G)%nat -> 0 < g_dx G -> on_grid G z -> sum_n (g_n G) (share G z) = z_dv z.
Proof.
  intros Hn Hd (H1 & H2 & H3). unfold share.
  assert (L : forall n f, sum_n n (fun i => f i / z_dr z * z_dv z) = sum_n n f / z_dr z * z_dv z).
  { induction n as [|n IH]; intros f; cbn [sum_n]; [unfold Rdiv; ring | rewrite IH; unfold Rdiv; ring]. }
  rewrite L. rewrite overlap_sum by lra.
  replace (g_n G) with (S (g_n G - 1)) by lia. rewrite grid_x_S.
  rewrite Rmin_right by lra. rewrite Rmax_right by lra. field. lra.
Qed.

Lemma fold_cells G z l : forall c, NoDup l ->
  let c' := fold_left (add_cell G z) l c in
  (forall k, c_vols c' k = c_vols c k + (if in_dec Nat.eq_dec k l then zone_weight G z k else 0)) /\
  (forall v k, c_matter c' v k = c_matter c v k + (if in_dec Nat.eq_dec k l then z_m z v * zone_weight G z k else 0)).
Proof.
  induction l as [|i l IH]; intros c ND c'.
  - unfold c'. cbn [fold_left]. split; [intros k; cbn; ring | intros v k; cbn; ring].
  - inversion ND as [|? ? Ni ND']; subst. specialize (IH (add_cell G z c i) ND'). cbv zeta in IH. destruct IH as [IV IM].
    unfold c'. cbn [fold_left]. split.
    + intros k. rewrite IV. unfold add_cell. cbn [c_vols]. unfold upd.
      destruct (Nat.eqb k i) eqn:E.
      * apply Nat.eqb_eq in E. subst k. destruct (in_dec Nat.eq_dec i l) as [A|A]; [contradiction|].
        destruct (in_dec Nat.eq_dec i (i :: l)) as [B|B]; [ring | exfalso; apply B; left; reflexivity].
      * apply Nat.eqb_neq in E. destruct (in_dec Nat.eq_dec k l) as [A|A]; destruct (in_dec Nat.eq_dec k (i :: l)) as [B|B]; try ring.
        -- exfalso. apply B. right. exact A.
        -- exfalso. destruct B as [B|B]; [apply E; symmetry; exact B | contradiction].
    + intros v k. rewrite IM. unfold add_cell. cbn [c_matter]. unfold upd.
      destruct (Nat.eqb k i) eqn:E.
      * apply Nat.eqb_eq in E. subst k. destruct (in_dec Nat.eq_dec i l) as [A|A]; [contradiction|].
        destruct (in_dec Nat.eq_dec i (i :: l)) as [B|B]; [ring | exfalso; apply B; left; reflexivity].
      * apply Nat.eqb_neq in E. destruct (in_dec Nat.eq_dec k l) as [A|A]; destruct (in_dec Nat.eq_dec k (i :: l)) as [B|B]; try ring.
        -- exfalso. apply B. right. exact A.
        -- exfalso. destruct B as [B|B]; [apply E; symmetry; exact B | contradiction].
Qed.
Lemma add_zone_spec G z c : (2 <= g_n G)%nat -> 0 < g_dx G -> on_grid G z -> forall k, (k < g_n G)%nat ->
  c_vols (add_zone G c z) k = c_vols c k + share G z k /\
  forall v, c_matter (add_zone G c z) v k = c_matter c v k + z_m z v * share G z k.
Proof.
  intros Hn Hd Hz k Hk. unfold add_zone.
  destruct (fold_cells G z (seq (i1dleft G z) (i1dright G z + 1 - i1dleft G z)) c (seq_NoDup _ _)) as [V M].
  assert (E : (if in_dec Nat.eq_dec k (seq (i1dleft G z) (i1dright G z + 1 - i1dleft G z)) then zone_weight G z k else 0) = share G z k).
  { destruct (in_dec _ _ _) as [A|A]; [apply weight_share; assumption|]. symmetry. apply share_outside; try assumption.
    rewrite in_seq in A. lia. }
  split.
  - rewrite V, E. reflexivity.
  - intros v. rewrite M. rewrite <- E. destruct (in_dec _ _ _); ring.
Qed.
Lemma zones_spec G zones : (2 <= g_n G)%nat -> 0 < g_dx G -> (forall z, In z zones -> on_grid G z) -> forall c k, (k < g_n G)%nat ->
  c_vols (fold_left (add_zone G) zones c) k = c_vols c k + sum_list (fun z => share G z k) zones /\
  forall v, c_matter (fold_left (add_zone G) zones c) v k = c_matter c v k + sum_list (fun z => z_m z v * share G z k) zones.
Proof.
  intros Hn Hd. induction zones as [|z zones IH]; intros Hz c k Hk; cbn [fold_left sum_list fold_right].
  - split; [ring | intros v; ring].
  - destruct (IH (fun w Hw => Hz w (or_intror Hw)) (add_zone G c z) k Hk) as [V M].
    destruct (add_zone_spec G z c Hn Hd (Hz z (or_introl eq_refl)) k Hk) as [V1 M1].
    fold (sum_list (fun z => share G z k) zones). split.
    + rewrite V, V1. ring.
    + intros v. rewrite M, M1. fold (sum_list (fun z => z_m z v * share G z k) zones). ring.
Qed.
Lemma sum_swap {A} (f : A -> nat -> R) (w : A -> R) n l :
  sum_n n (fun k => sum_list (fun z => w z * f z k) l) = sum_list (fun z => w z * sum_n n (f z)) l.
Proof.
  induction n as [|n IH]; cbn [sum_n].
  - induction l as [|z l IHl]; cbn [sum_list fold_right]; [reflexivity|]. fold (sum_list (fun z => w z * 0) l). rewrite <- IHl. ring.
  - rewrite IH. clear IH. induction l as [|z l IHl]; cbn [sum_list fold_right]; [ring|].
    fold (sum_list (fun z => w z * sum_n n (f z)) l) (sum_list (fun z => w z * f z n) l) (sum_list (fun z => w z * (sum_n n (f z) + f z n)) l).
    rewrite <- IHl. ring.
Qed.
Lemma sum_list_ext {A} (f g : A -> R) l : (forall z, In z l -> f z = g z) -> sum_list f l = sum_list g l.
Proof.
  induction l as [|z l IH]; intros H; [reflexivity|]. cbn [sum_list fold_right]. fold (sum_list f l) (sum_list g l).
  rewrite (H z (or_introl eq_refl)), IH; [reflexivity|]. intros w Hw. apply H. right. exact Hw.
Qed.
Lemma sum_n_ext n f g : (forall i, (i < n)%nat -> f i = g i) -> sum_n n f = sum_n n g.
Proof. induction n as [|n IH]; intros H; cbn [sum_n]; [reflexivity|]. rewrite IH by (intros i Hi; apply H; lia). rewrite H by lia. reflexivity. Qed.

(** Every 1-D cell receives from every zone the fraction of the zone it overlaps; nothing is lost: the total
    volume and the total of each matter quantity over the cells are those of the zones.  Earlier contents of the arrays do
    not matter. *)
Theorem C32_average (G : Grid) (previous : Cells) (zones : list Zone) :
  (2 <= g_n G)%nat -> 0 < g_dx G -> (forall z, In z zones -> on_grid G z) ->
  let c := InterpolateMatterTo1D G previous zones in
  (forall k, (k < g_n G)%nat ->
     c_vols c k = sum_list (fun z => overlap (grid_x G k) (g_dx G) (z_r z) (z_dr z) / z_dr z * z_dv z) zones /\
     forall v, c_matter c v k = sum_list (fun z => z_m z v * (overlap (grid_x G k) (g_dx G) (z_r z) (z_dr z) / z_dr z * z_dv z)) zones) /\
  sum_n (g_n G) (c_vols c) = sum_list z_dv zones /\
  forall v, sum_n (g_n G) (c_matter c v) = sum_list (fun z => z_m z v * z_dv z) zones.
Proof.
  intros Hn Hd Hz c.
  assert (P : forall k, (k < g_n G)%nat -> c_vols c k = sum_list (fun z => share G z k) zones /\
     forall v, c_matter c v k = sum_list (fun z => z_m z v * share G z k) zones).
  { intros k Hk. unfold c, InterpolateMatterTo1D. destruct (zones_spec G zones Hn Hd Hz cells_zero k Hk) as [V M].
    split; [rewrite V; cbn [cells_zero c_vols]; ring | intros v; rewrite M; cbn [cells_zero c_matter]; ring]. }
  split; [exact P|]. split.
  - rewrite (sum_n_ext _ _ (fun k => sum_list (fun z => 1 * share G z k) zones)).
    + rewrite (sum_swap (share G) (fun _ => 1)). apply sum_list_ext. intros z Hi. rewrite share_total by (auto; lia). ring.
    + intros k Hk. rewrite (proj1 (P k Hk)). apply sum_list_ext. intros z _. ring.
  - intros v. rewrite (sum_n_ext _ _ (fun k => sum_list (fun z => z_m z v * share G z k) zones)).
    + rewrite (sum_swap (share G) (fun z => z_m z v)). apply sum_list_ext. intros z Hi. rewrite share_total by (auto; lia). ring.
    + intros k Hk. apply (P k Hk).
Qed.
Print Assumptions C32_average.
Definition grid3 : Grid := {| g_min := 0; g_dx := 1; g_n := 3 |}.
Definition shell (r dr dv q : R) : Zone := {| z_r := r; z_dr := dr; z_dv := dv; z_m := fun _ => q |}.
Example C32_average_nonvacuous : on_grid grid3 (shell 1 (3 / 2) 6 7) /\
  share grid3 (shell 1 (3 / 2) 6 7) 0 = 1 /\ share grid3 (shell 1 (3 / 2) 6 7) 1 = 4 /\ share grid3 (shell 1 (3 / 2) 6 7) 2 = 1.
Proof.
  unfold on_grid, share, overlap, grid_x, grid3, shell. cbn [g_min g_dx g_n z_r z_dr z_dv Nat.sub INR].
  split; [repeat split; lra|].
  rewrite (Rmin_left (0 * 1 + 0 + 1 / 2)), (Rmax_right (0 * 1 + 0 - 1 / 2)), (Rmin_left (1 * 1 + 0 + 1 / 2)), (Rmax_left (1 * 1 + 0 - 1 / 2)),
    (Rmin_right ((1 + 1) * 1 + 0 + 1 / 2)), (Rmax_left ((1 + 1) * 1 + 0 - 1 / 2)) by lra.
  rewrite !Rmax_right by lra. repeat split; field.
Qed.

(** The additions are atomic; whatever their order, within and across zones, the arrays come out the same. *)
Definition additions (G : Grid) (zones : list Zone) : list (Zone * nat) :=
  flat_map (fun z => map (pair z) (seq (i1dleft G z) (i1dright G z + 1 - i1dleft G z))) zones.
Definition perform (G : Grid) (ops : list (Zone * nat)) (c : Cells) : Cells := fold_left (fun c op => add_cell G (fst op) c (snd op)) ops c.
Lemma perform_spec G ops : forall c k,
  c_vols (perform G ops c) k = c_vols c k + sum_list (fun op => if Nat.eqb k (snd op) then zone_weight G (fst op) k else 0) ops /\
  forall v, c_matter (perform G ops c) v k = c_matter c v k + sum_list (fun op => if Nat.eqb k (snd op) then z_m (fst op) v * zone_weight G (fst op) k else 0) ops.
Proof.
  unfold perform. induction ops as [|[z i] ops IH]; intros c k; cbn [fold_left sum_list fold_right fst snd].
  - split; [ring | intros v; ring].
  - destruct (IH (add_cell G z c i) k) as [V M].
    fold (sum_list (fun op : Zone * nat => if Nat.eqb k (snd op) then zone_weight G (fst op) k else 0) ops).
    assert (AV : c_vols (add_cell G z c i) k = if Nat.eqb k i then c_vols c i + zone_weight G z i else c_vols c k) by reflexivity.
    assert (AM : forall v, c_matter (add_cell G z c i) v k = if Nat.eqb k i then c_matter c v i + z_m z v * zone_weight G z i else c_matter c v k) by reflexivity.
    split.
    + rewrite V, AV. destruct (Nat.eqb k i) eqn:E; [apply Nat.eqb_eq in E; subst k|]; ring.
    + intros v. fold (sum_list (fun op : Zone * nat => if Nat.eqb k (snd op) then z_m (fst op) v * zone_weight G (fst op) k else 0) ops).
      rewrite M, AM. destruct (Nat.eqb k i) eqn:E; [apply Nat.eqb_eq in E; subst k|]; ring.
Qed.
Lemma sum_list_perm {A} (f : A -> R) l l' : Permutation l l' -> sum_list f l = sum_list f l'.
Proof. induction 1; cbn [sum_list fold_right] in *; unfold sum_list in *; lra. Qed.
Theorem C32_schedule (G : Grid) (previous : Cells) (zones : list Zone) (order : list (Zone * nat)) :
  Permutation (additions G zones) order ->
  forall k, c_vols (perform G order cells_zero) k = c_vols (InterpolateMatterTo1D G previous zones) k /\
  forall v, c_matter (perform G order cells_zero) v k = c_matter (InterpolateMatterTo1D G previous zones) v k.
Proof.
  intros Hp k.
  assert (E : InterpolateMatterTo1D G previous zones = perform G (additions G zones) cells_zero).
  { clear Hp. unfold InterpolateMatterTo1D, perform, additions. generalize cells_zero as c. induction zones as [|z zones IH]; intros c; [reflexivity|].
    cbn [fold_left flat_map]. rewrite fold_left_app, IH. apply f_equal. unfold add_zone. generalize (seq (i1dleft G z) (i1dright G z + 1 - i1dleft G z)) as l. clear. intros l. revert c.
    induction l as [|i l IHl]; intros c; [reflexivity|]. cbn [fold_left map fst snd]. apply IHl. }
  rewrite E. destruct (perform_spec G order cells_zero k) as [V M]. destruct (perform_spec G (additions G zones) cells_zero k) as [V' M'].
  split; [rewrite V, V'; f_equal; symmetry; apply sum_list_perm; exact Hp|].
  intros v. rewrite M, M'. f_equal. symmetry. apply sum_list_perm. exact Hp.
Qed.
Print Assumptions C32_schedule.

(** Where a cell holds any matter its mean lies between the smallest and the largest value of the zones (down to
    the factor V/(V + SMALL) of the guarded division). *)
Theorem C32_mean (G : Grid) (previous : Cells) (zones : list Zone) (v k : nat) (lo hi : R) :
  (2 <= g_n G)%nat -> 0 < g_dx G -> (forall z, In z zones -> on_grid G z /\ 0 <= z_dv z /\ lo <= z_m z v <= hi) -> (k < g_n G)%nat ->
  let c := InterpolateMatterTo1D G previous zones in let V := c_vols c k in
  0 < V -> lo * (V / (V + SMALL)) <= cell_mean c v k <= hi * (V / (V + SMALL)).
Proof.
  intros Hn Hd Hz Hk c V HV.
  destruct (C32_average G previous zones Hn Hd (fun z Hi => proj1 (Hz z Hi))) as [P _]. destruct (P k Hk) as [PV PM]. specialize (PM v).
  fold c in PV, PM. fold V in PV.
  assert (Sh : forall z, In z zones -> 0 <= overlap (grid_x G k) (g_dx G) (z_r z) (z_dr z) / z_dr z * z_dv z).
  { intros z Hi. destruct (Hz z Hi) as ((O1 & _) & O2 & _). apply Rmult_le_pos; [|exact O2]. apply Rmult_le_pos; [apply overlap_nonneg | left; apply Rinv_0_lt_compat; lra]. }
  assert (B : lo * V <= c_matter c v k <= hi * V).
  { rewrite PM, PV. clear -Hz Sh. induction zones as [|z zones IH]; [cbn; lra|].
    cbn [sum_list fold_right].
    destruct IH as [I1 I2]; [intros w Hw; apply Hz; right; exact Hw | intros w Hw; apply Sh; right; exact Hw|].
    unfold sum_list in I1, I2. pose proof (Sh z (or_introl eq_refl)) as S1. destruct (Hz z (or_introl eq_refl)) as (_ & _ & L1 & L2).
    set (s := overlap _ _ _ _ / z_dr z * z_dv z) in *. clearbody s. split; nra. }
  pose proof SMALL_pos as SP. unfold cell_mean. fold V. rewrite (Rabs_pos_eq V) by lra. rewrite ratio_R. destruct (Rle_dec 0 V) as [_|N]; [|lra].
  assert (I : 0 < / (V + SMALL)) by (apply Rinv_0_lt_compat; lra).
  unfold Rdiv. rewrite <- !Rmult_assoc. split; apply Rmult_le_compat_r; lra.
Qed.
Print Assumptions C32_mean.

(** The means of cell i and cell i-1 are averaged "to the face-centred grid", but cell i is centred on
    grid point i: zones that sample a linear profile exactly on the grid points come back half a spacing too far in. *)
Theorem C32_shift_refuted (G : Grid) (previous : Cells) (v k : nat) (p q dv : R) :
  (2 <= g_n G)%nat -> 0 < g_dx G -> 0 < dv -> (0 < k < g_n G)%nat ->
  let f x := p + q * x in
  let zones := map (fun i => shell (grid_x G i) (g_dx G) dv (f (grid_x G i))) (seq 0 (g_n G)) in
  DivideVols (InterpolateMatterTo1D G previous zones) v k = f (grid_x G k - g_dx G / 2) * (dv / (dv + SMALL)).
Proof.
  intros Hn Hd Hdv Hk f zones.
  assert (On : forall z, In z zones -> on_grid G z).
  { intros z Hi. unfold zones in Hi. apply in_map_iff in Hi. destruct Hi as (i & <- & Hi). apply in_seq in Hi. unfold on_grid, shell. cbn [z_r z_dr].
    split; [lra|]. unfold grid_x. assert (INR 0 * g_dx G <= INR i * g_dx G) by (apply Rmult_le_compat_r; [lra | apply le_INR; lia]).
    assert (INR i * g_dx G <= INR (g_n G - 1) * g_dx G) by (apply Rmult_le_compat_r; [lra | apply le_INR; lia]). lra. }
  destruct (C32_average G previous zones Hn Hd On) as [P _].
  assert (Ov : forall i j, (i < j)%nat \/ (j < i)%nat -> overlap (grid_x G j) (g_dx G) (grid_x G i) (g_dx G) = 0).
  { intros i j [H|H].
    - apply overlap_right. unfold grid_x. assert (INR (S i) * g_dx G <= INR j * g_dx G) by (apply Rmult_le_compat_r; [lra | apply le_INR; lia]). rewrite S_INR in H0. lra.
    - apply overlap_left. unfold grid_x. assert (INR (S j) * g_dx G <= INR i * g_dx G) by (apply Rmult_le_compat_r; [lra | apply le_INR; lia]). rewrite S_INR in H0. lra. }
  assert (Os : forall i, overlap (grid_x G i) (g_dx G) (grid_x G i) (g_dx G) = g_dx G).
  { intros i. unfold overlap. rewrite (Rmin_left (grid_x G i + g_dx G / 2)) by lra. rewrite (Rmax_left (grid_x G i - g_dx G / 2)) by lra. rewrite Rmax_right; lra. }
  assert (Sum : forall (w : R -> R) j n s, (s <= j < s + n)%nat ->
     sum_list (fun z => w (z_m z v) * (overlap (grid_x G j) (g_dx G) (z_r z) (z_dr z) / z_dr z * z_dv z))
       (map (fun i => shell (grid_x G i) (g_dx G) dv (f (grid_x G i))) (seq s n)) = w (f (grid_x G j)) * dv).
  { intros w j n. induction n as [|n IH]; intros s Hs; [lia|]. cbn [seq map sum_list fold_right shell z_m z_r z_dr z_dv].
    fold (sum_list (fun z => w (z_m z v) * (overlap (grid_x G j) (g_dx G) (z_r z) (z_dr z) / z_dr z * z_dv z))
       (map (fun i => shell (grid_x G i) (g_dx G) dv (f (grid_x G i))) (seq (S s) n))).
    destruct (Nat.eq_dec s j) as [->|N].
    - rewrite Os.
      assert (Z : forall m t, (j < t)%nat -> sum_list (fun z => w (z_m z v) * (overlap (grid_x G j) (g_dx G) (z_r z) (z_dr z) / z_dr z * z_dv z))
        (map (fun i => shell (grid_x G i) (g_dx G) dv (f (grid_x G i))) (seq t m)) = 0).
      { induction m as [|m IHm]; intros t Ht; [reflexivity|]. cbn [seq map sum_list fold_right shell z_m z_r z_dr z_dv].
        fold (sum_list (fun z => w (z_m z v) * (overlap (grid_x G j) (g_dx G) (z_r z) (z_dr z) / z_dr z * z_dv z))
          (map (fun i => shell (grid_x G i) (g_dx G) dv (f (grid_x G i))) (seq (S t) m))).
        rewrite IHm by lia. rewrite Ov by (right; exact Ht). unfold Rdiv. ring. }
      rewrite Z by lia. field. lra.
    - rewrite (IH (S s)) by lia. rewrite Ov by lia. unfold Rdiv. ring. }
  assert (CM : forall j, (j < g_n G)%nat -> cell_mean (InterpolateMatterTo1D G previous zones) v j = f (grid_x G j) * (dv / (dv + SMALL))).
  { intros j Hj. destruct (P j Hj) as [PV PM]. specialize (PM v). unfold cell_mean. rewrite PV, PM.
    pose proof (Sum (fun x => x) j (g_n G) 0%nat ltac:(lia)) as S1. cbv beta in S1. fold zones in S1. rewrite S1.
    pose proof (Sum (fun x => 1) j (g_n G) 0%nat ltac:(lia)) as S2. cbv beta in S2. fold zones in S2.
    rewrite (sum_list_ext _ (fun z => 1 * (overlap (grid_x G j) (g_dx G) (z_r z) (z_dr z) / z_dr z * z_dv z))) by (intros; ring). rewrite S2.
    rewrite Rmult_1_l, (Rabs_pos_eq dv) by lra. rewrite ratio_R. destruct (Rle_dec 0 dv); [|lra]. unfold Rdiv. ring. }
  destruct k as [|k]; [lia|]. unfold DivideVols. rewrite !CM by lia. rewrite grid_x_S. unfold f. pose proof SMALL_pos. field. lra.
Qed.
Print Assumptions C32_shift_refuted.

(** Cartesian zones: the radial width the helper computes is (x dx + y dy + z dz)/r, negative in half of the
    domain; such zones contribute nothing at all. *)
Theorem C32_cartesian_refuted (G : Grid) (c : Cells) (x y z dx dy dz dv : R) (q : nat -> R) :
  (x, y) <> (0, 0) -> x * dx + y * dy + z * dz < 0 ->
  let d := s2c_derivatives x y z dx dy dz in
  let zone := {| z_r := s2c_r x y z; z_dr := d 0%nat; z_dv := dv; z_m := q |} in
  d 0%nat = (x * dx + y * dy + z * dz) / s2c_r x y z /\
  forall k, c_vols (add_zone G c zone) k = c_vols c k /\ forall v, c_matter (add_zone G c zone) v k = c_matter c v k.
Proof.
  intros Hxy Hneg d zone.
  assert (Hr : 0 < s2c_r x y z) by (apply s2c_r_pos; intros E; apply Hxy; congruence).
  assert (E : d 0%nat = (x * dx + y * dy + z * dz) / s2c_r x y z).
  { destruct (s2c_th_spec x y z Hxy) as (E1 & E2 & _). destruct (atan2_spec x y Hxy) as (A1 & A2). cbv zeta in *.
    unfold d, s2c_derivatives. cbn [row3]. unfold s2c_ph. rewrite <- E2 in A1, A2. set (r := s2c_r x y z) in *. set (th := s2c_th x y z) in *.
    apply (Rmult_eq_reg_r r); [|lra]. unfold Rdiv. rewrite Rmult_assoc, Rinv_l, Rmult_1_r by lra.
    transitivity (r * sin th * cos (atan2 y x) * dx + r * sin th * sin (atan2 y x) * dy + r * cos th * dz); [ring | rewrite A1, A2, E1; reflexivity]. }
  split; [exact E|].
  assert (Dn : d 0%nat < 0).
  { rewrite E. unfold Rdiv. pose proof (Rinv_0_lt_compat _ Hr). nra. }
  assert (W : forall k, zone_weight G zone k = 0).
  { intros k. unfold zone_weight, zone. cbn [z_r z_dr z_dv]. unfold GetVolIntersect, InBounds. set (w := d 0%nat) in *. clearbody w.
    set (r := s2c_r x y z) in *. clearbody r. set (X := grid_x G k). set (h := g_dx G). clearbody X h.
    destruct (Rle_bool_spec (r - / 2 * w) (X - / 2 * h)), (Rlt_bool_spec (X - / 2 * h) (r + / 2 * w)),
      (Rle_bool_spec (r - / 2 * w) (X + / 2 * h)), (Rlt_bool_spec (X + / 2 * h) (r + / 2 * w)); cbn [andb negb]; try (exfalso; lra); ring. }
  intros k. unfold add_zone.
  destruct (fold_cells G zone (seq (i1dleft G zone) (i1dright G zone + 1 - i1dleft G zone)) c (seq_NoDup _ _)) as [V M].
  split.
  - rewrite V, W. destruct (in_dec _ _ _); ring.
  - intros v. rewrite M, W. destruct (in_dec _ _ _); ring.
Qed.
Print Assumptions C32_cartesian_refuted.
Example C32_cartesian_nonvacuous : (-1, -2) <> (0, 0) /\ -1 * 1 + -2 * 1 + 2 * 1 < 0.
Proof. split; [intros E; inversion E; lra | lra]. Qed.

(** One task per partition, each of which clears the arrays first: only the partition that runs last counts. *)
Theorem C32_partitions_refuted (G : Grid) (start : Cells) (parts : list (list Zone)) (p : list Zone) :
  partitions_1d G start (parts ++ [p]) = InterpolateMatterTo1D G start p.
Proof. unfold partitions_1d. rewrite fold_left_app. reflexivity. Qed.
Print Assumptions C32_partitions_refuted.
Example C32_partitions_lost : let p1 := [shell 1 1 1 5] in let p2 := [shell 1 1 1 0] in
  sum_n 3 (c_matter (partitions_1d grid3 cells_zero [p1; p2]) 0) = 0 /\ sum_n 3 (c_matter (partitions_1d grid3 cells_zero [p1 ++ p2]) 0) = 5.
Proof.
  cbv zeta.
  assert (O : forall q, on_grid grid3 (shell 1 1 1 q)).
  { intros q. unfold on_grid, grid_x, grid3, shell. cbn [g_min g_dx g_n z_r z_dr Nat.sub INR]. repeat split; lra. }
  change [[shell 1 1 1 5]; [shell 1 1 1 0]] with ([[shell 1 1 1 5]] ++ [[shell 1 1 1 0]]).
  rewrite C32_partitions_refuted. change [[shell 1 1 1 5] ++ [shell 1 1 1 0]] with ([] ++ [[shell 1 1 1 5; shell 1 1 1 0]]).
  rewrite C32_partitions_refuted. change 3%nat with (g_n grid3).
  assert (N : (2 <= g_n grid3)%nat) by (cbn; lia). assert (D : 0 < g_dx grid3) by (cbn; lra).
  split.
  - destruct (C32_average grid3 cells_zero [shell 1 1 1 0] N D) as (_ & _ & T); [intros z [<-|[]]; apply O|]. rewrite T. cbn. ring.
  - destruct (C32_average grid3 cells_zero [shell 1 1 1 5; shell 1 1 1 0] N D) as (_ & _ & T); [intros z [<-|[<-|[]]]; apply O|]. rewrite T. cbn. ring.
Qed.

(** ** Time step and call count *)
Theorem C32_timestep (top dtfac : R) (alpha dalphadt : nat -> R) (n i : nat) :
  0 <= dtfac -> (i < n)%nat -> 0 < alpha i ->
  EstimateTimeStep top dtfac alpha dalphadt n * Rabs (dalphadt i) <= dtfac * alpha i.
Proof.
  intros Hf Hi Ha. unfold EstimateTimeStep.
  assert (M : min_timescale top alpha dalphadt n <= Rabs (ratio (T:=R) (alpha i) (dalphadt i))).
  { induction n as [|n IH]; [lia|]. cbn [min_timescale]. destruct (Nat.eq_dec i n) as [->|N]; [apply Rmin_r|].
    eapply Rle_trans; [apply Rmin_l | apply IH; lia]. }
  pose proof SMALL_pos as SP. set (d := dalphadt i) in *.
  assert (E : Rabs (ratio (T:=R) (alpha i) d) = alpha i / (Rabs d + SMALL)).
  { rewrite ratio_R. destruct (Rle_dec 0 d) as [P|P].
    - rewrite (Rabs_pos_eq d) by exact P. apply Rabs_pos_eq. left. apply Rdiv_lt_0_compat; lra.
    - assert (L : d < 0) by lra. rewrite (Rabs_left d) by lra. replace (alpha i / (d - SMALL)) with (- (alpha i / (- d + SMALL))) by (field; lra).
      rewrite Rabs_Ropp. apply Rabs_pos_eq. left. apply Rdiv_lt_0_compat; lra. }
  rewrite E in M. pose proof (Rabs_pos d) as AP.
  rewrite Rmult_assoc. apply Rmult_le_compat_l; [exact Hf|].
  apply Rle_trans with (alpha i / (Rabs d + SMALL) * Rabs d); [apply Rmult_le_compat_r; [exact AP | exact M]|].
  apply (Rmult_le_reg_r (Rabs d + SMALL)); [lra|]. replace (alpha i / (Rabs d + SMALL) * Rabs d * (Rabs d + SMALL)) with (alpha i * Rabs d) by (field; lra). nra.
Qed.
Print Assumptions C32_timestep.
Example C32_timestep_nonvacuous : EstimateTimeStep 1000 (/ 2) (fun _ => 1) (fun _ => 0) 0 = 500.
Proof. unfold EstimateTimeStep. cbn [min_timescale]. lra. Qed.

Lemma runs_from N : (0 <= N)%Z -> forall n c, (0 <= c)%Z -> monopole_runs true false N c n = Nat.min n (Z.to_nat (N + 1 - c)).
Proof.
  intros HN. induction n as [|n IH]; intros c Hc; cbn [monopole_runs]; [reflexivity|].
  unfold monopole_call. cbn [andb negb]. assert (E : (N <? 0)%Z = false) by (apply Z.ltb_ge; exact HN). rewrite E. cbn [orb].
  destruct (c <=? N)%Z eqn:L; cbn [andb].
  - apply Z.leb_le in L. rewrite IH by lia. lia.
  - apply Z.leb_gt in L. rewrite IH by lia. lia.
Qed.
(** "only run monopole solver the first run_n_times subcycles": it runs one more; a negative number means always. *)
Theorem C32_calls_refuted (N : Z) (n : nat) :
  ((0 <= N)%Z -> (Z.to_nat N < n)%nat -> monopole_runs true false N 0 n = S (Z.to_nat N)) /\
  ((N < 0)%Z -> monopole_runs true false N 0 n = n) /\
  (forall fs, monopole_runs false fs N 0 n = 0%nat) /\ monopole_runs true true N 0 n = 0%nat.
Proof.
  split; [intros HN Hn; rewrite runs_from by lia; lia|]. split.
  - intros HN. generalize 0%Z as c. induction n as [|n IH]; intros c; cbn [monopole_runs]; [reflexivity|].
    unfold monopole_call. cbn [andb negb]. assert (E : (N <? 0)%Z = true) by (apply Z.ltb_lt; exact HN). rewrite E. cbn [orb andb]. rewrite IH. reflexivity.
  - split.
    + intros fs. generalize 0%Z as c. induction n as [|n IH]; intros c; cbn [monopole_runs]; [reflexivity|]. unfold monopole_call. cbn [andb]. rewrite IH. reflexivity.
    + generalize 0%Z as c. induction n as [|n IH]; intros c; cbn [monopole_runs]; [reflexivity|]. unfold monopole_call. rewrite Bool.andb_false_r. rewrite IH. reflexivity.
Qed.
Print Assumptions C32_calls_refuted.
