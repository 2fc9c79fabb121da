(** C15: orthonormal tetrads. *)
From Coq Require Import Reals Arith Lia Lra Psatz.
From Flocq Require Import Core.
From Verif.Spec Require Import Tensor GeomSpec Relativity.
From Verif.Model Require Import Num Robust Geometry Tetrads.
From Verif.Proofs Require Import NumR RobustProofs TensorTac LinearAlgebraProofs RelProofs TetradProofs.
Local Open Scope R_scope.

(** For every Lorentzian metric, timelike U and trial vector for which the vectors handed
    to Gram-Schmidt are independent, the frame is orthonormal and its time leg is U
    rescaled to unit norm. *)
Theorem C15_orthonormal : forall (g : mat) (U T : vec),
  lorentzian g -> timelike g U -> independent (candidates U T g) ->
  orthonormal g (Econ U T g) /\
  (forall mu, (mu < 4)%nat -> Econ U T g 0%nat mu = U mu / sqrt (- dot4 g U U)).
Proof.
  intros g U T (al & be & ga & H) HU HI.
  assert (C0 : candidates U T g 0%nat = U).
  { unfold candidates. repeat match goal with |- context [if ?b then _ else _] => destruct b end; reflexivity. }
  split.
  - apply (gs_orthonormal _ _ _ _ _ H); [rewrite C0; exact HU|exact HI].
  - intros mu Hm. unfold Econ, gram_schmidt. cbn [rows4]. rewrite C0. unfold Normalize_.
    rewrite contract_dot4, Rabs_left by exact HU. reflexivity.
Qed.
Print Assumptions C15_orthonormal.

Lemma minkowski_tpo : three_plus_one 1 (fun _ => 0) (fun i j => if Nat.eqb i j then 1 else 0) eta.
Proof.
  constructor.
  - lra.
  - intros i j Hi Hj. idx; reflexivity.
  - intros v (i & Hi & Hv). unfold dot3, sum3. cbn.
    assert (0 < v i * v i) by (apply Rsqr_pos_lt; exact Hv).
    pose proof (Rle_0_sqr (v 0%nat)); pose proof (Rle_0_sqr (v 1%nat)); pose proof (Rle_0_sqr (v 2%nat)).
    unfold Rsqr in *. idx; lra.
  - intros i j Hi Hj. idx; reflexivity.
  - unfold dot3, sum3, eta; cbn; ring.
  - intros i Hi. idx; unfold lower3, sum3, eta; cbn; ring.
  - intros i j Hi Hj. idx; reflexivity.
Qed.

(** with the default trial vector (0,1,0,0), which is the only one phoebus passes, the
    construction never degenerates *)
Theorem C15_default_trial : forall (g : mat) (U : vec),
  lorentzian g -> timelike g U -> orthonormal g (Econ U default_trial g).
Proof.
  intros g U L HU. refine (proj1 (C15_orthonormal g U default_trial L HU _)).
  destruct L as (al & be & ga & H).
  pose proof (timelike_time _ _ _ _ H U HU) as U0.
  pose proof (tpo_gsym _ _ _ _ H) as Gs. pose proof (tpo_gpd _ _ _ _ H) as Gp.
  pose proof (tpo_ij _ _ _ _ H) as E. pose proof (tpo_sym _ _ _ _ H) as Sg.
  assert (X : forall k, (k < 3)%nat -> Xness (S k) default_trial g = Rabs (ga k 0%nat) / sqrt (ga k k)).
  { intros k Hk. pose proof (pd_diag ga Gp k Hk) as P. unfold Xness, sum4, default_trial; cbn [row4].
    rewrite !E by lia. rewrite (Rabs_pos_eq (ga k k)) by lra.
    assert (0 < sqrt (ga k k)) by (apply sqrt_lt_R0, P).
    replace (g (S k) 0%nat * 0 / sqrt (ga k k) + ga k 0%nat * 1 / sqrt (ga k k) + ga k 1%nat * 0 / sqrt (ga k k) +
      ga k 2%nat * 0 / sqrt (ga k k)) with (ga k 0%nat * / sqrt (ga k k)) by (unfold Rdiv; ring).
    rewrite Rabs_mult. unfold Rdiv. f_equal. rewrite Rabs_pos_eq; [reflexivity|].
    left. apply Rinv_0_lt_compat. assumption. }
  pose proof (pd_diag ga Gp 0 ltac:(lia)) as P0.
  assert (X1 : Xness 1 default_trial g = sqrt (ga 0%nat 0%nat)).
  { rewrite X by lia. rewrite Rabs_pos_eq by lra.
    rewrite <- (sqrt_sqrt (ga 0%nat 0%nat)) at 1 by lra. field. assert (0 < sqrt (ga 0%nat 0%nat)) by (apply sqrt_lt_R0; lra). lra. }
  assert (XK : forall k, (k < 3)%nat -> k <> 0%nat -> Xness (S k) default_trial g < Xness 1 default_trial g).
  { intros k Hk N. rewrite X1, X by exact Hk. pose proof (pd_diag ga Gp k Hk) as P.
    assert (0 < sqrt (ga k k)) by (apply sqrt_lt_R0, P).
    apply Rmult_lt_reg_r with (sqrt (ga k k)); [assumption|].
    replace (Rabs (ga k 0%nat) / sqrt (ga k k) * sqrt (ga k k)) with (Rabs (ga k 0%nat)) by (field; lra).
    rewrite <- sqrt_mult by lra. rewrite <- sqrt_Rsqr_abs. apply sqrt_lt_1.
    - apply Rle_0_sqr.
    - apply Rmult_le_pos; lra.
    - unfold Rsqr. pose proof (pd_minor ga Gs Gp k 0 Hk ltac:(lia) N). lra. }
  assert (C : forall a mu, (a < 4)%nat -> (mu < 4)%nat ->
     candidates U default_trial g a mu = match a with O => U mu | _ => delta mu a end).
  { intros a mu Ha Hm. unfold candidates. destruct (Rlt_bool EPS _).
    - rewrite (Rlt_bool_true (Xness 2 _ _)) by (apply (XK 1%nat); lia).
      rewrite (Rlt_bool_true (Xness 3 _ _)) by (apply (XK 2%nat); lia). cbn [andb].
      idx; cbn [rows4]; unfold default_trial, KroneckerDelta, delta; cbn; reflexivity.
    - idx; cbn [rows4]; unfold KroneckerDelta, delta; cbn; reflexivity. }
  intros c Hc.
  assert (K0 := Hc 0%nat ltac:(lia)). assert (K1 := Hc 1%nat ltac:(lia)).
  assert (K2 := Hc 2%nat ltac:(lia)). assert (K3 := Hc 3%nat ltac:(lia)).
  unfold sum4 in K0, K1, K2, K3. rewrite !C in K0, K1, K2, K3 by lia. unfold delta in *; cbn in K0, K1, K2, K3.
  assert (c 0%nat = 0).
  { assert (Z : c 0%nat * U 0%nat = 0) by lra. apply Rmult_integral in Z. destruct Z; [assumption|contradiction]. }
  intros a Ha. idx; [assumption| | |]; rewrite H0 in *; lra.
Qed.
Print Assumptions C15_default_trial.

(** non-vacuous: a fluid moving at speed 4/5 in a boosted frame *)
Example C15_default_nonvacuous : lorentzian eta /\ timelike eta (row4 (5/3) (4/3) 0 0).
Proof.
  split; [do 3 eexists; exact minkowski_tpo|]. unfold timelike, dot4, sum4, eta; cbn. lra.
Qed.

(** a spatial trial vector is also safe when the spatial metric is diagonal *)
Theorem C15_diagonal_trial : forall (g : mat) (U T : vec),
  lorentzian g -> timelike g U ->
  (forall i j, (i < 4)%nat -> (j < 4)%nat -> (0 < i)%nat -> (0 < j)%nat -> i <> j -> g i j = 0) ->
  T 0%nat = 0 ->
  orthonormal g (Econ U T g).
Proof.
  intros g U T L HU HD T0. refine (proj1 (C15_orthonormal g U T L HU _)).
  destruct L as (al & be & ga & H).
  pose proof (timelike_time _ _ _ _ H U HU) as U0.
  pose proof (tpo_gpd _ _ _ _ H) as Gp. pose proof (tpo_ij _ _ _ _ H) as E.
  assert (P : forall k, (0 < k)%nat -> (k < 4)%nat -> 0 < g k k).
  { intros [|k] Hk Hk'; [lia|]. rewrite E by lia. apply pd_diag; [exact Gp|lia]. }
  assert (X : forall k, (0 < k)%nat -> (k < 4)%nat -> T k = 0 <-> Xness k T g = 0).
  { intros k H0 H4. pose proof (P k H0 H4) as Pk. assert (S0 : 0 < sqrt (g k k)) by (apply sqrt_lt_R0, Pk).
    assert (EX : Xness k T g = Rabs (g k k * T k / sqrt (g k k))).
    { unfold Xness. rewrite (Rabs_pos_eq (g k k)) by lra. f_equal. unfold sum4. rewrite T0.
      assert (k = 1 \/ k = 2 \/ k = 3)%nat as [->|[->| ->]] by lia;
      rewrite ?(HD 1 2)%nat, ?(HD 1 3)%nat, ?(HD 2 1)%nat, ?(HD 2 3)%nat, ?(HD 3 1)%nat, ?(HD 3 2)%nat by lia; unfold Rdiv; ring. }
    rewrite EX. split.
    - intros Z. rewrite Z. unfold Rdiv. rewrite Rmult_0_r, Rmult_0_l. apply Rabs_R0.
    - intros Z. destruct (Req_dec (T k) 0) as [|N]; [assumption|]. exfalso. revert Z. apply Rabs_no_R0.
      unfold Rdiv. apply Rmult_integral_contrapositive_currified.
      + apply Rmult_integral_contrapositive_currified; lra.
      + apply Rinv_neq_0_compat. lra. }
  assert (XP : forall k, 0 <= Xness k T g) by (intros k; apply Rabs_pos).
  assert (NZ : (EPS : R) < contract g T T -> ~ (T 1%nat = 0 /\ T 2%nat = 0 /\ T 3%nat = 0)).
  { intros N (Z1 & Z2 & Z3). unfold contract, sum4 in N. rewrite T0, Z1, Z2, Z3 in N.
    assert (0 < (EPS : R)) by (pose proof EPS_pos; lra). lra. }
  assert (G : forall k, (0 < k)%nat -> (k < 4)%nat -> T k <> 0 ->
     independent (rows4 U (if Nat.eqb k 1 then T else fun mu => KroneckerDelta mu 1)
        (if Nat.eqb k 2 then T else fun mu => KroneckerDelta mu 2) (if Nat.eqb k 3 then T else fun mu => KroneckerDelta mu 3))).
  { intros k Hk Hk4 NT c Hc.
    assert (K0 := Hc 0%nat ltac:(lia)). assert (K1 := Hc 1%nat ltac:(lia)).
    assert (K2 := Hc 2%nat ltac:(lia)). assert (K3 := Hc 3%nat ltac:(lia)).
    assert (k = 1 \/ k = 2 \/ k = 3)%nat as [->|[->| ->]] by lia; unfold sum4, KroneckerDelta in K0, K1, K2, K3;
      cbn in K0, K1, K2, K3; rewrite T0 in K0;
      (assert (c 0%nat = 0) by (assert (Z : c 0%nat * U 0%nat = 0) by lra; apply Rmult_integral in Z; destruct Z; [assumption|contradiction]));
      rewrite H0 in *.
    - assert (C1 : c 1%nat = 0) by (assert (Z : c 1%nat * T 1%nat = 0) by lra; apply Rmult_integral in Z; destruct Z; [assumption|contradiction]).
      rewrite C1 in *. intros a Ha. idx; lra.
    - assert (C1 : c 2%nat = 0) by (assert (Z : c 2%nat * T 2%nat = 0) by lra; apply Rmult_integral in Z; destruct Z; [assumption|contradiction]).
      rewrite C1 in *. intros a Ha. idx; lra.
    - assert (C1 : c 3%nat = 0) by (assert (Z : c 3%nat * T 3%nat = 0) by lra; apply Rmult_integral in Z; destruct Z; [assumption|contradiction]).
      rewrite C1 in *. intros a Ha. idx; lra. }
  unfold candidates. destruct (Rlt_bool_spec EPS (contract g T T)) as [N|N].
  { specialize (NZ N). destruct (Rlt_bool_spec (Xness 2 T g) (Xness 1 T g)), (Rlt_bool_spec (Xness 3 T g) (Xness 1 T g));
     destruct (Rle_bool_spec (Xness 1 T g) (Xness 2 T g)), (Rlt_bool_spec (Xness 3 T g) (Xness 2 T g)); cbn [andb]; try lra.
    all: try (apply (G 1%nat); [lia|lia|]; intros Z; apply X in Z; [|lia|lia]; pose proof (XP 2%nat); lra).
    all: try (apply (G 2%nat); [lia|lia|]; intros Z; apply X in Z; [|lia|lia]; pose proof (XP 3%nat); lra).
    all: apply (G 3%nat); [lia|lia|]; intros Z; apply NZ; apply X in Z; [|lia|lia];
      pose proof (XP 1%nat); pose proof (XP 2%nat); repeat split; [apply X; [lia|lia|lra]|apply X; [lia|lia|lra]|apply X; [lia|lia|exact Z]]. }
  { intros c Hc.
    assert (K0 := Hc 0%nat ltac:(lia)). assert (K1 := Hc 1%nat ltac:(lia)).
    assert (K2 := Hc 2%nat ltac:(lia)). assert (K3 := Hc 3%nat ltac:(lia)).
    unfold sum4, KroneckerDelta in K0, K1, K2, K3; cbn in K0, K1, K2, K3.
    assert (c 0%nat = 0) by (assert (Z : c 0%nat * U 0%nat = 0) by lra; apply Rmult_integral in Z; destruct Z; [assumption|contradiction]).
    rewrite H0 in *. intros a Ha. idx; lra. }
Qed.
Print Assumptions C15_diagonal_trial.

Example C15_diagonal_nonvacuous : lorentzian eta /\ timelike eta (row4 (5/3) (4/3) 0 0) /\
  (forall i j, (i < 4)%nat -> (j < 4)%nat -> (0 < i)%nat -> (0 < j)%nat -> i <> j -> eta i j = 0) /\ row4 0 1 2 3 0%nat = 0.
Proof.
  destruct C15_default_nonvacuous as [A B]. repeat split; try assumption.
  intros i j Hi Hj Ii Ij N. unfold eta. destruct (Nat.eqb_spec i j); [contradiction|reflexivity].
Qed.

(** transforming to the tetrad and back, and back and forth, returns the vector, both for
    contravariant and covariant components *)
Theorem C15_roundtrip : forall (g : mat) (U T V : vec),
  symmetric4 g -> orthonormal g (Econ U T g) ->
  eq4 (TetradToCoordCon U T g (CoordToTetradCon U T g V)) V /\
  eq4 (CoordToTetradCon U T g (TetradToCoordCon U T g V)) V /\
  eq4 (TetradToCoordCov U T g (CoordToTetradCov U T g V)) V /\
  eq4 (CoordToTetradCov U T g (TetradToCoordCov U T g V)) V.
Proof.
  intros g U T V Sg HO. pose proof (frame_inverse g _ Sg HO) as I.
  set (E := Econ U T g) in *. set (F := cov g E) in *.
  assert (A : forall i j, (i < 4)%nat -> (j < 4)%nat -> sum4 (fun a => E a i * F a j) = delta i j) by (intros; apply (inverse4_r _ _ I); assumption).
  assert (B : forall i j, (i < 4)%nat -> (j < 4)%nat -> sum4 (fun m => F i m * E j m) = delta i j) by (intros; apply (inverse4_l _ _ I); assumption).
  repeat split; intros mu Hm; unfold TetradToCoordCon, CoordToTetradCon, TetradToCoordCov, CoordToTetradCov, Ecov;
   fold E; change (Ecov_of E g) with F.
  - transitivity (sum4 (fun nu => sum4 (fun a => E a mu * F a nu) * V nu)); [unfold sum4; ring|].
    unfold sum4 at 1. rewrite !A by lia. unfold delta. idx; cbn; ring.
  - transitivity (sum4 (fun nu => sum4 (fun m => F mu m * E nu m) * V nu)); [unfold sum4; ring|].
    unfold sum4 at 1. rewrite !B by lia. unfold delta. idx; cbn; ring.
  - transitivity (sum4 (fun nu => sum4 (fun a => E a nu * F a mu) * V nu)); [unfold sum4; ring|].
    unfold sum4 at 1. rewrite !A by lia. unfold delta. idx; cbn; ring.
  - transitivity (sum4 (fun nu => sum4 (fun m => F nu m * E mu m) * V nu)); [unfold sum4; ring|].
    unfold sum4 at 1. rewrite !B by lia. unfold delta. idx; cbn; ring.
Qed.
Print Assumptions C15_roundtrip.

(** physical content: inner products measured in the tetrad are special-relativistic,
    the contraction of a covector with a vector is unchanged, lowering an index commutes
    with the transformation, and the observer U is at rest in its own frame *)
Theorem C15_inner_products : forall (g : mat) (U T V W : vec),
  symmetric4 g -> orthonormal g (Econ U T g) ->
  dot4 eta (CoordToTetradCon U T g V) (CoordToTetradCon U T g W) = dot4 g V W /\
  sum4 (fun mu => CoordToTetradCov U T g V mu * CoordToTetradCon U T g W mu) = sum4 (fun mu => V mu * W mu) /\
  eq4 (CoordToTetradCov U T g (lower4 g V)) (lower4 eta (CoordToTetradCon U T g V)).
Proof.
  intros g U T V W Sg HO. pose proof (frame_inverse g _ Sg HO) as I.
  set (E := Econ U T g) in *. set (F := cov g E) in *.
  assert (A : forall i j, (i < 4)%nat -> (j < 4)%nat -> sum4 (fun a => E a i * F a j) = delta i j) by (intros; apply (inverse4_r _ _ I); assumption).
  assert (L : forall a, (a < 4)%nat -> sum4 (fun mu => E a mu * lower4 g V mu) = (if Nat.eqb a 0 then -1 else 1) * sum4 (fun nu => F a nu * V nu)).
  { intros a Ha. unfold F, cov, Ecov_of, Lower, lower4.
    unfold sum4.
    rewrite (Sg 1 0)%nat, (Sg 2 0)%nat, (Sg 2 1)%nat, (Sg 3 0)%nat, (Sg 3 1)%nat, (Sg 3 2)%nat by lia.
    destruct a; cbn [Nat.eqb]; ring. }
  assert (Low : eq4 (CoordToTetradCov U T g (lower4 g V)) (lower4 eta (CoordToTetradCon U T g V))).
  { intros a Ha. unfold CoordToTetradCov, CoordToTetradCon, Ecov; fold E; change (Ecov_of E g) with F.
    rewrite L by exact Ha. unfold lower4 at 1. unfold sum4, eta. idx; cbn [Nat.eqb]; ring. }
  assert (Con : forall V W, sum4 (fun mu => CoordToTetradCov U T g V mu * CoordToTetradCon U T g W mu) = sum4 (fun mu => V mu * W mu)).
  { intros V' W'. unfold CoordToTetradCov, CoordToTetradCon, Ecov; fold E; change (Ecov_of E g) with F.
    transitivity (sum4 (fun mu => sum4 (fun nu => sum4 (fun a => E a mu * F a nu) * V' mu * W' nu))); [unfold sum4; ring|].
    assert (A' : forall f, sum4 (fun mu => sum4 (fun nu => sum4 (fun a => E a mu * F a nu) * f mu nu)) = sum4 (fun mu => sum4 (fun nu => delta mu nu * f mu nu))).
    { intros f. unfold sum4 at 1 2 4 5. rewrite !A by lia. reflexivity. }
    transitivity (sum4 (fun mu => sum4 (fun nu => sum4 (fun a => E a mu * F a nu) * (V' mu * W' nu)))); [unfold sum4; ring|].
    rewrite A'. unfold sum4, delta; cbn. ring. }
  repeat split; [|apply Con|exact Low].
  transitivity (sum4 (fun mu => CoordToTetradCov U T g (lower4 g V) mu * CoordToTetradCon U T g W mu)).
  - transitivity (sum4 (fun mu => lower4 eta (CoordToTetradCon U T g V) mu * CoordToTetradCon U T g W mu)).
    + unfold dot4, lower4, sum4, eta. cbn [Nat.eqb]. ring.
    + unfold sum4. rewrite !Low by lia. reflexivity.
  - rewrite Con. unfold lower4, dot4, sum4.
    rewrite (Sg 1 0)%nat, (Sg 2 0)%nat, (Sg 2 1)%nat, (Sg 3 0)%nat, (Sg 3 1)%nat, (Sg 3 2)%nat by lia. ring.
Qed.
Print Assumptions C15_inner_products.

Theorem C15_observer_at_rest : forall (g : mat) (U : vec),
  lorentzian g -> dot4 g U U = -1 ->
  eq4 (CoordToTetradCon U default_trial g U) (axis 0) /\
  eq4 (TetradToCoordCon U default_trial g (axis 0)) U.
Proof.
  intros g U L N. assert (HU : timelike g U) by (unfold timelike; lra).
  pose proof (C15_default_trial g U L HU) as HO.
  assert (E0 : forall mu, Econ U default_trial g 0%nat mu = U mu).
  { intros mu. unfold Econ, gram_schmidt, Normalize_. cbn [rows4]. rewrite contract_dot4.
    assert (C0 : candidates U default_trial g 0%nat = U).
    { unfold candidates. repeat match goal with |- context [if ?b then _ else _] => destruct b end; reflexivity. }
    rewrite C0, N. rewrite Rabs_left by lra. replace (- (-1)) with 1 by lra. rewrite sqrt_1. unfold Rdiv. lra. }
  destruct L as (al & be & ga & H). pose proof (tpo_sym _ _ _ _ H) as Sg.
  assert (T2 : eq4 (TetradToCoordCon U default_trial g (axis 0)) U).
  { intros mu Hm. unfold TetradToCoordCon, sum4, axis, delta. cbn [Nat.eqb]. rewrite E0. ring. }
  split; [|exact T2].
  intros mu Hm.
  destruct (C15_roundtrip g U default_trial (axis 0) Sg HO) as (_ & R & _ & _).
  rewrite <- R by exact Hm. unfold CoordToTetradCon, sum4. rewrite !T2 by lia. reflexivity.
Qed.
Print Assumptions C15_observer_at_rest.

Example C15_observer_nonvacuous : lorentzian eta /\ dot4 eta (row4 (5/3) (4/3) 0 0) (row4 (5/3) (4/3) 0 0) = -1.
Proof. split; [exact (proj1 C15_default_nonvacuous)|]. unfold dot4, sum4, eta; cbn. field. Qed.

(** A general trial vector can break the construction even in flat space and even when it
    is spacelike and orthogonal to U (like a magnetic field): the selection rule replaces
    the axis whose covariant component is largest, which can leave U, the trial vector and
    the remaining axes dependent.  (In the code the result is NaN.) *)
Theorem C15_trial_refuted : exists (U T : vec),
  timelike eta U /\ dot4 eta T T > 1 /\ dot4 eta U T = 0 /\ ~ orthonormal eta (Econ U T eta).
Proof.
  set (U := row4 1 (4/5) (1/2) 0). set (T := row4 (25/2) 10 9 0). exists U, T.
  assert (UU : dot4 eta U U = -11/100) by (unfold dot4, sum4, eta, U; cbn; field).
  assert (TT : dot4 eta T T = 99/4) by (unfold dot4, sum4, eta, T; cbn; field).
  assert (UT : dot4 eta U T = 0) by (unfold dot4, sum4, eta, U, T; cbn; field).
  repeat split; [unfold timelike; lra|lra|exact UT|].
  intros HO. pose proof (HO 2%nat 2%nat ltac:(lia) ltac:(lia)) as K. cbn [eta Nat.eqb] in K.
  assert (C : Econ U T eta = gram_schmidt (rows4 U T (fun mu => KroneckerDelta mu 2) (fun mu => KroneckerDelta mu 3)) eta).
  { unfold Econ, candidates. rewrite contract_dot4, TT.
    assert (X : forall k, (k < 4)%nat -> (0 < k)%nat -> Xness k T eta = T k).
    { intros k Hk Hk0. unfold Xness, sum4. assert (EE : eta k k = 1) by (unfold eta; rewrite Nat.eqb_refl; destruct k; [lia|reflexivity]).
      rewrite EE, Rabs_R1, sqrt_1.
      assert (k = 1 \/ k = 2 \/ k = 3)%nat as [->|[->| ->]] by lia; unfold eta, T; cbn;
      rewrite Rabs_pos_eq; lra. }
    rewrite !X by lia. rewrite Rlt_bool_true by (pose proof EPS_pos; lra).
    rewrite !Rlt_bool_true by (unfold T; cbn; lra). reflexivity. }
  rewrite C in K. revert K.
  unfold gram_schmidt. cbn [rows4].
  set (E0 := Normalize_ U eta).
  assert (V0 : forall mu, E0 mu = / sqrt (11/100) * U mu).
  { intros mu. unfold E0. rewrite norm_val, UU. rewrite Rabs_left by lra. replace (- (-11/100)) with (11/100) by lra. reflexivity. }
  assert (s0 : 0 < sqrt (11/100)) by (apply sqrt_lt_R0; lra).
  assert (q0 : sqrt (11/100) * sqrt (11/100) = 11/100) by (apply sqrt_sqrt; lra).
  assert (P0 : forall w mu, ProjectOut_ w E0 eta mu = w mu - dot4 eta w U / (-11/100) * U mu).
  { intros w mu. rewrite proj_val, V0.
    rewrite (dot4_ext _ w w E0 (fun i => / sqrt (11/100) * U i)) by (solve [intros i Hi; reflexivity | intros i Hi; apply V0]).
    rewrite (dot4_ext _ E0 (fun i => / sqrt (11/100) * U i) E0 (fun i => / sqrt (11/100) * U i)) by (intros i Hi; apply V0).
    rewrite dot4_scaler, dot4_scale, dot4_scaler, UU.
    apply Rmult_eq_reg_l with (sqrt (11/100) * sqrt (11/100)); [|rewrite q0; lra]. field. lra. }
  assert (R1 : forall mu, ProjectOut_ T E0 eta mu = T mu).
  { intros mu. rewrite P0. rewrite dot4_sym by (intros i j Hi Hj; idx; reflexivity). rewrite UT. field. }
  set (E1 := Normalize_ (ProjectOut_ T E0 eta) eta).
  assert (V1 : forall mu, E1 mu = / sqrt (99/4) * T mu).
  { intros mu. unfold E1. rewrite norm_val, R1.
    rewrite (dot4_ext _ (ProjectOut_ T E0 eta) T (ProjectOut_ T E0 eta) T) by (intros i Hi; apply R1).
    rewrite TT. rewrite Rabs_pos_eq by lra. reflexivity. }
  assert (s1 : 0 < sqrt (99/4)) by (apply sqrt_lt_R0; lra).
  assert (Z : forall mu, (mu < 4)%nat -> ProjectOut_ (ProjectOut_ (fun mu => KroneckerDelta mu 2) E0 eta) E1 eta mu = 0).
  { intros mu Hm. rewrite proj_val, V1.
    set (Q := ProjectOut_ (fun mu => KroneckerDelta mu 2) E0 eta).
    rewrite (dot4_ext _ Q Q E1 (fun i => / sqrt (99/4) * T i)) by (solve [intros i Hi; reflexivity | intros i Hi; apply V1]).
    rewrite (dot4_ext _ E1 (fun i => / sqrt (99/4) * T i) E1 (fun i => / sqrt (99/4) * T i)) by (intros i Hi; apply V1).
    rewrite dot4_scaler, dot4_scale, dot4_scaler, TT.
    assert (QV : forall mu, Q mu = KroneckerDelta mu 2 + 50/11 * U mu).
    { intros nu. unfold Q. rewrite P0. unfold dot4, sum4, eta, KroneckerDelta, U; cbn [Nat.eqb row4].
      field. }
    assert (QT : dot4 eta Q T = 9).
    { rewrite (dot4_ext _ Q (fun mu => KroneckerDelta mu 2 + 50/11 * U mu) T T) by (solve [intros i Hi; reflexivity | intros i Hi; apply QV]).
      unfold dot4, sum4, eta, KroneckerDelta, U, T; cbn [Nat.eqb row4]. field. }
    rewrite QT, QV.
    replace (- (/ sqrt (99 / 4) * 9 / (/ sqrt (99 / 4) * (/ sqrt (99 / 4) * (99 / 4)))) * (/ sqrt (99 / 4) * T mu))
      with (- (36/99) * T mu) by (field; lra).
    idx; unfold KroneckerDelta, U, T; cbn [Nat.eqb row4]; field. }
  intros K. rewrite normalize_dot, (dot4_zero _ _ _ Z) in K. unfold Rdiv in K. lra.
Qed.
Print Assumptions C15_trial_refuted.
