(** The freely expanding ball solves the equations of relativistic hydrodynamics. *)
From Coq Require Import Reals Arith Lia Lra.
From Coquelicot Require Import Coquelicot.
From Verif.Spec Require Import Tensor GeomSpec Relativity GRMHD WaveSpec ExpandSpec.
Local Open Scope R_scope.

Lemma expanding_W (A C : R) (Y : vec) : inside_cone Y -> gas_W (expanding A C Y) = Y 0%nat / sqrt (interval2 Y).
Proof.
  intros [H0 H]. unfold gas_W, expanding. cbn [g_vp].
  pose proof (sqrt_lt_R0 _ H) as P. pose proof (sqrt_sqrt _ (Rlt_le _ _ H)) as S2.
  set (t := sqrt (interval2 Y)) in *. clearbody t.
  rewrite <- (sqrt_square (Y 0%nat / t)) by (apply Rlt_le, Rdiv_lt_0_compat; auto).
  f_equal. unfold interval2 in S2.
  apply Rmult_eq_reg_r with (t * t); [|nra]. field_simplify; [|lra|lra]. nra.
Qed.
Lemma expanding_u (A C : R) (Y : vec) (mu : nat) : inside_cone Y -> gas_ucon (expanding A C Y) mu = Y mu / sqrt (interval2 Y).
Proof. intros H. destruct mu as [|i]; [apply expanding_W; auto|reflexivity]. Qed.
Lemma expanding_b (A C : R) (Y : vec) (mu : nat) : (mu < 4)%nat -> gas_bcon (expanding A C Y) mu = 0.
Proof.
  intros H. unfold gas_bcon, comoving_field.
  assert (S3 : forall j, (j < 4)%nat -> spatial4 (g_B (expanding A C Y)) j = 0).
  { intros j Hj. destruct j as [|[|[|[|]]]]; try lia; reflexivity. }
  unfold dot4, sum4. rewrite !S3 by lia. unfold Rdiv. ring.
Qed.
Definition mass_flux (A : R) (Y : vec) (mu : nat) : R := A * Y mu / (interval2 Y * interval2 Y).
Definition stress (A C : R) (Y : vec) (mu nu : nat) : R :=
  (A / (interval2 Y * interval2 Y * sqrt (interval2 Y)) + 4 * C / (interval2 Y * interval2 Y * interval2 Y)) * (Y mu * Y nu)
  + C / (interval2 Y * interval2 Y) * eta mu nu.
Lemma expanding_mass (A C : R) (Y : vec) (mu : nat) : inside_cone Y ->
  current (4 / 3) 0 (expanding A C Y) mu = mass_flux A Y mu.
Proof.
  intros H. unfold current. rewrite expanding_u by auto. unfold expanding, mass_flux. cbn [g_rho].
  destruct H as [_ H]. pose proof (sqrt_lt_R0 _ H) as P. pose proof (sqrt_sqrt _ (Rlt_le _ _ H)) as S2.
  rewrite <- S2 at 3 4. set (t := sqrt (interval2 Y)) in *. clearbody t. field. lra.
Qed.
Lemma expanding_T (A C : R) (Y : vec) (mu nu : nat) : (mu < 4)%nat -> (nu < 4)%nat -> inside_cone Y ->
  current (4 / 3) (S nu) (expanding A C Y) mu = stress A C Y mu nu.
Proof.
  intros Hm Hn H.
  assert (E : current (4 / 3) (S nu) (expanding A C Y) mu =
     Tcon eta eta (g_rho (expanding A C Y)) (g_u (expanding A C Y)) ((4 / 3 - 1) * g_u (expanding A C Y))
        (gas_ucon (expanding A C Y)) (gas_bcon (expanding A C Y)) mu nu).
  { destruct nu as [|[|[|[|]]]]; try lia; reflexivity. }
  rewrite E. unfold Tcon, bsquared, dot4, sum4. rewrite !expanding_b by lia. rewrite !expanding_u by auto.
  unfold expanding, stress. cbn [g_rho g_u].
  destruct H as [_ H]. pose proof (sqrt_lt_R0 _ H) as P. pose proof (sqrt_sqrt _ (Rlt_le _ _ H)) as S2.
  set (t := sqrt (interval2 Y)) in *. rewrite <- S2. clearbody t. field. lra.
Qed.
(** ** along one coordinate *)
Lemma interval_moved (X : vec) (mu : nat) (h : R) : (mu < 4)%nat ->
  interval2 (moved X mu h) = interval2 X - eta mu mu * (h * h - X mu * X mu).
Proof.
  intros H. unfold interval2, moved, eta. destruct mu as [|[|[|[|]]]]; try lia; cbn [Nat.eqb]; ring.
Qed.
Lemma cone_open (X : vec) (mu : nat) : (mu < 4)%nat -> inside_cone X ->
  locally (X mu) (fun h : R => inside_cone (moved X mu h)).
Proof.
  intros Hm [H0 H]. apply filter_and.
  - destruct mu as [|m].
    + apply (locally_open (fun h => 0 < h)); [apply open_gt| |exact H0]. intros h Hh. exact Hh.
    + apply filter_forall. intros h. exact H0.
  - apply (locally_open (fun h : R => 0 < interval2 X - eta mu mu * (h * h - X mu * X mu))).
    + apply (open_comp (fun h : R => interval2 X - eta mu mu * (h * h - X mu * X mu)) (fun y => 0 < y)); [|apply open_gt].
      intros h _. assert (D : ex_derive (fun h : R => interval2 X - eta mu mu * (h * h - X mu * X mu)) h) by (auto_derive; trivial).
      apply (ex_derive_continuous (V := R_NormedModule) _ _ D).
    + intros h Hh. rewrite interval_moved by auto. exact Hh.
    + replace (X mu * X mu - X mu * X mu) with 0 by ring. rewrite Rmult_0_r, Rminus_0_r. exact H.
Qed.
Definition dmass_flux (A : R) (X : vec) (mu : nat) : R :=
  A / (interval2 X * interval2 X) + 4 * A * eta mu mu * (X mu * X mu) / (interval2 X * interval2 X * interval2 X).
Lemma mass_partial (A C : R) (X : vec) (mu : nat) : (mu < 4)%nat -> inside_cone X ->
  partial (fun Y => current (4 / 3) 0 (expanding A C Y) mu) mu X = dmass_flux A X mu.
Proof.
  intros Hm HX. unfold partial. apply is_derive_unique.
  apply (is_derive_ext_loc (fun h : R => A * h / ((interval2 X - eta mu mu * (h * h - X mu * X mu)) * (interval2 X - eta mu mu * (h * h - X mu * X mu))))).
  { apply (filter_imp (fun h : R => inside_cone (moved X mu h))); [|apply cone_open; auto].
    intros h Hh. rewrite expanding_mass by auto. unfold mass_flux. rewrite interval_moved by auto.
    unfold moved. rewrite Nat.eqb_refl. reflexivity. }
  destruct HX as [_ H]. unfold dmass_flux. set (N := interval2 X) in *. clearbody N.
  auto_derive.
  - match goal with |- ?a * ?b <> 0 => replace a with N by ring; replace b with N by ring end.
    apply Rmult_integral_contrapositive. lra.
  - match goal with |- @eq _ ?x ?y => change (@eq R x y) end.
    replace (N + - (eta mu mu * (X mu * X mu + - (X mu * X mu)))) with N by ring. field. lra.
Qed.
Definition dstress (A C : R) (X : vec) (mu nu : nat) : R :=
  let N := interval2 X in
  (5 * A / (N * N * N * sqrt N) + 24 * C / (N * N * N * N)) * (eta mu mu * X mu) * (X mu * X nu)
  + (A / (N * N * sqrt N) + 4 * C / (N * N * N)) * (X nu + delta mu nu * X mu)
  + 4 * C * (eta mu mu * X mu) / (N * N * N) * eta mu nu.
Lemma stress_partial (A C : R) (X : vec) (mu nu : nat) : (mu < 4)%nat -> (nu < 4)%nat -> inside_cone X ->
  partial (fun Y => current (4 / 3) (S nu) (expanding A C Y) mu) mu X = dstress A C X mu nu.
Proof.
  intros Hm Hn HX. unfold partial. apply is_derive_unique.
  set (N := fun h : R => interval2 X - eta mu mu * (h * h - X mu * X mu)).
  apply (is_derive_ext_loc (fun h : R =>
     (A / (N h * N h * sqrt (N h)) + 4 * C / (N h * N h * N h)) * (h * (X nu + delta mu nu * (h - X mu)))
     + C / (N h * N h) * eta mu nu)).
  { apply (filter_imp (fun h : R => inside_cone (moved X mu h))); [|apply cone_open; auto].
    intros h Hh. rewrite expanding_T by auto. unfold stress. rewrite interval_moved by auto. fold (N h).
    unfold moved, delta. rewrite Nat.eqb_refl. rewrite (Nat.eqb_sym nu mu).
    destruct (Nat.eqb_spec mu nu) as [->|]; [|]; f_equal; f_equal; ring. }
  destruct HX as [_ H]. unfold dstress, N. set (N0 := interval2 X) in *. clearbody N0. clear N.
  pose proof (sqrt_lt_R0 _ H) as P. pose proof (sqrt_sqrt _ (Rlt_le _ _ H)) as S2.
  assert (E : N0 - eta mu mu * (X mu * X mu - X mu * X mu) = N0) by ring.
  assert (E' : N0 + - (eta mu mu * (X mu * X mu + - (X mu * X mu))) = N0) by ring.
  auto_derive.
  - rewrite !E'. repeat split; auto; repeat apply Rmult_integral_contrapositive_currified; lra.
  - match goal with |- @eq _ ?x ?y => change (@eq R x y) end.
    rewrite !E'. set (t := sqrt N0) in *. clearbody t. rewrite <- S2. field. lra.
Qed.
Theorem expanding_solves (A C : R) (n : nat) (X : vec) : (n < 9)%nat -> inside_cone X ->
  divergence (fun Y => current (4 / 3) n (expanding A C Y)) X = 0.
Proof.
  intros Hn HX. unfold divergence. destruct (Nat.eq_dec n 0) as [->|N0].
  { unfold sum4. rewrite !(mass_partial A C) by (lia || auto). unfold dmass_flux.
    destruct HX as [_ H]. unfold eta; cbn [Nat.eqb].
    assert (E : X 0%nat * X 0%nat = interval2 X + (X 1%nat * X 1%nat + X 2%nat * X 2%nat + X 3%nat * X 3%nat)) by (unfold interval2; ring).
    rewrite E. set (N := interval2 X) in *. clearbody N. field. lra. }
  destruct (le_lt_dec n 4) as [H4|H4].
  { destruct n as [|nu]; [lia|]. unfold sum4. rewrite !(stress_partial A C) by (lia || auto). unfold dstress.
    destruct HX as [_ H]. pose proof (sqrt_lt_R0 _ H) as P.
    assert (E : interval2 X = X 0%nat * X 0%nat - (X 1%nat * X 1%nat + X 2%nat * X 2%nat + X 3%nat * X 3%nat)) by reflexivity.
    set (N := interval2 X) in *. set (t := sqrt N) in *. clearbody t. clearbody N.
    set (P1 := 5 * A / (N * N * N * t) + 24 * C / (N * N * N * N)).
    set (P2 := A / (N * N * t) + 4 * C / (N * N * N)).
    assert (K : P1 * N = 5 * P2 + 4 * C / (N * N * N)) by (unfold P1, P2; field; lra).
    assert (F : forall m, 4 * C * (eta m m * X m) / (N * N * N) = 4 * C / (N * N * N) * (eta m m * X m)) by (intros; unfold Rdiv; ring).
    rewrite !F. set (P3 := 4 * C / (N * N * N)) in *. clearbody P1 P2 P3. clear F.
    transitivity (X nu * (5 * P2 + P3 - P1 * N)); [|rewrite K; ring]. rewrite E.
    destruct nu as [|[|[|[|]]]]; try lia; unfold eta, delta; cbn [Nat.eqb]; ring. }
  assert (Z : forall mu, (mu < 4)%nat -> partial (fun Y => current (4 / 3) n (expanding A C Y) mu) mu X = 0).
  { intros mu Hm. unfold partial. etransitivity; [|apply (Derive_const 0 (X mu))]. apply Derive_ext. intros h.
    assert (E : current (4 / 3) n (expanding A C (moved X mu h)) mu =
      dualF (gas_ucon (expanding A C (moved X mu h))) (gas_bcon (expanding A C (moved X mu h))) mu (n - 5)).
    { destruct n as [|[|[|[|[|]]]]]; try lia; reflexivity. }
    rewrite E. unfold dualF. rewrite !expanding_b by lia. ring. }
  unfold sum4. rewrite !Z by lia. ring.
Qed.
