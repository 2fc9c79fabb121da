(** C27: tracer particles follow the fluid. *)
From Coq Require Import Reals Lra Lia Arith ZArith Bool Psatz FunctionalExtensionality.
From Coquelicot Require Import Coquelicot.
From Verif.Spec Require Import Tensor GeomSpec SystemSpec Relativity RadSpec InterpSpec TracerSpec.
From Verif.Model Require Import Num Geometry Relativity Interpolation Tracers.
From Verif.Proofs Require Import NumR TensorTac GeomBase RelProofs RelativityProofs RadProofs InterpProofs FlatWitness.
Local Open Scope R_scope.

(** Every geometry whose queries are consistent at the tracer, every velocity field, 3D run,
    tracer in the first block of its pack: the right-hand side is the coordinate velocity
    u^i / u^0 of the unit four-velocity u whose spatial part (with respect to the Eulerian
    observer) is the interpolated primitive velocity.  Full statement: every block of the
    pack. *)
Theorem C27_velocity : forall G pack ndim x,
  consistent_at G (at_time0 x) -> (2 < ndim)%nat ->
  let g := SpacetimeMetric G (at_time0 x) in
  let beta := ContravariantShift G (at_time0 x) in
  exists u : vec, dot4 g u u = -1 /\ 0 < u 0%nat /\
    (forall i, (i < 3)%nat -> u (S i) + u 0%nat * beta i = interp pack 0 x (Tvel i)) /\
    forall i, (i < 3)%nat -> tracers_rhs G pack ndim x i = u (S i) / u 0%nat.
Proof.
  intros G pack ndim x A Hn g beta. unfold consistent_at in A. fold g beta in A.
  set (al := Lapse G (at_time0 x)) in *. set (gam := Metric G (at_time0 x)) in *.
  pose proof (adm_lapse_pos _ _ _ _ _ _ _ _ A) as ap. pose proof (adm_tpo _ _ _ _ _ _ _ _ A) as TP.
  set (w := fun i => interp pack 0 x (Tvel i)).
  assert (E4 : GetLorentzFactor4 w g = GetLorentzFactor w gam).
  { unfold GetLorentzFactor4, GetLorentzFactor, sum3. rewrite !Nat.add_1_r. rewrite !(adm_gij _ _ _ _ _ _ _ _ A) by lia. reflexivity. }
  pose proof (RelativityProofs.lorentz_ge1 _ _ _ _ w TP) as W1. set (W := GetLorentzFactor w gam) in *.
  assert (Wn : W <> 0) by lra.
  exists (GetFourVelocity w gam al beta).
  assert (U0 : GetFourVelocity w gam al beta 0%nat = W / al) by exact (RelativityProofs.u0_val _ _ _ _ w TP).
  split; [exact (RelativityProofs.u_norm _ _ _ _ w TP)|]. split; [rewrite U0; apply Rdiv_lt_0_compat; lra|].
  assert (Ui : forall i, GetFourVelocity w gam al beta (S i) = w i - W / al * beta i) by (intros i; rewrite <- U0; reflexivity).
  split; [intros i Hi; rewrite Ui, U0; unfold w; ring|].
  intros i Hi. rewrite Ui, U0. unfold tracers_rhs. fold g al beta. fold w. rewrite E4. fold W.
  assert (i = 0 \/ i = 1 \/ i = 2)%nat as [->|[->| ->]] by lia; cbv beta iota; [|
    |rewrite (proj2 (Nat.ltb_lt 2 ndim) Hn)]; change (interp pack 0 x (Tvel ?n)) with (w n); field; lra.
Qed.
Print Assumptions C27_velocity.

(** a bound on a function from a bound on its derivative *)
Lemma grow (h dh : R -> R) T c n : 0 <= c -> 0 <= T -> (forall s, 0 <= s <= T -> is_derive h s (dh s)) ->
  (forall s, 0 <= s <= T -> Rabs (dh s) <= c * s ^ n) -> Rabs (h T - h 0) <= c * T ^ S n.
Proof.
  intros C HT Hd Hb. destruct (MVT_gen h 0 T dh) as (s & Hs & E).
  - intros s. rewrite Rmin_left, Rmax_right by lra. intros Hs. apply Hd. lra.
  - intros s. rewrite Rmin_left, Rmax_right by lra. intros Hs. apply derivable_continuous_pt. exists (dh s). apply is_derive_Reals, Hd. lra.
  - rewrite Rmin_left, Rmax_right in Hs by lra. rewrite E, Rminus_0_r, Rabs_mult, (Rabs_pos_eq T) by lra.
    pose proof (Hb s Hs) as B. assert (s ^ n <= T ^ n) by (apply pow_incr; lra).
    cbn [pow]. assert (c * s ^ n <= c * T ^ n) by (apply Rmult_le_compat_l; lra). assert (Rabs (dh s) * T <= c * T ^ n * T) by (apply Rmult_le_compat_r; lra). lra.
Qed.

(** Second order: there is a constant that depends only on the size M of the velocities, the
    bounds g and K on their variation and the longest step T, such that for every velocity
    field, starting point and step, the update differs from the exact path by at most C dt^3. *)
Theorem C27_second_order : forall M g K T, 0 <= M -> 0 <= g -> 0 <= K -> 0 <= T -> exists C,
  forall (f : vec -> vec) (x : vec) (D : vec -> Prop) X,
  smooth_at f x D M g K -> path f x T X -> (forall t, 0 <= t <= T -> D (X t) /\ D (fun i => x i + t / 2 * f x i)) ->
  forall dt i, 0 <= dt <= T -> (i < 3)%nat -> Rabs (X dt i - rk2 f dt x i) <= C * dt ^ 3.
Proof.
  intros M g K T HM Hg HK HT. set (A := 3 * g * M + 9 * K * M * M * T).
  exists (9 * K * M * M + 3 * g * A + 9 * K * M * M / 4).
  intros f x D X (Dx & Bf & G & Bg & Q) (X0 & XD) HD dt i Hdt Hi.
  assert (A0 : 0 <= A) by (unfold A; apply Rplus_le_le_0_compat; repeat apply Rmult_le_pos; lra).
  (* first-order bound *)
  assert (P1 : forall s j, 0 <= s <= T -> (j < 3)%nat -> Rabs (X s j - x j) <= M * s).
  { intros s j Hs Hj. rewrite <- (X0 j Hj). replace (M * s) with (M * s ^ 1) by ring.
    apply (grow (fun r => X r j) (fun r => f (X r) j) s M 0); [lra|lra| |].
    - intros r Hr. apply XD; [lra|exact Hj].
    - intros r Hr. rewrite pow_O, Rmult_1_r. apply Bf; [apply HD; lra|exact Hj]. }
  assert (P2 : forall s, 0 <= s <= T -> 0 <= dist1 (X s) x <= 3 * M * s).
  { intros s Hs. unfold dist1. pose proof (P1 s 0%nat Hs ltac:(lia)). pose proof (P1 s 1%nat Hs ltac:(lia)). pose proof (P1 s 2%nat Hs ltac:(lia)).
    pose proof (Rabs_pos (X s 0%nat - x 0%nat)). pose proof (Rabs_pos (X s 1%nat - x 1%nat)). pose proof (Rabs_pos (X s 2%nat - x 2%nat)). lra. }
  assert (P3 : forall s j, 0 <= s <= T -> (j < 3)%nat -> Rabs (f (X s) j - f x j - sum3 (fun k => G j k * (X s k - x k))) <= 9 * K * M * M * s ^ 2).
  { intros s j Hs Hj. eapply Rle_trans; [apply Q; [apply HD; lra|exact Hj]|]. pose proof (P2 s Hs) as [d0 d1].
    assert (dist1 (X s) x * dist1 (X s) x <= 3 * M * s * (3 * M * s)) by (apply Rmult_le_compat; lra).
    replace (9 * K * M * M * s ^ 2) with (K * (3 * M * s * (3 * M * s))) by ring. apply Rmult_le_compat_l; lra. }
  assert (S3b : forall (y : vec) j c, (j < 3)%nat -> (forall k, (k < 3)%nat -> Rabs (y k) <= c) -> Rabs (sum3 (fun k => G j k * y k)) <= 3 * g * c).
  { intros y j c Hj Hy. unfold sum3.
    assert (B : forall k, (k < 3)%nat -> Rabs (G j k * y k) <= g * c).
    { intros k Hk. rewrite Rabs_mult. apply Rmult_le_compat; try apply Rabs_pos; [apply Bg; assumption|apply Hy; exact Hk]. }
    pose proof (B 0%nat ltac:(lia)). pose proof (B 1%nat ltac:(lia)). pose proof (B 2%nat ltac:(lia)).
    pose proof (Rabs_triang (G j 0%nat * y 0%nat + G j 1%nat * y 1%nat) (G j 2%nat * y 2%nat)). pose proof (Rabs_triang (G j 0%nat * y 0%nat) (G j 1%nat * y 1%nat)). lra. }
  (* second-order bound *)
  assert (P4 : forall s j, 0 <= s <= T -> (j < 3)%nat -> Rabs (X s j - x j - s * f x j) <= A * s ^ 2).
  { intros s j Hs Hj.
    assert (Gr : Rabs ((X s j - s * f x j) - (X 0 j - 0 * f x j)) <= A * s ^ 2).
    { apply (grow (fun r => X r j - r * f x j) (fun r => f (X r) j - f x j) s A 1); [exact A0|lra| |].
      - intros r Hr. assert (D1 : is_derive (fun r => X r j) r (f (X r) j)) by (apply XD; [lra|exact Hj]).
        assert (D2 : is_derive (fun r => r * f x j) r (f x j)) by (auto_derive; [exact I|ring]).
        exact (is_derive_minus _ _ _ _ _ D1 D2).
      - intros r Hr. pose proof (P3 r j ltac:(lra) Hj) as E3.
        assert (E4 : Rabs (sum3 (fun k => G j k * (X r k - x k))) <= 3 * g * (M * r)) by (apply (S3b (fun k => X r k - x k) j (M * r) Hj); intros k Hk; apply P1; [lra|exact Hk]).
        replace (f (X r) j - f x j) with ((f (X r) j - f x j - sum3 (fun k => G j k * (X r k - x k))) + sum3 (fun k => G j k * (X r k - x k))) by ring.
        eapply Rle_trans; [apply Rabs_triang|]. unfold A.
        assert (9 * K * M * M * r ^ 2 <= 9 * K * M * M * T * r).
        { replace (9 * K * M * M * r ^ 2) with (9 * K * M * M * r * r) by ring. replace (9 * K * M * M * T * r) with (9 * K * M * M * r * T) by ring. apply Rmult_le_compat_l; [|lra].
          repeat apply Rmult_le_pos; lra. }
        lra. }
    rewrite (X0 j Hj) in Gr. replace (X s j - x j - s * f x j) with (X s j - s * f x j - (x j - 0 * f x j)) by ring. exact Gr. }
  set (Gf := sum3 (fun k => G i k * f x k)).
  assert (P5 : Rabs (X dt i - x i - dt * f x i - dt * dt / 2 * Gf) <= (9 * K * M * M + 3 * g * A) * dt ^ 3).
  { assert (Gr : Rabs ((X dt i - dt * f x i - dt * dt / 2 * Gf) - (X 0 i - 0 * f x i - 0 * 0 / 2 * Gf)) <= (9 * K * M * M + 3 * g * A) * dt ^ 3).
    { apply (grow (fun r => X r i - r * f x i - r * r / 2 * Gf) (fun r => f (X r) i - f x i - r * Gf) dt _ 2); [|lra| |].
      - apply Rplus_le_le_0_compat; repeat apply Rmult_le_pos; lra.
      - intros r Hr. assert (D1 : is_derive (fun r => X r i) r (f (X r) i)) by (apply XD; [lra|exact Hi]).
        assert (D2 : is_derive (fun r => r * f x i) r (f x i)) by (auto_derive; [exact I|ring]).
        assert (D3 : is_derive (fun r => r * r / 2 * Gf) r (r * Gf)) by (auto_derive; [exact I|field]).
        exact (is_derive_minus _ _ _ _ _ (is_derive_minus _ _ _ _ _ D1 D2) D3).
      - intros r Hr. pose proof (P3 r i ltac:(lra) Hi) as E3.
        assert (E4 : Rabs (sum3 (fun k => G i k * (X r k - x k - r * f x k))) <= 3 * g * (A * r ^ 2)) by (apply (S3b (fun k => X r k - x k - r * f x k) i (A * r ^ 2) Hi); intros k Hk; apply P4; [lra|exact Hk]).
        replace (f (X r) i - f x i - r * Gf) with ((f (X r) i - f x i - sum3 (fun k => G i k * (X r k - x k))) + sum3 (fun k => G i k * (X r k - x k - r * f x k))) by (unfold Gf, sum3; ring).
        eapply Rle_trans; [apply Rabs_triang|]. lra. }
    rewrite (X0 i Hi) in Gr. replace (X dt i - x i - dt * f x i - dt * dt / 2 * Gf) with (X dt i - dt * f x i - dt * dt / 2 * Gf - (x i - 0 * f x i - 0 * 0 / 2 * Gf)) by field. exact Gr. }
  (* the midpoint *)
  set (k := fun j => x j + / 2 * dt * f x j).
  assert (Dk : D k) by (replace k with (fun j => x j + dt / 2 * f x j) by (extensionality j; unfold k; field); apply HD; lra).
  assert (P6 : Rabs (f k i - f x i - dt / 2 * Gf) <= 9 * K * M * M / 4 * dt ^ 2).
  { pose proof (Q k i Dk Hi) as E. replace (sum3 (fun j => G i j * (k j - x j))) with (dt / 2 * Gf) in E by (unfold Gf, k, sum3; field).
    eapply Rle_trans; [exact E|].
    assert (B : forall j, (j < 3)%nat -> Rabs (k j - x j) <= dt / 2 * M).
    { intros j Hj. replace (k j - x j) with (dt / 2 * f x j) by (unfold k; field). rewrite Rabs_mult, (Rabs_pos_eq (dt / 2)) by lra. apply Rmult_le_compat_l; [lra|]. apply Bf; assumption. }
    assert (d : 0 <= dist1 k x <= 3 * (dt / 2 * M)).
    { unfold dist1. pose proof (B 0%nat ltac:(lia)). pose proof (B 1%nat ltac:(lia)). pose proof (B 2%nat ltac:(lia)).
      pose proof (Rabs_pos (k 0%nat - x 0%nat)). pose proof (Rabs_pos (k 1%nat - x 1%nat)). pose proof (Rabs_pos (k 2%nat - x 2%nat)). lra. }
    assert (dist1 k x * dist1 k x <= 3 * (dt / 2 * M) * (3 * (dt / 2 * M))) by (apply Rmult_le_compat; lra).
    replace (9 * K * M * M / 4 * dt ^ 2) with (K * (3 * (dt / 2 * M) * (3 * (dt / 2 * M)))) by field. apply Rmult_le_compat_l; lra. }
  unfold rk2. fold k.
  replace (X dt i - (x i + f k i * dt)) with ((X dt i - x i - dt * f x i - dt * dt / 2 * Gf) + - (dt * (f k i - f x i - dt / 2 * Gf))) by field.
  eapply Rle_trans; [apply Rabs_triang|]. rewrite Rabs_Ropp, Rabs_mult, (Rabs_pos_eq dt) by lra.
  assert (dt * Rabs (f k i - f x i - dt / 2 * Gf) <= dt * (9 * K * M * M / 4 * dt ^ 2)) by (apply Rmult_le_compat_l; lra).
  replace ((9 * K * M * M + 3 * g * A + 9 * K * M * M / 4) * dt ^ 3) with ((9 * K * M * M + 3 * g * A) * dt ^ 3 + dt * (9 * K * M * M / 4 * dt ^ 2)) by ring. lra.
Qed.
Print Assumptions C27_second_order.

(** rotating flow, seen as matter at rest in a frame that rotates: shift (y, -x, 0) *)
Definition rotating : System := {| Lapse := fun _ => 1; ContravariantShift := fun X i => match i with O => X 2%nat | 1%nat => - X 1%nat | _ => 0 end;
  SpacetimeMetric := fun X => let b := fun i : nat => match i with O => X 2%nat | 1%nat => - X 1%nat | _ => 0 end in
    fun i j => match i, j with O, O => -1 + sum3 (fun k => b k * b k) | O, S j => b j | S i, O => b i | S i, S j => delta i j end;
  SpacetimeMetricInverse := fun X => let b := fun i : nat => match i with O => X 2%nat | 1%nat => - X 1%nat | _ => 0 end in
    fun i j => match i, j with O, O => -1 | O, S j => b j | S i, O => b i | S i, S j => delta i j - b i * b j end;
  Metric := fun _ => delta; MetricInverse := fun _ => delta; DetGamma := fun _ => 1; DetG := fun _ => 1;
  ConnectionCoefficient := fun _ _ _ _ => 0; MetricDerivative := fun _ _ _ _ => 0; GradLnAlpha := fun _ _ => 0; Coords := fun X => X |}.
Definition still : Block := mkBlock (mkAxis (-3) 1 7) (mkAxis (-3) 1 7) (mkAxis (-3) 1 7) (fun _ _ _ _ => 0).
Lemma interp_const p b x v c : used_axes (bl_a1 (p b)) (bl_a2 (p b)) (bl_a3 (p b)) -> (1 < ax_n (bl_a3 (p b)))%Z ->
  (forall k j i, bl_var (p b) v k j i = c) -> interp p b x v = c.
Proof.
  intros U N H. unfold interp. rewrite (Do_multilinear _ _ _ _ _ _ (fun n => match n with O => c | _ => 0 end) _ U N); [ring|].
  intros k j i. rewrite H. cbv zeta beta iota. ring.
Qed.
Lemma still_axes : used_axes (bl_a1 still) (bl_a2 still) (bl_a3 still).
Proof. unfold used_axes, good_axis; cbn [still bl_a1 bl_a2 bl_a3 ax_dx ax_n]. repeat split; (lra || lia). Qed.
Lemma rotating_consistent X : consistent_at rotating X.
Proof.
  unfold consistent_at. cbn [rotating Lapse ContravariantShift SpacetimeMetric SpacetimeMetricInverse Metric MetricInverse DetGamma DetG].
  set (b := fun i : nat => match i with O => X 2%nat | 1%nat => - X 1%nat | _ => 0 end).
  apply adm_intro; try lra.
  - intros i j Hi Hj. unfold delta. rewrite Nat.eqb_sym. reflexivity.
  - unfold delta; cbn [Nat.eqb]. lra.
  - unfold delta; cbn [Nat.eqb]. lra.
  - intros i j Hi Hj. destruct i, j; try reflexivity. unfold delta. rewrite Nat.eqb_sym. reflexivity.
  - unfold dot3, sum3, delta, b; cbv beta zeta iota; cbn [Nat.eqb]; ring.
  - intros i Hi. unfold lower3, sum3, delta, b. idx; cbv beta zeta iota; cbn [Nat.eqb]; ring.
  - reflexivity.
  - intros i j Hi Hj. unfold mul4, sum4, sum3, b. idx; unfold delta; cbv beta zeta iota; cbn [Nat.eqb]; split; ring.
  - intros i j Hi Hj. unfold mul3, sum3. idx; unfold delta; cbn [Nat.eqb]; split; ring.
  - tensor. unfold delta; cbn [Nat.eqb]. ring.
Qed.
(** the hypotheses of C27_velocity and C27_second_order, for a tracer that the flow
    carries round the unit circle *)
Example C27_nonvacuous : let pack := fun _ : nat => still in let f := tracers_rhs rotating pack 3 in
  let x : vec := fun i => match i with O => 1 | _ => 0 end in
  let X := fun (t : R) (i : nat) => match i with O => cos t | 1%nat => sin t | _ => 0 end in
  let D := fun y : vec => forall j, (j < 3)%nat -> Rabs (y j) <= 2 in
  consistent_at rotating (at_time0 x) /\ smooth_at f x D 2 1 0 /\ path f x 1 X /\
  (forall t, 0 <= t <= 1 -> D (X t) /\ D (fun i => x i + t / 2 * f x i)) /\ X 1 0%nat <> x 0%nat.
Proof.
  intros pack f x X D.
  assert (Z : forall y i, interp pack 0 y (Tvel i) = 0) by (intros y i; apply interp_const; [exact still_axes|reflexivity|reflexivity]).
  assert (F : forall y i, f y i = match i with O => - y 1%nat | 1%nat => y 0%nat | _ => 0 end).
  { intros y i. unfold f, tracers_rhs. rewrite !Z. cbn [rotating Lapse ContravariantShift at_time0 Nat.ltb Nat.leb]. destruct i as [|[|i]]; unfold Rdiv; ring. }
  split; [apply rotating_consistent|]. split; [|split; [|split]].
  - split; [intros j Hj; unfold x; destruct j; rewrite ?Rabs_R1, ?Rabs_R0; lra|]. split.
    + intros y i Hy Hi. rewrite F. destruct i as [|[|i]]; [rewrite Rabs_Ropp; apply Hy; lia|apply Hy; lia|rewrite Rabs_R0; lra].
    + exists (rows3 (row3 0 (-1) 0) (row3 1 0 0) (row3 0 0 0)). split.
      * intros i j Hi Hj. idx; cbn [rows3 row3]; rewrite ?Rabs_R0, ?Rabs_R1, ?(Rabs_left (-1)) by lra; lra.
      * intros y i Hy Hi. rewrite !F, Rmult_0_l. right. idx; unfold sum3; cbn [rows3 row3 x]; match goal with |- Rabs ?e = 0 => replace e with 0 by ring end; apply Rabs_R0.
  - split.
    + intros i Hi. unfold X, x. destruct i as [|[|i]]; [apply cos_0|apply sin_0|reflexivity].
    + intros t i Ht Hi. rewrite F. unfold X. destruct i as [|[|i]]; auto_derive; try exact I; ring.
  - intros t Ht. split; intros j Hj.
    + unfold X. destruct j as [|[|j]]; [pose proof (COS_bound t); apply Rabs_le; lra|pose proof (SIN_bound t); apply Rabs_le; lra|rewrite Rabs_R0; lra].
    + rewrite F. unfold x. destruct j as [|[|j]]; apply Rabs_le; lra.
  - unfold X, x. intros E. pose proof (sin_gt_0 1 Rlt_0_1 ltac:(pose proof PI2_1; pose proof PI_RGT_0; lra)). pose proof (sin2_cos2 1) as S2. unfold Rsqr in S2. rewrite E in S2. nra.
Qed.

(** A tracer in another block of the pack is carried by the velocity of the first block: in
    flat space, block 1 moves at half the speed of light and the tracer in it does not move;
    at rest in block 1 and block 0 moving, it moves. *)
Definition flow (w : R) : Block := mkBlock (mkAxis 0 1 7) (mkAxis 0 1 7) (mkAxis 0 1 7) (fun v _ _ _ => match v with Tvel O => w | _ => 0 end).
Lemma flow_axes w : used_axes (bl_a1 (flow w)) (bl_a2 (flow w)) (bl_a3 (flow w)).
Proof. unfold used_axes, good_axis; cbn [flow bl_a1 bl_a2 bl_a3 ax_dx ax_n]. repeat split; (lra || lia). Qed.
Theorem C27_block_refuted : exists pack : nat -> Block,
  (forall x, interp pack 1 x (Tvel 0) = 1) /\
  forall block_at dt x, fst (AdvectTracer Minkowski pack 3 block_at dt 1 x) 0%nat = x 0%nat.
Proof.
  set (pack := fun b : nat => match b with O => flow 0 | _ => flow 1 end).
  assert (I0 : forall x i, interp pack 0 x (Tvel i) = 0) by (intros x i; apply interp_const; [apply flow_axes|reflexivity|intros k j n; destruct i; reflexivity]).
  exists pack. split; [intros x; apply interp_const; [apply flow_axes|reflexivity|reflexivity]|].
  intros block_at dt x. unfold AdvectTracer, rk2. cbn [fst]. unfold tracers_rhs at 1. rewrite !I0. cbn [Minkowski Lapse ContravariantShift]. unfold Rdiv. ring.
Qed.
Print Assumptions C27_block_refuted.

(** The block a tracer is sent to after the step is that of its position before the step:
    whatever block_at answers, it is not asked about the new position. *)
Theorem C27_send_refuted : exists pack (block_at : nat -> vec -> nat) dt x,
  (forall b y, block_at b y = if Rle_dec (y 0%nat) 3 then 0%nat else 1%nat) /\
  let '(x', b') := AdvectTracer rotating pack 3 block_at dt 0 x in b' <> block_at 0%nat x'.
Proof.
  exists (fun _ => still), (fun _ y => if Rle_dec (y 0%nat) 3 then 0%nat else 1%nat), (1/2), (fun i => match i with O => 3 | 1%nat => -1 | _ => 0 end).
  split; [reflexivity|]. unfold AdvectTracer.
  assert (Z : forall y i, interp (fun _ => still) 0 y (Tvel i) = 0) by (intros y i; apply interp_const; [exact still_axes|reflexivity|reflexivity]).
  assert (F : forall y i, tracers_rhs rotating (fun _ => still) 3 y i = match i with O => - y 1%nat | 1%nat => y 0%nat | _ => 0 end).
  { intros y i. unfold tracers_rhs. rewrite !Z. cbn [rotating Lapse ContravariantShift at_time0 Nat.ltb Nat.leb]. destruct i as [|[|i]]; unfold Rdiv; ring. }
  unfold rk2. rewrite !F. destruct (Rle_dec 3 3) as [_|N]; [|lra].
  match goal with |- context [Rle_dec ?a 3] => destruct (Rle_dec a 3) as [L|L] end; [|discriminate]. exfalso. lra.
Qed.
Print Assumptions C27_send_refuted.

(** *** what is stored *)
(** Every field, block and tracer inside its block: the interpolated quantities lie between
    the values of the neighbouring cells. *)
Theorem C27_range : forall mhd ent G pack x lo hi v, used_axes (bl_a1 (pack 0%nat)) (bl_a2 (pack 0%nat)) (bl_a3 (pack 0%nat)) ->
  in_table (bl_a1 (pack 0%nat)) (x 0%nat) -> in_table (bl_a2 (pack 0%nat)) (x 1%nat) -> in_table (bl_a3 (pack 0%nat)) (x 2%nat) ->
  (forall k j i, neighbour (bl_a3 (pack 0%nat)) (x 2%nat) k -> neighbour (bl_a2 (pack 0%nat)) (x 1%nat) j -> neighbour (bl_a1 (pack 0%nat)) (x 0%nat) i ->
     lo <= bl_var (pack 0%nat) v k j i <= hi) ->
  let o := FillTracer mhd ent G pack x in
  match v with Trho => lo <= t_rho o <= hi | Ttemp => lo <= t_temperature o <= hi | Tenergy => lo <= t_energy o <= hi | Tpressure => lo <= t_pressure o <= hi
  | TB i => mhd = true -> lo <= t_B o i <= hi | Tvel i => lo <= t_lorentz o * t_vel o i <= hi \/ t_lorentz o = 0 | Tye => True end.
Proof.
  intros mhd ent G pack x lo hi v U I1 I2 I3 Hv o.
  assert (B : lo <= interp pack 0 x v <= hi) by (apply Do_between; assumption).
  destruct v; try exact B; [| |exact I].
  - unfold o, FillTracer. cbn [t_lorentz t_vel]. set (W := GetLorentzFactor4 _ _). destruct (Req_dec W 0) as [E|N]; [right; exact E|left]. replace (W * (interp pack 0 x (Tvel i) / W)) with (interp pack 0 x (Tvel i)) by (field; exact N). exact B.
  - intros ->. exact B.
Qed.
Print Assumptions C27_range.
(** Every consistent geometry: the stored Lorentz factor and velocity belong to the
    interpolated four-velocity, and lapse, shift and volume element are the geometry's. *)
Theorem C27_stored_motion : forall mhd ent G pack x, consistent_at G (at_time0 x) ->
  let o := FillTracer mhd ent G pack x in
  (exists u : vec, dot4 (SpacetimeMetric G (at_time0 x)) u u = -1 /\ t_lorentz o = t_lapse o * u 0%nat /\
    (forall i, (i < 3)%nat -> u (S i) + u 0%nat * t_shift o i = interp pack 0 x (Tvel i) /\ t_lorentz o * t_vel o i = interp pack 0 x (Tvel i))) /\
  t_lapse o = Lapse G (at_time0 x) /\ t_shift o = ContravariantShift G (at_time0 x) /\ t_detgamma o = DetGamma G (at_time0 x).
Proof.
  intros mhd ent G pack x A o. split; [|repeat split].
  unfold consistent_at in A. set (g := SpacetimeMetric G (at_time0 x)) in *. set (beta := ContravariantShift G (at_time0 x)) in *.
  set (al := Lapse G (at_time0 x)) in *. set (gam := Metric G (at_time0 x)) in *.
  pose proof (adm_lapse_pos _ _ _ _ _ _ _ _ A) as ap. pose proof (adm_tpo _ _ _ _ _ _ _ _ A) as TP.
  set (w := fun i => interp pack 0 x (Tvel i)).
  assert (E4 : GetLorentzFactor4 w g = GetLorentzFactor w gam).
  { unfold GetLorentzFactor4, GetLorentzFactor, sum3. rewrite !Nat.add_1_r. rewrite !(adm_gij _ _ _ _ _ _ _ _ A) by lia. reflexivity. }
  pose proof (RelativityProofs.lorentz_ge1 _ _ _ _ w TP) as W1.
  assert (U0 : GetFourVelocity w gam al beta 0%nat = GetLorentzFactor w gam / al) by exact (RelativityProofs.u0_val _ _ _ _ w TP).
  exists (GetFourVelocity w gam al beta). split; [exact (RelativityProofs.u_norm _ _ _ _ w TP)|].
  assert (EW : t_lorentz o = GetLorentzFactor w gam) by (rewrite <- E4; reflexivity).
  split; [rewrite EW, U0; change (t_lapse o) with al; field; lra|].
  intros i Hi. split.
  - transitivity (w i - GetFourVelocity w gam al beta 0%nat * beta i + GetFourVelocity w gam al beta 0%nat * beta i); [reflexivity|unfold w; ring].
  - change (t_vel o i) with (w i / GetLorentzFactor4 w g). rewrite EW, E4. transitivity (w i); [field; lra|reflexivity].
Qed.
Print Assumptions C27_stored_motion.
(** The electron fraction of the fluid never reaches the tracer. *)
Theorem C27_ye_refuted : exists pack, (forall x, interp pack 0 x Tye = 1 / 2) /\
  forall mhd ent G x, t_ye (FillTracer mhd ent G pack x) = 0 /\ t_entropy (FillTracer mhd ent G pack x) = ent (interp pack 0 x Trho) (interp pack 0 x Ttemp) 0.
Proof.
  exists (fun _ => mkBlock (mkAxis 0 1 7) (mkAxis 0 1 7) (mkAxis 0 1 7) (fun _ _ _ _ => 1 / 2)). split; [|split; reflexivity].
  intros x. apply interp_const; [apply flow_axes with (w := 0)|reflexivity|reflexivity].
Qed.
Print Assumptions C27_ye_refuted.
(** The stored Bernoulli number is below -1 for every state of positive density, non-negative
    energy and pressure and positive lapse, so nothing ever counts as unbound; the flow with
    W = 2 in flat space has Bernoulli parameter 1. *)
Theorem C27_bernoulli_refuted :
  (forall mhd ent G pack x, 0 < Lapse G (at_time0 x) -> 0 < interp pack 0 x Trho -> 0 <= interp pack 0 x Tenergy -> 0 <= interp pack 0 x Tpressure ->
     t_bernoulli (FillTracer mhd ent G pack x) <= -1) /\
  exists pack u, (forall x i, (i < 3)%nat -> interp pack 0 x (Tvel i) = u (S i)) /\ (forall x, interp pack 0 x Trho = 1 /\ interp pack 0 x Tenergy = 0 /\ interp pack 0 x Tpressure = 0) /\
    dot4 eta4 u u = -1 /\ bernoulli eta4 u (enthalpy 1 0 0) = 1 /\ forall mhd ent x, t_bernoulli (FillTracer mhd ent Minkowski pack x) = -3.
Proof.
  split.
  - intros mhd ent G pack x La Hr He Hp. cbn [FillTracer t_bernoulli]. set (W := GetLorentzFactor4 _ _).
    assert (W0 : 0 <= W) by apply sqrt_pos. assert (0 <= W / Lapse G (at_time0 x)) by (apply Rmult_le_pos; [exact W0|left; apply Rinv_0_lt_compat, La]).
    assert (0 <= interp pack 0 x Tpressure / interp pack 0 x Trho) by (apply Rmult_le_pos; [exact Hp|left; apply Rinv_0_lt_compat, Hr]).
    assert (0 <= W / Lapse G (at_time0 x) * (1 + interp pack 0 x Tenergy + interp pack 0 x Tpressure / interp pack 0 x Trho)) by (apply Rmult_le_pos; lra). lra.
  - set (pack := fun _ : nat => mkBlock (mkAxis 0 1 7) (mkAxis 0 1 7) (mkAxis 0 1 7) (fun v _ _ _ => match v with Tvel O => sqrt 3 | Trho => 1 | _ => 0 end)).
    assert (UA : used_axes (bl_a1 (pack 0%nat)) (bl_a2 (pack 0%nat)) (bl_a3 (pack 0%nat))) by (unfold used_axes, good_axis; cbn [pack bl_a1 bl_a2 bl_a3 ax_dx ax_n]; repeat split; (lra || lia)).
    assert (S3 : sqrt 3 * sqrt 3 = 3) by (apply sqrt_sqrt; lra).
    assert (IV : forall x i, interp pack 0 x (Tvel i) = match i with O => sqrt 3 | _ => 0 end) by (intros x i; apply interp_const; [exact UA|reflexivity|intros k j n; destruct i; reflexivity]).
    assert (IR : forall x, interp pack 0 x Trho = 1 /\ interp pack 0 x Tenergy = 0 /\ interp pack 0 x Tpressure = 0) by (intros x; repeat split; apply interp_const; try exact UA; reflexivity).
    exists pack, (fun m => match m with O => 2 | 1%nat => sqrt 3 | _ => 0 end). split; [intros x [|i] Hi; apply IV|]. split; [exact IR|].
    split; [unfold dot4, sum4, eta4; cbn [Nat.eqb]; lra|]. split; [unfold bernoulli, enthalpy, lower4, sum4, eta4; cbn [Nat.eqb]; field|].
    intros mhd ent x. cbn [FillTracer t_bernoulli]. destruct (IR x) as (-> & -> & ->).
    set (W := GetLorentzFactor4 _ _). assert (W = 2).
    { unfold W, GetLorentzFactor4, sum3. rewrite !IV. cbn [Minkowski SpacetimeMetric Nat.add]. apply sqrt_lem_1; [|lra|]; cbn [Nat.eqb]; lra. }
    rewrite H. cbn [Minkowski Lapse]. field.
Qed.
Print Assumptions C27_bernoulli_refuted.
