(** C53, continued: the radiation pulse, the velocities of the shear-layer, advection, rotor and
    shock-tube problems, and the cosmological problem. *)
From Coq Require Import Reals ZArith List Bool Arith Lia Lra.
From Coquelicot Require Import Coquelicot.
From Flocq Require Import Core.
From Verif.Spec Require Import Tensor GeomSpec Relativity GRMHD WaveSpec.
From Verif.Model Require Import Num Geometry Relativity Units LinearModes TestProblems.
From Verif.Proofs Require Import NumR WaveProofs.
From Verif.Properties Require Import P_LinearModes P_WaveCharts.
Import ListNotations.
Local Open Scope R_scope.

(** ** the radiation pulse *)
(** the spreading pulse of a gas of opacity kappa (unit density) at rest *)
Definition pulse (kappa t0 x0 t x : R) : R := sqrt (t0 / t) * exp (-3 * kappa * (x - x0) ^ 2 / (4 * t)).
(** it solves the diffusion equation dJ/dt = (1 / 3 kappa) d^2J/dx^2 *)
Theorem C53_pulse_diffuses (kappa t0 x0 t x : R) : 0 < kappa -> 0 < t0 -> 0 < t ->
  exists (Jt Jxx : R) (Jx : R -> R),
    is_derive (fun t => pulse kappa t0 x0 t x) t Jt /\
    (forall x, is_derive (fun x => pulse kappa t0 x0 t x) x (Jx x)) /\
    is_derive Jx x Jxx /\
    Jt = / (3 * kappa) * Jxx.
Proof.
  intros Hk H0 Ht.
  pose proof (sqrt_lt_R0 t0 H0) as P0. pose proof (sqrt_lt_R0 t Ht) as P. pose proof (sqrt_sqrt t (Rlt_le _ _ Ht)) as S2.
  set (E := fun x : R => exp (-3 * kappa * (x - x0) ^ 2 / (4 * t))).
  exists (sqrt t0 / sqrt t * E x * (3 * kappa * (x - x0) ^ 2 / (4 * t ^ 2) - 1 / (2 * t))).
  exists (sqrt t0 / sqrt t * E x * ((3 * kappa * (x - x0) / (2 * t)) ^ 2 - 3 * kappa / (2 * t))).
  exists (fun x => sqrt t0 / sqrt t * E x * (- (3 * kappa * (x - x0) / (2 * t)))).
  split; [|split; [|split]].
  - apply (is_derive_ext_loc (fun t : R => sqrt t0 / sqrt t * exp (-3 * kappa * (x - x0) ^ 2 / (4 * t)))).
    { apply (locally_open (fun u : R => 0 < u)); [apply open_gt| |exact Ht].
      intros u Hu. unfold pulse. rewrite sqrt_div by lra. reflexivity. }
    unfold E. auto_derive.
    + repeat split; try lra.
    + match goal with |- @eq _ ?x ?y => change (@eq R x y) end.
      match goal with |- context [exp ?a] => set (e1 := exp a) end.
      match goal with |- context [exp ?a] => set (e2 := exp a) end.
      assert (Ee : e1 = e2) by (unfold e1, e2; f_equal; field; lra). rewrite Ee. clearbody e1 e2. clear Ee.
      set (w := sqrt t) in *. clearbody w. rewrite <- S2. field. lra.
  - intros y. unfold pulse. rewrite sqrt_div by lra. unfold E.
    auto_derive; [trivial|].
    match goal with |- @eq _ ?x ?y => change (@eq R x y) end.
    match goal with |- context [exp ?a] => set (e1 := exp a) end.
    match goal with |- context [exp ?a] => set (e2 := exp a) end.
    assert (Ee : e1 = e2) by (unfold e1, e2; f_equal; field; lra). rewrite Ee. field. lra.
  - unfold E. auto_derive; [trivial|].
    match goal with |- @eq _ ?x ?y => change (@eq R x y) end.
    match goal with |- context [exp ?a] => set (e1 := exp a) end.
    match goal with |- context [exp ?a] => set (e2 := exp a) end.
    assert (Ee : e1 = e2) by (unfold e1, e2; f_equal; field; lra). rewrite Ee. field. lra.
  - field. lra.
Qed.
Print Assumptions C53_pulse_diffuses.

(** the boosted data are that pulse in the frame of the gas: the two frames are related by the
    Lorentz boost with velocity vx, and the centre of the pulse is at rest in the gas *)
Theorem C53_pulse_data (J0 kappa width vx x : R) : 0 < kappa -> 0 < width -> -1 < vx < 1 ->
  let t0 := 3 / 2 * kappa * width ^ 2 in
  exists tp xp x0p,
    (* the event (t0, x) seen from the gas *)
    (tp = (t0 - vx * x) / sqrt (1 - vx ^ 2) /\ xp = (x - vx * t0) / sqrt (1 - vx ^ 2)) /\
    tp ^ 2 - xp ^ 2 = t0 ^ 2 - x ^ 2 /\
    (* (t0, 1/2) is at the centre *)
    x0p = (1 / 2 - vx * t0) / sqrt (1 - vx ^ 2) /\
    ra_J true J0 kappa width vx x = J0 * Rmax (pulse kappa t0 x0p tp xp) (/ 10 ^ 10).
Proof.
  intros Hk Hw Hv t0.
  exists (ra_tp kappa width vx x), (ra_xp kappa width vx x), (ra_x0p kappa width vx).
  assert (D : 0 < 1 - vx * vx) by nra.
  pose proof (sqrt_lt_R0 _ D) as P. pose proof (sqrt_sqrt _ (Rlt_le _ _ D)) as S2.
  assert (ET : ra_t0 kappa width = t0) by (unfold ra_t0, t0; field).
  unfold ra_J, ra_tp, ra_xp, ra_x0p, ra_W, pulse. rewrite ET.
  replace (vx ^ 2) with (vx * vx) by ring.
  split; [split; field; lra|].
  split; [|split; [field; lra|reflexivity]].
  set (w := sqrt (1 - vx * vx)) in *. clearbody w. clearbody t0.
  transitivity ((1 - vx * vx) * (t0 ^ 2 - x ^ 2) / (w * w)); [field; lra|]. rewrite S2. field. lra.
Qed.
Print Assumptions C53_pulse_data.
(** at rest the two profiles agree, and the pulse is a Gaussian of the given width *)
Theorem C53_pulse_at_rest (J0 kappa width x : R) : 0 < kappa -> 0 < width ->
  ra_J true J0 kappa width 0 x = ra_J false J0 kappa width 0 x /\
  ra_J false J0 kappa width 0 x = J0 * Rmax (exp (- (x - 1 / 2) ^ 2 / (2 * width ^ 2))) (/ 10 ^ 10).
Proof.
  intros Hk Hw. unfold ra_J, ra_tp, ra_xp, ra_x0p, ra_W.
  assert (P : 0 < ra_t0 kappa width) by (unfold ra_t0; repeat apply Rmult_lt_0_compat; lra).
  assert (Z : 1 / sqrt (1 - 0 * 0) = 1) by (replace (1 - 0 * 0) with 1 by ring; rewrite sqrt_1; field).
  rewrite Z. split.
  - do 2 f_equal.
    replace (ra_t0 kappa width / (1 * (ra_t0 kappa width - 0 * x))) with 1 by (field; lra).
    rewrite sqrt_1, Rmult_1_l. f_equal. unfold ra_t0. field. split; lra.
  - do 2 f_equal. f_equal. field. lra.
Qed.
Print Assumptions C53_pulse_at_rest.
(** in every system of units the optical depth of the mesh is the one asked for *)
Theorem C53_optical_depth (u : Units R) (tau x1min x1max : R) :
  0 < mass_ u -> 0 < length_ u -> mass_density_ u = mass_ u / length_ u ^ 3 -> x1min < x1max ->
  ra_kappa u (ra_kappa_cgs u tau x1min x1max) * 1 * (x1max - x1min) = tau.
Proof.
  intros Hm Hl Hd Hx. unfold ra_kappa, ra_kappa_cgs, GetMassDensityCodeToCGS, GetLengthCodeToCGS, GetLengthCGSToCode, GetMassCGSToCode.
  num_R. rewrite Hd. field. repeat split; lra.
Qed.
Print Assumptions C53_optical_depth.

(** ** velocities *)
(** the velocity seen by the observer at rest in the grid, from the primitive W v *)
Definition observed (gamma : mat) (vp : vec) : vec := fun i => vp i / sqrt (1 + dot3 gamma vp vp).
(** advection and Kelvin-Helmholtz: any velocity below that of light is represented exactly *)
Theorem C53_velocity (gamma : mat) (v : vec) (i : nat) : 0 <= dot3 gamma v v < 1 ->
  observed gamma (scaled_velocity gamma v) i = v i.
Proof.
  intros [H0 H1]. unfold observed, scaled_velocity. set (s := dot3 gamma v v) in *.
  assert (D : 0 < 1 - s) by lra. pose proof (sqrt_lt_R0 _ D) as P. pose proof (sqrt_sqrt _ (Rlt_le _ _ D)) as S2.
  set (w := sqrt (1 - s)) in *.
  assert (E : 1 + dot3 gamma (fun d => v d * (1 / w)) (fun d => v d * (1 / w)) = (1 / w) * (1 / w)).
  { transitivity (1 + s * ((1 / w) * (1 / w))); [unfold s, dot3, sum3; ring|].
    replace s with (1 - w * w) by lra. clearbody w. field. lra. }
  rewrite E, sqrt_square by (apply Rlt_le, Rdiv_lt_0_compat; lra). clearbody w. field. lra.
Qed.
Print Assumptions C53_velocity.
Definition flat3 : mat := fun i j => if Nat.eqb i j then 1 else 0.
(** ... so in Minkowski space every zone of the shear layer moves with the bulk velocity of its
    side plus at most v_pert in each direction, for all random numbers *)
Theorem C53_shear (v0 v1 v_pert y : R) (rnd : vec) :
  0 <= v_pert -> (forall i, (i < 3)%nat -> 0 <= rnd i < 1) -> Rabs v0 + 3 * v_pert < 1 -> Rabs v1 + 3 * v_pert < 1 ->
  let v := observed flat3 (kh_velocity flat3 v0 v1 v_pert y rnd) in
  Rabs (v 0%nat - (if Rlt_bool (Rabs y) (1 / 4) then v1 else v0)) <= v_pert /\
  Rabs (v 1%nat) <= v_pert /\ Rabs (v 2%nat) <= v_pert.
Proof.
  intros Hp Hr H0 H1 v. unfold v, kh_velocity.
  set (b := if Rlt_bool (Rabs y) (1 / 4) then v1 else v0).
  assert (Hb : Rabs b + 3 * v_pert < 1) by (unfold b; destruct (Rlt_bool _ _); auto).
  assert (Hd : forall i, (i < 3)%nat -> - v_pert <= v_pert * 2 * (rnd i - 1 / 2) <= v_pert).
  { intros i Hi. specialize (Hr i Hi). split; nra. }
  set (d0 := v_pert * 2 * (rnd 0%nat - 1 / 2)) in *. set (d1 := v_pert * 2 * (rnd 1%nat - 1 / 2)) in *. set (d2 := v_pert * 2 * (rnd 2%nat - 1 / 2)) in *.
  assert (D0 : - v_pert <= d0 <= v_pert) by (apply Hd; lia).
  assert (D1 : - v_pert <= d1 <= v_pert) by (apply Hd; lia).
  assert (D2 : - v_pert <= d2 <= v_pert) by (apply Hd; lia).
  clearbody d0 d1 d2 b.
  assert (Q : 0 <= dot3 flat3 (row3 (d0 + b) d1 d2) (row3 (d0 + b) d1 d2) < 1).
  { unfold dot3, sum3, flat3, row3; cbn [Nat.eqb].
    assert (B : Rabs (d0 + b) < 1 - 2 * v_pert).
    { eapply Rle_lt_trans; [apply Rabs_triang|]. assert (Rabs d0 <= v_pert) by (apply Rabs_le; lra). lra. }
    pose proof (Rabs_pos (d0 + b)) as B0.
    assert (S0 : (d0 + b) * (d0 + b) < (1 - 2 * v_pert) * (1 - 2 * v_pert)).
    { replace ((d0 + b) * (d0 + b)) with (Rabs (d0 + b) * Rabs (d0 + b)) by (rewrite <- Rabs_mult; apply Rabs_right; apply Rle_ge, Rle_0_sqr).
      apply Rmult_le_0_lt_compat; lra. }
    assert (S1 : d1 * d1 <= v_pert * v_pert) by nra.
    assert (S2 : d2 * d2 <= v_pert * v_pert) by nra.
    assert (v_pert < 1 / 3) by (pose proof (Rabs_pos b); lra).
    assert (S3 : v_pert * v_pert <= 1 / 3 * v_pert) by nra.
    pose proof (Rle_0_sqr (d0 + b)). pose proof (Rle_0_sqr d1). pose proof (Rle_0_sqr d2). unfold Rsqr in *.
    split; nra. }
  rewrite !(C53_velocity flat3 _ _ Q). cbn [row3].
  split; [|split]; apply Rabs_le; lra.
Qed.
Print Assumptions C53_shear.
Example C53_shear_ex : 0 <= / 100 /\ (forall i, (i < 3)%nat -> 0 <= (fun _ : nat => 1 / 3) i < 1) /\ Rabs (-1 / 2) + 3 * / 100 < 1 /\ Rabs (1 / 2) + 3 * / 100 < 1.
Proof.
  split; [lra|]. split; [intros; lra|]. rewrite Rabs_left, Rabs_right by lra. lra.
Qed.
(** the shock tube and the collapsing star take the Lorentz factor of W v for that of v *)
Theorem C53_shock_tube_velocity_refuted :
  exists vel, 0 < vel < 1 /\ observed flat3 (shock_tube_velocity flat3 vel) 0%nat <> vel.
Proof.
  exists (3 / 5). split; [lra|]. unfold observed, shock_tube_velocity, GetLorentzFactor, dot3, sum3, flat3. cbn [row3 Nat.eqb].
  match goal with |- context [sqrt (1 + ?a)] => replace (1 + a) with (34 / 25) by field end.
  assert (S2 : sqrt (34 / 25) * sqrt (34 / 25) = 34 / 25) by (apply sqrt_sqrt; lra).
  set (w := sqrt (34 / 25)) in *.
  match goal with |- context [sqrt (1 + ?a)] => replace (1 + a) with (931 / 625) by (ring_simplify; replace (w ^ 2) with (34 / 25) by (rewrite <- S2; ring); field) end.
  intros E.
  assert (P : 0 < sqrt (931 / 625)) by (apply sqrt_lt_R0; lra).
  assert (Q : sqrt (931 / 625) * sqrt (931 / 625) = 931 / 625) by (apply sqrt_sqrt; lra).
  set (q := sqrt (931 / 625)) in *. clearbody q w.
  assert (F : 3 / 5 * w = 3 / 5 * q) by (rewrite <- E at 2; field; lra).
  assert (w = q) by lra. subst w. lra.
Qed.
Print Assumptions C53_shock_tube_velocity_refuted.
Theorem C53_homologous_velocity_refuted :
  exists v : vec, dot3 flat3 v v < 1 /\ observed flat3 (homologous_velocity flat3 v) 0%nat <> v 0%nat.
Proof.
  destruct C53_shock_tube_velocity_refuted as (vel & Hv & N).
  exists (row3 vel 0 0). split; [unfold dot3, sum3, flat3; cbn [row3 Nat.eqb]; nra|].
  intros E. apply N. change (row3 vel 0 0 0%nat) with vel in E. transitivity (observed flat3 (homologous_velocity flat3 (row3 vel 0 0)) 0%nat); [|exact E].
  unfold observed, shock_tube_velocity, homologous_velocity. cbn [row3].
  set (G := GetLorentzFactor _ _). f_equal. f_equal. unfold dot3, sum3. cbn [row3]. ring.
Qed.
Print Assumptions C53_homologous_velocity_refuted.
(** the electron fraction the shock tube stores is negative in half of the zones and is not the
    one its energy was computed with *)
Theorem C53_shock_tube_ye_refuted : exists x, 0 < x < 1 /\ snd (shock_tube_ye x) < 0 /\ snd (shock_tube_ye x) <> fst (shock_tube_ye x).
Proof.
  exists (3 / 4). unfold shock_tube_ye. cbn [fst snd].
  replace (2 * PI * (3 / 4)) with (3 * (PI / 2)) by field. rewrite sin_3PI2. lra.
Qed.
Print Assumptions C53_shock_tube_ye_refuted.

(** ** the rotor *)
(** the disc turns rigidly below the speed of light; outside the gas is at rest *)
Theorem C53_rotor_rigid (omega r0 x y : R) : 0 <= omega -> 0 < r0 -> omega * r0 <= 1 ->
  let r := sqrt (x * x + y * y) in
  let v := rotor_flat omega r0 x y in
  v 0%nat * v 0%nat + v 1%nat * v 1%nat < 1 /\
  v 0%nat * x + v 1%nat * y = 0 /\
  (r < r0 -> x * v 1%nat - y * v 0%nat = omega * r ^ 2) /\
  (r0 <= r -> v 0%nat = 0 /\ v 1%nat = 0).
Proof.
  intros Ho Hr Hw r v.
  assert (R2 : r * r = x * x + y * y) by (apply sqrt_sqrt; nra). assert (R0 : 0 <= r) by apply sqrt_pos.
  unfold v, rotor_flat. fold r. cbn [row3]. destruct (Rlt_bool_spec r r0) as [L|L].
  - split; [|split; [ring|split; [intros _|intros; lra]]].
    + replace (- y * omega * (- y * omega) + x * omega * (x * omega)) with ((omega * r) * (omega * r)) by (transitivity (omega * omega * (r * r)); [ring|rewrite R2; ring]).
      assert (A : 0 <= omega * r) by (apply Rmult_le_pos; auto).
      assert (B : omega * r < 1).
      { destruct (Rle_lt_or_eq_dec 0 omega Ho) as [Hlt|Heq]; [|rewrite <- Heq; lra].
        assert (omega * r < omega * r0) by (apply Rmult_lt_compat_l; auto). lra. }
      nra.
    + replace (r ^ 2) with (x * x + y * y) by (rewrite <- R2; ring). ring.
  - split; [lra|split; [ring|split; [intros; lra|intros _; split; ring]]].
Qed.
Print Assumptions C53_rotor_rigid.
Lemma to_chart_field (alpha Gamma : R) (shift vp B : vec) (J : mat) (i : nat) : (i < 3)%nat -> alpha <> 0 -> Gamma <> 0 ->
  J 0%nat 0%nat = 1 / alpha -> (forall j, (j < 3)%nat -> J 0%nat (S j) = 0) ->
  snd (to_chart alpha shift J (flat_ucon Gamma vp) (flat_bcon Gamma vp B)) i
  = J (S i) 1%nat * B 0%nat + J (S i) 2%nat * B 1%nat + J (S i) 3%nat * B 2%nat.
Proof.
  intros Hi Ha HG J00 J0.
  unfold to_chart. cbn [snd]. unfold sum4. rewrite J00, !J0 by lia.
  unfold flat_bcon, flat_ucon. cbn [row4]. field. split; auto.
Qed.
(** in Cartesian and in snake coordinates the field is the uniform field along x, and its
    divergence vanishes at every event *)
Theorem C53_rotor_field (ch : Chart) (omega r0 B0 : R) :
  (ch = ch_minkowski \/ exists a k alpha vy, ch = ch_snake a k alpha vy /\ 0 < alpha) ->
  0 <= omega -> 0 < r0 -> omega * r0 <= 1 ->
  forall X, let g := chart_system ch in
  let B Y := snd (rotor_cell ch (ContravariantShift g Y) omega r0 B0 (Y 1%nat) (Y 2%nat)) in
  (* the flat field is the image of B under the chart *)
  (exists J : mat,
     (forall m s, (m < 4)%nat -> (s < 4)%nat -> is_partial (fun Y => to_flat ch Y m) s X (J m s)) /\
     forall m, (m < 3)%nat -> row3 B0 0 0 m = J (S m) 1%nat * B X 0%nat + J (S m) 2%nat * B X 1%nat + J (S m) 3%nat * B X 2%nat) /\
  DetGamma g X = 1 /\
  is_partial (fun Y => B Y 0%nat) 1 X 0 /\ is_partial (fun Y => B Y 1%nat) 2 X 0 /\ is_partial (fun Y => B Y 2%nat) 3 X 0.
Proof.
  intros Hch Ho Hr Hw X g B.
  assert (HB : forall Y i, (i < 3)%nat -> B Y i = lm_J ch (Y 1%nat) (S i) 1%nat * B0).
  { intros Y i Hi. unfold B, rotor_cell.
    destruct (C53_rotor_rigid omega r0 (Y 1%nat) (lm_y ch (Y 1%nat) (Y 2%nat)) Ho Hr Hw) as (V & _).
    set (v := rotor_flat omega r0 (Y 1%nat) (lm_y ch (Y 1%nat) (Y 2%nat))) in *.
    assert (G : 1 / sqrt (1 - v 0%nat * v 0%nat - v 1%nat * v 1%nat) <> 0).
    { apply Rgt_not_eq, Rdiv_lt_0_compat; [lra|apply sqrt_lt_R0; lra]. }
    rewrite to_chart_field; auto.
    - cbn [row3]. ring.
    - destruct Hch as [->|(a & k & al & vy & -> & Ha)]; cbn [lm_alpha]; lra.
    - destruct Hch as [->|(a & k & al & vy & -> & Ha)]; cbn [lm_alpha lm_J rows4 row4]; [field|reflexivity].
    - intros j Hj. destruct Hch as [->|(a & k & al & vy & -> & Ha)]; destruct j as [|[|[|]]]; try lia; reflexivity. }
  split; [|split; [|split; [|split]]].
  - exists (dflat ch X). split; [intros; apply dflat_ok; auto|]. intros m Hm. rewrite !HB by lia.
    destruct Hch as [->|(a & k & al & vy & -> & Ha)]; destruct m as [|[|[|]]]; try lia; cbn [dflat lm_J rows4 row4 row3]; ring.
  - unfold g. destruct Hch as [->|(a & k & al & vy & -> & Ha)]; reflexivity.
  - unfold is_partial. apply (is_derive_ext (fun _ : R => B0)); [|apply (is_derive_const (V := R_NormedModule))].
    intros t. rewrite HB by lia. destruct Hch as [->|(a & k & al & vy & -> & Ha)]; cbn [lm_J rows4 row4];
      match goal with |- @eq _ ?x ?y => change (@eq R x y) end; ring.
  - unfold is_partial. apply (is_derive_ext (fun _ : R => lm_J ch (X 1%nat) 2%nat 1%nat * B0)); [|apply (is_derive_const (V := R_NormedModule))].
    intros t. rewrite HB by lia. reflexivity.
  - unfold is_partial. apply (is_derive_ext (fun _ : R => lm_J ch (X 1%nat) 3%nat 1%nat * B0)); [|apply (is_derive_const (V := R_NormedModule))].
    intros t. rewrite HB by lia. reflexivity.
Qed.
Print Assumptions C53_rotor_field.

(** the velocity written is the one whose four-velocity is that of the turning disc *)
Theorem C53_rotor_velocity (ch : Chart) (omega r0 B0 x y z : R) :
  (ch = ch_minkowski \/ exists a k alpha vy, ch = ch_snake a k alpha vy /\ 0 < alpha) ->
  0 <= omega -> 0 < r0 -> omega * r0 <= 1 ->
  let X := row4 0 x y z in
  let g := chart_system ch in
  let v := rotor_flat omega r0 (to_flat ch X 1%nat) (to_flat ch X 2%nat) in
  let Gamma := 1 / sqrt (1 - (v 0%nat * v 0%nat + v 1%nat * v 1%nat)) in
  same_vector ch X (row4 Gamma (Gamma * v 0%nat) (Gamma * v 1%nat) 0)
    (four_velocity g X (fst (rotor_cell ch (ContravariantShift g X) omega r0 B0 x y))).
Proof.
  intros Hch Ho Hr Hw X g v Gamma.
  destruct (C53_rotor_rigid omega r0 (to_flat ch X 1%nat) (to_flat ch X 2%nat) Ho Hr Hw) as (V & _).
  fold v in V.
  assert (Hs : 0 < 1 - (v 0%nat * v 0%nat + v 1%nat * v 1%nat)) by lra.
  assert (G : 0 < Gamma) by (apply Rdiv_lt_0_compat; [lra|apply sqrt_lt_R0; lra]).
  assert (G2 : Gamma * Gamma * (1 - (v 0%nat * v 0%nat + v 1%nat * v 1%nat)) = 1).
  { unfold Gamma. pose proof (sqrt_sqrt _ (Rlt_le _ _ Hs)) as Q. pose proof (sqrt_lt_R0 _ Hs).
    set (w := sqrt _) in *. rewrite <- Q. field. lra. }
  assert (E : rotor_cell ch (ContravariantShift g X) omega r0 B0 x y
              = to_chart (lm_alpha ch) (ContravariantShift g X) (lm_J ch x)
                  (flat_ucon Gamma (row3 (Gamma * v 0%nat) (Gamma * v 1%nat) 0))
                  (flat_bcon Gamma (row3 (Gamma * v 0%nat) (Gamma * v 1%nat) 0) (row3 B0 0 0))).
  { unfold rotor_cell.
    assert (Y1 : to_flat ch X 1%nat = x) by (unfold X; destruct Hch as [->|(a & k & al & vy & -> & Ha)]; reflexivity).
    assert (Y2 : to_flat ch X 2%nat = lm_y ch x y).
    { unfold X. destruct Hch as [->|(a & k & al & vy & -> & Ha)]; cbn [to_flat row4]; unfold lm_y; cbn [to_flat row4]; [reflexivity|ring]. }
    unfold Gamma, v. rewrite Y1, Y2. f_equal; [f_equal|f_equal].
    all: try (replace (1 - rotor_flat omega r0 x (lm_y ch x y) 0%nat * rotor_flat omega r0 x (lm_y ch x y) 0%nat -
       rotor_flat omega r0 x (lm_y ch x y) 1%nat * rotor_flat omega r0 x (lm_y ch x y) 1%nat)
       with (1 - (rotor_flat omega r0 x (lm_y ch x y) 0%nat * rotor_flat omega r0 x (lm_y ch x y) 0%nat +
       rotor_flat omega r0 x (lm_y ch x y) 1%nat * rotor_flat omega r0 x (lm_y ch x y) 1%nat)) by ring; reflexivity). }
  rewrite E. clear E. clearbody Gamma. set (v0 := v 0%nat) in *. set (v1 := v 1%nat) in *. clearbody v0 v1.
  exists (dflat ch X). split; [intros; apply dflat_ok; auto|].
  unfold to_chart. cbn [fst]. unfold g.
  assert (Wq : forall vp : vec, dot3 (Metric (chart_system ch) X) vp vp = Gamma * Gamma - 1 ->
     sqrt (1 + dot3 (Metric (chart_system ch) X) vp vp) = Gamma).
  { intros vp Q. rewrite Q. replace (1 + (Gamma * Gamma - 1)) with (Gamma * Gamma) by ring. apply sqrt_square. lra. }
  intros m Hm. unfold four_velocity.
  rewrite Wq.
  - destruct Hch as [->|(a & k & al & vy & -> & Ha)]; unfold X; destruct m as [|[|[|[|]]]]; try lia;
      unfold sum4, flat_ucon; cbn [chart_system BoostedMinkowski Snake Lapse ContravariantShift dflat lm_J lm_alpha rows4 row4 row3]; field; lra.
  - transitivity (Gamma * Gamma * (v0 * v0 + v1 * v1)); [|lra].
    destruct Hch as [->|(a & k & al & vy & -> & Ha)]; unfold X, dot3, sum3, sum4, flat_ucon;
      cbn [chart_system BoostedMinkowski Snake Metric ContravariantShift lm_J lm_alpha rows4 row4 rows3 row3]; unfold GetDelta; cbn [row4];
      [field|]. set (c := cos _). clearbody c. field. lra.
Qed.
Print Assumptions C53_rotor_velocity.
Example C53_rotor_ex : exists omega r0, 0 <= omega /\ 0 < r0 /\ omega * r0 <= 1 /\
  rotor_flat omega r0 0 (/ 20) 0%nat = - (995 / 2000).
Proof.
  exists (995 / 100), (/ 10). split; [lra|split; [lra|split; [lra|]]]. unfold rotor_flat. cbn [row3].
  replace (0 * 0 + / 20 * / 20) with (/ 20 * / 20) by ring. rewrite sqrt_square by lra.
  rewrite Rlt_bool_true by lra. lra.
Qed.
(** the run lasts the requested Minkowski time when the mesh is a single block, and on no other
    mesh unless the lapse is one: every block divides the final time again *)
Theorem C53_rotor_time (a k alpha vy tlim : R) (n : nat) (x y z : R) : 0 < alpha -> 0 < tlim -> (0 < n)%nat ->
  let ch := ch_snake a k alpha vy in
  to_flat ch (row4 (rotor_run_tlim ch n tlim) x y z) 0%nat = tlim <-> n = 1%nat \/ alpha = 1.
Proof.
  intros Ha Ht Hn ch.
  assert (E : forall n, rotor_run_tlim ch n tlim = tlim / alpha ^ n).
  { intros j. unfold rotor_run_tlim. induction j as [|j IH]; [cbn; lra|].
    change (Nat.iter (S j) (rotor_tlim ch) tlim) with (rotor_tlim ch (Nat.iter j (rotor_tlim ch) tlim)). rewrite IH. unfold ch, rotor_tlim. cbn [pow].
    field. split; [apply pow_nonzero; lra|lra]. }
  change (alpha * rotor_run_tlim ch n tlim = tlim <-> n = 1%nat \/ alpha = 1). rewrite E.
  destruct n as [|n]; [lia|]. cbn [pow].
  assert (P : 0 < alpha ^ n) by (apply pow_lt; auto).
  assert (F : alpha * (tlim / (alpha * alpha ^ n)) = tlim / alpha ^ n) by (field; lra). rewrite F.
  split.
  - intros Q. assert (A1 : alpha ^ n = 1).
    { assert (tlim = tlim * alpha ^ n) by (rewrite <- Q at 2; field; lra). nra. }
    destruct n as [|n]; [left; reflexivity|right].
    destruct (Rtotal_order alpha 1) as [L|[L|L]]; auto; exfalso.
    + assert (alpha ^ S n < 1 ^ S n) by (apply Rlt_pow_lt || idtac; clear -L Ha; induction n as [|n IH]; [simpl; lra|];
        change (alpha * alpha ^ S n < 1 * 1 ^ S n); apply Rmult_le_0_lt_compat; try lra; apply pow_le; lra).
      rewrite pow1 in *. lra.
    + pose proof (Rlt_pow_R1 alpha (S n) L ltac:(lia)). lra.
  - intros [Q|Q].
    + assert (n = 0%nat) by lia. subst n. cbn. field.
    + rewrite Q, pow1. field.
Qed.
Print Assumptions C53_rotor_time.

(** ** the cosmological problem *)
(** only zones 0, 1 and 2 of each row are touched, one component each: a zone keeps whatever
    velocity its memory held *)
Theorem C53_friedmann_refuted (n : nat) (v : nat -> nat -> R) (d i : nat) :
  d <> i -> friedmann_velocity n v d i = v d i.
Proof.
  intros H.
  assert (Z : forall v, friedmann_zone v d i = v d i).
  { intros w. unfold friedmann_zone. cbn [seq fold_left]. unfold set2.
    destruct (Nat.eqb_spec d 0), (Nat.eqb_spec i 0), (Nat.eqb_spec d 1), (Nat.eqb_spec i 1), (Nat.eqb_spec d 2), (Nat.eqb_spec i 2);
      cbn [andb]; try reflexivity; lia. }
  unfold friedmann_velocity. generalize (seq 0 n). intros l. revert v. induction l as [|a l IH]; intros v; cbn [fold_left]; [reflexivity|].
  rewrite IH. apply Z.
Qed.
Print Assumptions C53_friedmann_refuted.
Example C53_friedmann_ex : friedmann_velocity 8 (fun _ _ => 1) 0 5 = 1.
Proof. apply C53_friedmann_refuted. lia. Qed.
