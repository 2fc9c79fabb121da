(** C52, continued: the linear waves in the other coordinate systems of flat space. *)
From Coq Require Import Reals List Arith Lia Lra.
From Coquelicot Require Import Coquelicot.
From Verif.Spec Require Import Tensor GeomSpec Relativity GRMHD WaveSpec.
From Verif.Model Require Import Geometry LinearModes.
From Verif.Proofs Require Import WaveProofs.
From Verif.Properties Require Import P_LinearModes.
Import ListNotations.
Local Open Scope R_scope.

(** the geometry object, and the Minkowski coordinates of an event, in each chart *)
Definition chart_system (ch : Chart) : System :=
  match ch with
  | ch_minkowski => BoostedMinkowski 0 0 0
  | ch_boosted vx vy vz => BoostedMinkowski vx vy vz
  | ch_snake a k alpha vy => Snake a k alpha vy
  | ch_inchworm a k => Inchworm a k
  end.
Definition to_flat (ch : Chart) (X : vec) : vec :=
  match ch with
  | ch_minkowski => X
  | ch_boosted vx vy vz => row4 (X.[0]) (X.[1] + vx * X.[0]) (X.[2] + vy * X.[0]) (X.[3] + vz * X.[0])
  | ch_snake a k alpha vy => row4 (alpha * X.[0]) (X.[1]) (X.[2] - a * sin (k * X.[1]) + vy * X.[0]) (X.[3])
  | ch_inchworm a k => row4 (X.[0]) (X.[1] - a * sin (k * X.[1])) (X.[2]) (X.[3])
  end.
(** the flat metric in these coordinates is the metric of the geometry object *)
Definition flat_in_chart (ch : Chart) : Prop := forall X, is_pullback_of_flat (SpacetimeMetric (chart_system ch)) (to_flat ch) X.
(** the vector b of the chart at X is the vector a of Minkowski space at the same event *)
Definition same_vector (ch : Chart) (X : vec) (a b : vec) : Prop :=
  exists J : mat,
    (forall m s, (m < 4)%nat -> (s < 4)%nat -> is_partial (fun Y => to_flat ch Y m) s X (J m s)) /\
    (forall m, (m < 4)%nat -> a m = sum4 (fun s => J m s * b s)).
(** four-velocity of a gas with velocity primitive vp in a geometry *)
Definition four_velocity (g : System) (X : vec) (vp : vec) : vec :=
  let W := sqrt (1 + dot3 (Metric g X) vp vp) in
  fun mu => match mu with O => W / Lapse g X | S i => vp i - W * ContravariantShift g X i / Lapse g X end.
Definition comoving (g : System) (X : vec) (vp B : vec) : vec :=
  comoving_field (SpacetimeMetric g X) (sqrt (1 + dot3 (Metric g X) vp vp)) (four_velocity g X vp) B.

(** Jacobian of [to_flat] *)
Definition dflat (ch : Chart) (X : vec) : mat :=
  match ch with
  | ch_minkowski => rows4 (row4 1 0 0 0) (row4 0 1 0 0) (row4 0 0 1 0) (row4 0 0 0 1)
  | ch_boosted vx vy vz => rows4 (row4 1 0 0 0) (row4 vx 1 0 0) (row4 vy 0 1 0) (row4 vz 0 0 1)
  | ch_snake a k alpha vy =>
      rows4 (row4 alpha 0 0 0) (row4 0 1 0 0) (row4 vy (- (a * k * cos (k * X.[1]))) 1 0) (row4 0 0 0 1)
  | ch_inchworm a k =>
      rows4 (row4 1 0 0 0) (row4 0 (1 - a * k * cos (k * X.[1])) 0 0) (row4 0 0 1 0) (row4 0 0 0 1)
  end.
Lemma dflat_ok (ch : Chart) (X : vec) (m s : nat) : (m < 4)%nat -> (s < 4)%nat ->
  is_partial (fun Y => to_flat ch Y m) s X (dflat ch X m s).
Proof.
  intros Hm Hs. unfold is_partial.
  destruct m as [|[|[|[|]]]]; try lia; destruct s as [|[|[|[|]]]]; try lia; destruct ch;
    unfold to_flat, dflat, moved; cbn [row4 rows4 Nat.eqb];
    (auto_derive; [trivial|]; match goal with |- @eq _ ?x ?y => change (@eq R x y) end; ring).
Qed.
(** the charts whose geometry object is flat space *)
Theorem C52_flat (ch : Chart) : flat_in_chart ch.
Proof.
  intros X. exists (dflat ch X). split; [intros; apply dflat_ok; auto|].
  intros mu nu Hm Hn. destruct ch;
    destruct mu as [|[|[|[|]]]]; try lia; destruct nu as [|[|[|[|]]]]; try lia;
    unfold sum4, eta, GetDelta; cbn [chart_system SpacetimeMetric BoostedMinkowski Snake Inchworm dflat rows4 row4 Nat.eqb];
    unfold GetDelta; ring.
Qed.
Print Assumptions C52_flat.

Lemma sum4_lin (J : nat -> R) (a b : vec) (s t : R) :
  sum4 (fun i => J i * (s * a i + t * b i)) = s * sum4 (fun i => J i * a i) + t * sum4 (fun i => J i * b i).
Proof. unfold sum4. ring. Qed.
Lemma comoving_of (g : mat) (alpha Gam : R) (u b B : vec) (mu : nat) : (mu < 4)%nat ->
  dot4 g u u = -1 -> dot4 g b u = 0 -> Gam = alpha * u 0%nat -> Gam <> 0 ->
  (forall i, (i < 3)%nat -> B i = b (S i) * Gam - alpha * b 0%nat * u (S i)) ->
  comoving_field g Gam u B mu = b mu.
Proof.
  intros Hm U O G N HB.
  assert (E : forall m, (m < 4)%nat -> spatial4 B m = Gam * b m - alpha * b 0%nat * u m).
  { intros m Hl. destruct m as [|i]; cbn [spatial4]; [rewrite G; ring|rewrite HB by lia; ring]. }
  assert (D : dot4 g (spatial4 B) u = Gam * dot4 g b u - alpha * b 0%nat * dot4 g u u).
  { unfold dot4, sum4. rewrite !E by lia. ring. }
  unfold comoving_field. rewrite D, U, O, E by auto. field. exact N.
Qed.
(** the written velocity and field are the four-velocity and comoving field of the wave *)
Section Chart.
Variables (ch : Chart) (gam amp : R) (md : Mode) (x y z : R).
Hypothesis good : match ch with ch_boosted _ _ _ => True | ch_snake _ _ alpha _ => 0 < alpha | _ => False end.
Let X : vec := row4 0 x y z.
Let g := chart_system ch.
Let Y := to_flat ch X.
Let q := written gam amp md (Y 1%nat) (Y 2%nat).
Let p := lm_cell ch (ContravariantShift g X) gam amp md x y.
Lemma chart_W : sqrt (1 + dot3 (Metric g X) (l_vp p) (l_vp p)) = gas_W q.
Proof.
  unfold gas_W. f_equal. unfold q, p, g, X, Y, written, lm_cell, to_chart.
  destruct ch as [|vx vy vz|a k alpha vy|a k]; try contradiction.
  - unfold to_flat. set (f := lm_flat gam amp md _ _). set (f' := lm_flat gam amp md _ _).
    assert (E : f' = f).
    { unfold f, f', lm_x, lm_y. cbn [row4]. rewrite !Rmult_0_r, !Rplus_0_r. reflexivity. }
    rewrite E. clearbody f. cbn [g_vp l_vp].
    unfold flat_ucon, lm_J, lm_alpha, dot3, sum3, sum4.
    cbn [chart_system BoostedMinkowski Metric ContravariantShift rows4 row4 rows3 row3].
    set (w := sqrt _). clearbody w. field.
  - unfold to_flat. set (f := lm_flat gam amp md _ _). set (f' := lm_flat gam amp md _ _).
    assert (E : f' = f).
    { unfold f, f', lm_x, lm_y. cbn [row4]. rewrite !Rmult_0_r, !Rplus_0_r. reflexivity. }
    rewrite E. clearbody f. cbn [g_vp l_vp].
    unfold flat_ucon, lm_J, lm_alpha, dot3, sum3, sum4.
    cbn [chart_system Snake Metric ContravariantShift rows4 row4 rows3 row3]. unfold GetDelta, lm_x. cbn [row4].
    set (w := sqrt _). clearbody w. set (c := cos _). clearbody c. field. lra.
Qed.
(** in the code's notation: Lorentz factor, four-velocity and comoving field before and after *)
Let flatq := lm_flat gam amp md (lm_x ch x) (lm_y ch x y).
Let Gam := sqrt (1 + (l_vp flatq 0%nat * l_vp flatq 0%nat + l_vp flatq 1%nat * l_vp flatq 1%nat + l_vp flatq 2%nat * l_vp flatq 2%nat)).
Let u : vec := flat_ucon Gam (l_vp flatq).
Let b : vec := flat_bcon Gam (l_vp flatq) (l_B flatq).
Let ut : vec := fun mu => sum4 (fun nu => lm_J ch (lm_x ch x) mu nu * u nu).
Let bt : vec := fun mu => sum4 (fun nu => lm_J ch (lm_x ch x) mu nu * b nu).
Lemma chart_Gam : 0 < Gam /\ Gam * Gam = 1 + (l_vp flatq 0%nat * l_vp flatq 0%nat + l_vp flatq 1%nat * l_vp flatq 1%nat + l_vp flatq 2%nat * l_vp flatq 2%nat).
Proof.
  split; [apply sqrt_lt_R0; nra|apply sqrt_sqrt; nra].
Qed.
Lemma chart_q : q = mkGas (l_rho flatq) (l_u flatq) (l_vp flatq) (l_B flatq).
Proof.
  unfold q, written, flatq, Y, X. destruct ch as [|vx vy vz|a k alpha vy|a k]; try contradiction;
    unfold to_flat, lm_x, lm_y; cbn [row4]; rewrite !Rmult_0_r, !Rplus_0_r; reflexivity.
Qed.
Lemma chart_u0 (mu : nat) : (mu < 4)%nat -> gas_ucon q mu = u mu.
Proof.
  intros H. rewrite chart_q. unfold u, flat_ucon, gas_ucon. destruct mu as [|[|[|[|]]]]; try lia; reflexivity.
Qed.
Lemma chart_b0 (mu : nat) : (mu < 4)%nat -> gas_bcon q mu = b mu.
Proof.
  intros H. unfold gas_bcon, comoving_field, dot4, sum4. rewrite !chart_u0 by lia.
  replace (gas_W q) with Gam by (rewrite chart_q; reflexivity).
  rewrite chart_q. destruct chart_Gam as [G0 _]. unfold b, u, flat_bcon, flat_ucon, eta.
  destruct mu as [|[|[|[|]]]]; try lia; cbn [row4 Nat.eqb spatial4 g_B]; field; lra.
Qed.
Lemma chart_Gam' : lm_alpha ch * ut 0%nat = Gam.
Proof.
  unfold ut, u. generalize Gam. intros G. unfold flat_ucon, sum4.
  destruct ch as [|vx vy vz|a k alpha vy|a k]; try contradiction; cbn [lm_alpha lm_J rows4 row4]; field; lra.
Qed.
Lemma chart_vp (i : nat) : (i < 3)%nat ->
  l_vp p i = ut (S i) + Gam * ContravariantShift g X i / lm_alpha ch.
Proof.
  intros H. rewrite <- chart_Gam' at 1.
  unfold p, lm_cell, ut, u, Gam, flatq.
  destruct ch as [|vx vy vz|a k alpha vy|a k]; try contradiction; reflexivity.
Qed.
Lemma chart_B (i : nat) : (i < 3)%nat ->
  l_B p i = bt (S i) * Gam - lm_alpha ch * bt 0%nat * ut (S i).
Proof.
  intros H. rewrite <- chart_Gam' at 1.
  unfold p, lm_cell, ut, u, bt, b, Gam, flatq.
  destruct ch as [|vx vy vz|a k alpha vy|a k]; try contradiction; reflexivity.
Qed.
Lemma chart_lapse : Lapse g X = lm_alpha ch.
Proof. unfold g. destruct ch; try contradiction; reflexivity. Qed.
Lemma chart_ut (mu : nat) : (mu < 4)%nat -> four_velocity g X (l_vp p) mu = ut mu.
Proof.
  intros H. unfold four_velocity. rewrite chart_W, chart_q.
  change (gas_W (mkGas (l_rho flatq) (l_u flatq) (l_vp flatq) (l_B flatq))) with Gam.
  rewrite chart_lapse. pose proof chart_Gam' as E.
  assert (N : lm_alpha ch <> 0) by (destruct ch; try contradiction; cbn [lm_alpha]; lra).
  destruct mu as [|i].
  - rewrite <- E. field. exact N.
  - rewrite chart_vp by lia. unfold Rdiv. ring.
Qed.
(** the code's Jacobian and that of the chart are inverse to each other *)
Lemma chart_inv (a : vec) (m : nat) : (m < 4)%nat ->
  sum4 (fun s => dflat ch X m s * sum4 (fun nu => lm_J ch (lm_x ch x) s nu * a nu)) = a m.
Proof.
  intros H. unfold X, sum4. destruct ch as [|vx vy vz|aa k alpha vy|aa k]; try contradiction;
    destruct m as [|[|[|[|]]]]; try lia; unfold lm_x; cbn [dflat lm_J rows4 row4]; field; lra.
Qed.
Lemma chart_dot (a c : vec) :
  dot4 (SpacetimeMetric g X) (fun s => sum4 (fun nu => lm_J ch (lm_x ch x) s nu * a nu))
       (fun s => sum4 (fun nu => lm_J ch (lm_x ch x) s nu * c nu)) = dot4 eta a c.
Proof.
  unfold g, X, dot4, sum4, eta. destruct ch as [|vx vy vz|aa k alpha vy|aa k]; try contradiction;
    unfold lm_x; cbn [chart_system SpacetimeMetric BoostedMinkowski Snake lm_J rows4 row4 Nat.eqb]; unfold GetDelta; cbn [row4];
    [ring|]. set (cc := cos _). clearbody cc. field. lra.
Qed.
Lemma chart_bt (mu : nat) : (mu < 4)%nat -> comoving g X (l_vp p) (l_B p) mu = bt mu.
Proof.
  intros H. unfold comoving.
  assert (E : sqrt (1 + dot3 (Metric g X) (l_vp p) (l_vp p)) = Gam) by (rewrite chart_W, chart_q; reflexivity).
  rewrite E. destruct chart_Gam as [G0 G2].
  assert (U : forall c : vec, dot4 (SpacetimeMetric g X) c (four_velocity g X (l_vp p)) = dot4 (SpacetimeMetric g X) c ut).
  { intros c. unfold dot4, sum4. rewrite !chart_ut by lia. reflexivity. }
  transitivity (comoving_field (SpacetimeMetric g X) Gam ut (l_B p) mu).
  { unfold comoving_field. rewrite U, chart_ut by auto. reflexivity. }
  apply (comoving_of _ (lm_alpha ch)); auto.
  - unfold ut. rewrite chart_dot. unfold u, flat_ucon, dot4, sum4, eta. cbn [row4 Nat.eqb]. lra.
  - unfold bt, ut. rewrite chart_dot. unfold b, u, flat_bcon, flat_ucon, dot4, sum4, eta. cbn [row4 Nat.eqb].
    set (v0 := l_vp flatq 0%nat) in *. set (v1 := l_vp flatq 1%nat) in *. set (v2 := l_vp flatq 2%nat) in *.
    set (B0 := l_B flatq 0%nat). set (B1 := l_B flatq 1%nat). set (B2 := l_B flatq 2%nat).
    set (s := B0 * v0 + B1 * v1 + B2 * v2).
    replace (Gam * (B0 * v0 / Gam + B1 * v1 / Gam + B2 * v2 / Gam)) with s by (unfold s; field; lra).
    clearbody v0 v1 v2 B0 B1 B2.
    transitivity (- s * Gam + (s + s * (v0 * v0 + v1 * v1 + v2 * v2)) / Gam); [unfold s; field; lra|].
    replace (v0 * v0 + v1 * v1 + v2 * v2) with (Gam * Gam - 1) by lra. field. lra.
  - symmetry. apply chart_Gam'.
  - lra.
  - intros i Hi. apply chart_B; auto.
Qed.
End Chart.

Theorem C52_chart (ch : Chart) (gam amp : R) (md : Mode) (x y z : R) :
  match ch with ch_boosted _ _ _ => True | ch_snake _ _ alpha _ => 0 < alpha | _ => False end ->
  let X := row4 0 x y z in
  let g := chart_system ch in
  let p := lm_cell ch (ContravariantShift g X) gam amp md x y in
  let q := written gam amp md (to_flat ch X 1%nat) (to_flat ch X 2%nat) in
  to_flat ch X 0%nat = 0 /\ l_rho p = g_rho q /\ l_u p = g_u q /\ l_P p = (gam - 1) * g_u q /\
  same_vector ch X (gas_ucon q) (four_velocity g X (l_vp p)) /\
  same_vector ch X (gas_bcon q) (comoving g X (l_vp p) (l_B p)).
Proof.
  intros good X g p q.
  assert (Z : to_flat ch X 0%nat = 0) by (unfold X; destruct ch; try contradiction; cbn [to_flat row4]; ring).
  assert (Q := chart_q ch gam amp md x y z good). fold X in Q. fold q in Q.
  assert (P : l_rho p = l_rho (lm_flat gam amp md (lm_x ch x) (lm_y ch x y)) /\
              l_u p = l_u (lm_flat gam amp md (lm_x ch x) (lm_y ch x y)) /\
              l_P p = l_P (lm_flat gam amp md (lm_x ch x) (lm_y ch x y))).
  { unfold p. destruct ch; try contradiction; split; [|split| |split]; reflexivity. }
  destruct P as (P1 & P2 & P3).
  split; [exact Z|]. split; [rewrite P1, Q; reflexivity|]. split; [rewrite P2, Q; reflexivity|].
  split; [rewrite P3, Q; reflexivity|]. split.
  - exists (dflat ch X). split; [intros; apply dflat_ok; auto|]. intros m Hm.
    unfold sum4. unfold p, g.
    rewrite !(chart_ut ch gam amp md x y z good) by lia.
    etransitivity; [apply (chart_u0 ch gam amp md x y z good); auto|].
    symmetry. eapply chart_inv; eauto.
  - exists (dflat ch X). split; [intros; apply dflat_ok; auto|]. intros m Hm.
    unfold sum4. unfold p, g.
    rewrite !(chart_bt ch gam amp md x y z good) by lia.
    etransitivity; [apply (chart_b0 ch gam amp md x y z good); auto|].
    symmetry. eapply chart_inv; eauto.
Qed.
Print Assumptions C52_chart.
Example C52_chart_ex : match ch_snake (/ 10) (2 * PI) 2 (/ 3) with ch_boosted _ _ _ => True | ch_snake _ _ alpha _ => 0 < alpha | _ => False end.
Proof. change (0 < 2). lra. Qed.

(** the final time of a snake run is one period of proper Minkowski time *)
Theorem C52_snake_time (a k alpha vy : R) (md : Mode) (x y z : R) : 0 < alpha ->
  to_flat (ch_snake a k alpha vy) (row4 (lm_tlim (ch_snake a k alpha vy) md) x y z) 0%nat = lm_tlim ch_minkowski md.
Proof. intros H. cbn [to_flat lm_tlim row4]. unfold Rdiv. generalize (/ m_omega md). intros w. field. lra. Qed.
Print Assumptions C52_snake_time.

(** with a shift, the wave at the final time is not the initial data: the zones have moved
    along *)
Theorem C52_shift_period_refuted :
  exists vx, 0 < vx < 1 /\
    let ch := ch_boosted vx 0 0 in
    let k := row4 (- m_omega sound_2d) (2 * PI) (2 * PI) 0 in
    let X := row4 (lm_tlim ch sound_2d) 0 0 0 in
    ~ same_gas (written (4 / 3) (/ 10) sound_2d 0 0)
               (plane_wave (at_rest sound_2d) (direction sound_2d) k 0 (/ 10) (to_flat ch X)).
Proof.
  assert (Ho : 0 < m_omega sound_2d) by (cbv [m_omega sound_2d dec]; simpl pow; lra).
  assert (Hl : m_omega sound_2d < 4) by (cbv [m_omega sound_2d dec]; simpl pow; lra).
  pose proof PI_bounds as B.
  exists (m_omega sound_2d / (4 * PI)). split.
  { split; [apply Rdiv_lt_0_compat; lra|]. apply Rmult_lt_reg_r with (4 * PI); [lra|].
    unfold Rdiv. rewrite Rmult_assoc, Rinv_l by lra. lra. }
  intros ch k X (E & _). revert E.
  unfold written, lm_flat, plane_wave, along, at_rest, direction. cbn [g_rho l_rho].
  replace (kk * 0 + kk * 0) with 0 by ring. rewrite cos_0.
  assert (P : phase k 0 (to_flat ch X) = - PI).
  { unfold phase, sum4, k, X, ch. cbn [to_flat row4 lm_tlim]. field. split; lra. }
  rewrite P, cos_neg, cos_PI. cbv [m_drho sound_2d dec]. simpl pow. lra.
Qed.
Print Assumptions C52_shift_period_refuted.

(** inchworm coordinates: the Jacobian used is not that of the chart, so the Lorentz factor
    of the data is not that of the wave *)
Theorem C52_inchworm_refuted :
  exists a k, let ch := ch_inchworm a k in
    let X := row4 0 0 0 0 in
    let p := lm_cell ch (ContravariantShift (chart_system ch) X) (4 / 3) (/ 10) sound_1d 0 0 in
    let q := written (4 / 3) (/ 10) sound_1d (to_flat ch X 1%nat) (to_flat ch X 2%nat) in
    sqrt (1 + dot3 (Metric (chart_system ch) X) (l_vp p) (l_vp p)) <> gas_W q.
Proof.
  exists (/ 2), 1. intros ch X p q E.
  apply (f_equal (fun w => w * w)) in E. unfold gas_W in E.
  assert (D : dot3 (Metric (chart_system ch) X) (l_vp p) (l_vp p) = 9 / 16 * (m_du sound_1d 0%nat * / 10) ^ 2).
  { unfold p, lm_cell, to_chart. cbn [l_vp]. unfold dot3, sum3, sum4, flat_ucon, lm_flat, lm_J, lm_alpha, lm_x, lm_y, ch, X.
    cbn [chart_system Inchworm Metric ContravariantShift rows4 row4 rows3 row3 l_vp]. unfold GetDelta, kk.
    cbn [row4].
    replace (1 * 0) with 0 by ring. rewrite sin_0. replace (2 * PI * (0 - / 2 * 0) + 2 * PI * 0) with 0 by ring.
    replace (1 * (0 - / 2 * 0)) with 0 by ring. rewrite !cos_0.
    cbn [m_du sound_1d row3]. field. }
  assert (Q : forall i, g_vp q i = m_du sound_1d i * / 10).
  { intros i. unfold q, written, lm_flat, ch, X. cbn [g_vp l_vp to_flat row4]. unfold kk.
    replace (1 * 0) with 0 by ring. rewrite sin_0. replace (2 * PI * (0 - / 2 * 0) + 2 * PI * 0) with 0 by ring.
    rewrite cos_0. ring. }
  rewrite D, !Q in E.
  rewrite !sqrt_sqrt in E.
  - revert E. cbv [m_du sound_1d row3 dec]. simpl pow. lra.
  - nra.
  - nra.
Qed.
Print Assumptions C52_inchworm_refuted.
