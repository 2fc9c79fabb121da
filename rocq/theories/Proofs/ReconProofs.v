From Coq Require Import Reals ZArith Lra Psatz.
From Flocq Require Import Core.
From Verif.Model Require Import Num Reconstruction.
From Verif.Spec Require Import ReconSpec.
From Verif.Proofs Require Import NumR.
Local Open Scope R_scope.

Ltac nomm t := lazymatch t with
  | context [Rmin _ _] => fail | context [Rmax _ _] => fail | _ => idtac end.
Ltac mm :=
  repeat match goal with
  | |- context [Rmin ?a ?b] => nomm a; nomm b; let H := fresh in destruct (Rle_dec a b) as [H|H];
      [rewrite (Rmin_left a b) by lra|rewrite (Rmin_right a b) by lra]
  | |- context [Rmax ?a ?b] => nomm a; nomm b; let H := fresh in destruct (Rle_dec a b) as [H|H];
      [rewrite (Rmax_right a b) by lra|rewrite (Rmax_left a b) by lra]
  end.

(** ** mc *)
Lemma mc_zero dm dp alpha : dm * dp <= 0 -> 0 <= alpha -> mc dm dp alpha = 0.
Proof.
  intros H Ha. unfold mc. rewrite Rlt_bool_false by lra.
  replace (0 * (1 / 2) * (dm + dp)) with 0 by ring. cbv zeta.
  rewrite !std_min_R, Rabs_R0. unfold copysign. rewrite Rlt_bool_false by lra.
  rewrite Rmin_left; [apply Rabs_R0|].
  apply Rmult_le_pos; [exact Ha|]. apply Rmin_glb; apply Rabs_pos.
Qed.

Lemma mc_pos dm dp alpha : 0 < dm -> 0 < dp -> 0 <= alpha ->
  mc dm dp alpha = Rmin ((dm + dp) / 2) (alpha * Rmin dm dp).
Proof.
  intros H1 H2 Ha. unfold mc. rewrite Rlt_bool_true by nra. cbv zeta.
  rewrite !std_min_R. unfold copysign. rewrite Rlt_bool_false by lra.
  rewrite (Rabs_right dm), (Rabs_right dp) by lra.
  rewrite (Rabs_right (1 * (1 / 2) * (dm + dp))) by lra.
  replace (1 * (1 / 2) * (dm + dp)) with ((dm + dp) / 2) by field.
  apply Rabs_right. apply Rle_ge. apply Rmin_glb; [lra|].
  apply Rmult_le_pos; [exact Ha|]. apply Rmin_glb; lra.
Qed.

Lemma mc_opp dm dp alpha : 0 <= alpha -> mc (- dm) (- dp) alpha = - mc dm dp alpha.
Proof.
  intros Ha. unfold mc.
  replace (- dm * - dp) with (dm * dp) by ring.
  rewrite !Rabs_Ropp. cbv zeta.
  destruct (Rlt_bool_spec 0 (dm * dp)) as [H|H].
  - replace (1 * (1 / 2) * (- dm + - dp)) with (- (1 * (1 / 2) * (dm + dp))) by ring.
    rewrite Rabs_Ropp. unfold copysign.
    set (s := 1 * (1 / 2) * (dm + dp)).
    assert (s <> 0).
    { unfold s. intros E. assert (dm = - dp) by lra. subst dm. nra. }
    destruct (Rlt_bool_spec (- s) 0), (Rlt_bool_spec s 0); lra.
  - replace (0 * (1 / 2) * (- dm + - dp)) with 0 by ring.
    replace (0 * (1 / 2) * (dm + dp)) with 0 by ring.
    rewrite !std_min_R, Rabs_R0. unfold copysign. rewrite Rlt_bool_false by lra.
    rewrite Rmin_left; [rewrite Rabs_R0; lra|].
    apply Rmult_le_pos; [exact Ha|]. apply Rmin_glb; apply Rabs_pos.
Qed.

Lemma mc_sym dm dp alpha : mc dm dp alpha = mc dp dm alpha.
Proof.
  unfold mc. rewrite (Rmult_comm dm dp), (Rplus_comm dm dp), !std_min_R.
  rewrite (Rmin_comm (Rabs dm) (Rabs dp)). reflexivity.
Qed.

Lemma sign_cases dm dp :
  dm * dp <= 0 \/ (0 < dm /\ 0 < dp) \/ (dm < 0 /\ dp < 0).
Proof.
  destruct (Rtotal_order dm 0) as [H1|[H1|H1]], (Rtotal_order dp 0) as [H2|[H2|H2]];
    subst; try (left; lra); try (left; nra); auto.
Qed.

Lemma mc_neg dm dp alpha : dm < 0 -> dp < 0 -> 0 <= alpha ->
  mc dm dp alpha = - Rmin ((- dm - dp) / 2) (alpha * Rmin (- dm) (- dp)).
Proof.
  intros H1 H2 Ha.
  replace dm with (- - dm) at 1 by ring. replace dp with (- - dp) at 1 by ring.
  rewrite mc_opp, mc_pos by lra. reflexivity.
Qed.

Lemma pos_mc_bound dm dp alpha : 0 < dm -> 0 < dp -> 0 <= alpha <= 2 ->
  0 <= Rmin ((dm + dp) / 2) (alpha * Rmin dm dp) /\
  Rmin ((dm + dp) / 2) (alpha * Rmin dm dp) <= 2 * dm /\
  Rmin ((dm + dp) / 2) (alpha * Rmin dm dp) <= 2 * dp.
Proof.
  intros H1 H2 Ha.
  assert (0 < Rmin dm dp) by (apply Rmin_glb_lt; assumption).
  pose proof (Rmin_l dm dp). pose proof (Rmin_r dm dp).
  set (m := Rmin dm dp) in *.
  pose proof (Rmin_r ((dm + dp) / 2) (alpha * m)).
  assert (alpha * m <= 2 * m) by nra.
  split; [apply Rmin_glb; nra|]. lra.
Qed.

(** |mc/2| never exceeds either one-sided difference when alpha <= 2 *)
Lemma mc_bound dm dp alpha : 0 <= alpha <= 2 ->
  between 0 dm (1 / 2 * mc dm dp alpha) /\ between 0 dp (1 / 2 * mc dm dp alpha).
Proof.
  intros Ha. unfold between.
  destruct (sign_cases dm dp) as [H|[[H1 H2]|[H1 H2]]].
  - rewrite mc_zero by lra. mm; lra.
  - rewrite mc_pos by lra.
    destruct (pos_mc_bound dm dp alpha H1 H2 Ha) as (? & ? & ?).
    rewrite (Rmin_left 0 dm), (Rmax_right 0 dm), (Rmin_left 0 dp), (Rmax_right 0 dp) by lra. lra.
  - rewrite mc_neg by lra.
    destruct (pos_mc_bound (- dm) (- dp) alpha) as (A & B & C); try lra.
    replace ((- dm + - dp) / 2) with ((- dm - dp) / 2) in * by lra.
    rewrite (Rmin_right 0 dm), (Rmax_left 0 dm), (Rmin_right 0 dp), (Rmax_left 0 dp) by lra. lra.
Qed.

Lemma mc_linear d alpha : 1 <= alpha -> mc d d alpha = d.
Proof.
  intros Ha. destruct (Rtotal_order d 0) as [H|[H|H]].
  - rewrite mc_neg by lra. rewrite (Rmin_left (- d) (- d)) by lra.
    rewrite Rmin_left by nra. field.
  - subst. rewrite mc_zero by lra. reflexivity.
  - rewrite mc_pos by lra. rewrite (Rmin_left d d) by lra.
    rewrite Rmin_left by nra. field.
Qed.

(** ** piecewise linear *)
Lemma plm_between qm q0 qp ql qr : PiecewiseLinear qm q0 qp = (ql, qr) ->
  between q0 qp ql /\ between qm q0 qr.
Proof.
  unfold PiecewiseLinear. cbv zeta. intros E; injection E as <- <-.
  destruct (mc_bound (q0 - qm) (qp - q0) (3 / 2)) as [H1 H2]; [lra|].
  revert H1 H2. unfold between. set (m := 1 / 2 * mc _ _ _). clearbody m.
  mm; intros; lra.
Qed.

Lemma plm_extremum qm q0 qp : (q0 - qm) * (qp - q0) <= 0 -> PiecewiseLinear qm q0 qp = (q0, q0).
Proof.
  intros H. unfold PiecewiseLinear. rewrite mc_zero by lra. f_equal; lra.
Qed.

Lemma plm_mean qm q0 qp ql qr : PiecewiseLinear qm q0 qp = (ql, qr) -> (ql + qr) / 2 = q0.
Proof. unfold PiecewiseLinear. intros E; injection E as <- <-. lra. Qed.

Lemma plm_linear q0 d : PiecewiseLinear (q0 - d) q0 (q0 + d) = (q0 + d / 2, q0 - d / 2).
Proof.
  unfold PiecewiseLinear.
  replace (q0 - (q0 - d)) with d by ring. replace (q0 + d - q0) with d by ring.
  rewrite mc_linear by lra. f_equal; lra.
Qed.

Lemma plm_mirror qm q0 qp ql qr :
  PiecewiseLinear qm q0 qp = (ql, qr) -> PiecewiseLinear qp q0 qm = (qr, ql).
Proof.
  unfold PiecewiseLinear. cbv zeta. intros E; injection E as <- <-.
  replace (q0 - qp) with (- (qp - q0)) by ring.
  replace (qm - q0) with (- (q0 - qm)) by ring.
  rewrite mc_opp, mc_sym by lra. f_equal; lra.
Qed.

(** second-order accurate slope where the profile is smooth enough *)
Lemma plm_smooth qm q0 qp :
  0 < (q0 - qm) -> 0 < (qp - q0) -> qp - q0 <= 2 * (q0 - qm) -> q0 - qm <= 2 * (qp - q0) ->
  PiecewiseLinear qm q0 qp = (q0 + (qp - qm) / 4, q0 - (qp - qm) / 4).
Proof.
  intros H1 H2 H3 H4. unfold PiecewiseLinear. rewrite mc_pos by lra.
  replace (Rmin _ _) with ((qp - qm) / 2); [f_equal; lra|].
  rewrite Rmin_left; [field|]. mm; lra.
Qed.

(** ** scalar limiters *)
Lemma Rabs_pos_bool x : x <> 0 -> Rlt_bool 0 (Rabs x) = true.
Proof. intros H. apply Rlt_bool_true. apply Rabs_pos_lt. exact H. Qed.

Lemma koren_tvd dm dp : dp <> 0 ->
  (dm / dp <= 0 -> koren dm dp = 0) /\
  (0 <= dm / dp -> 0 <= koren dm dp <= Rmin (2 * (dm / dp)) 2).
Proof.
  intros H. unfold koren. rewrite Rabs_pos_bool by exact H. cbv zeta.
  rewrite !std_min_R, std_max_R. set (r := dm / dp). clearbody r.
  split; intros; mm; lra.
Qed.
Lemma mc_lim_tvd dm dp : dp <> 0 ->
  (dm / dp <= 0 -> mc_lim dm dp = 0) /\
  (0 <= dm / dp -> 0 <= mc_lim dm dp <= Rmin (2 * (dm / dp)) 2).
Proof.
  intros H. unfold mc_lim. rewrite Rabs_pos_bool by exact H. cbv zeta.
  rewrite !std_min_R, std_max_R. set (r := dm / dp). clearbody r.
  split; intros; mm; lra.
Qed.
Lemma minmod_tvd dm dp : dp <> 0 ->
  (dm / dp <= 0 -> minmod dm dp = 0) /\
  (0 <= dm / dp -> 0 <= minmod dm dp <= Rmin (3 / 2 * (dm / dp)) (3 / 2)).
Proof.
  intros H. unfold minmod. rewrite Rabs_pos_bool by exact H. cbv zeta.
  rewrite !std_min_R, std_max_R. set (r := dm / dp). clearbody r.
  split; intros; mm; lra.
Qed.
Lemma superbee_tvd dm dp : dp <> 0 ->
  (dm / dp <= 0 -> superbee dm dp = 0) /\
  (0 <= dm / dp -> Rmin (dm / dp) 1 <= superbee dm dp <= Rmin (2 * (dm / dp)) 2).
Proof.
  intros H. unfold superbee. rewrite Rabs_pos_bool by exact H. cbv zeta.
  rewrite !std_min_R, !std_max_R. set (r := dm / dp). clearbody r.
  split; intros; mm; lra.
Qed.
Lemma limiters_unit d : d <> 0 ->
  koren d d = 1 /\ mc_lim d d = 1 /\ minmod d d = 1 /\ superbee d d = 1 /\
  barth_jespersen d d = 1.
Proof.
  intros H. unfold koren, mc_lim, minmod, superbee, barth_jespersen.
  rewrite Rabs_pos_bool by exact H. cbv zeta.
  rewrite !std_min_R, !std_max_R.
  replace (d / d) with 1 by (field; exact H).
  repeat split; mm; lra.
Qed.

Lemma phifunc_bound mind maxd gx gy dx dy :
  mind <= 0 <= maxd ->
  0 <= phifunc mind maxd gx gy dx dy <= 1 /\
  mind <= phifunc mind maxd gx gy dx dy * (gx * dx + gy * dy) <= maxd.
Proof.
  intros H. unfold phifunc. cbv zeta. set (d := gx * dx + gy * dy). clearbody d.
  destruct (Rlt_bool_spec 0 d) as [Hp|Hp]; [|destruct (Rlt_bool_spec d 0) as [Hn|Hn]].
  - rewrite std_min_R.
    assert (0 <= maxd / d) by (apply Rmult_le_pos; [lra|left; apply Rinv_0_lt_compat; lra]).
    assert (maxd / d * d = maxd) by (field; lra).
    mm; split; try nra.
  - rewrite std_min_R.
    assert (Hi : / d < 0) by (apply Rinv_lt_0_compat; lra).
    assert (0 <= mind / d) by (unfold Rdiv; nra).
    assert (mind / d * d = mind) by (field; lra).
    mm; split; try nra.
  - assert (d = 0) by lra. subst. lra.
Qed.

(** ** WENO *)
Lemma weno_eps_pos : 0 < weno_eps < / 10 ^ 10.
Proof.
  unfold weno_eps. split.
  - apply Rinv_0_lt_compat. apply pow_lt. lra.
  - apply Rinv_lt_contravar; [apply Rmult_lt_0_compat; apply pow_lt; lra|].
    apply Rlt_pow; [lra|]. repeat constructor.
Qed.

Lemma weno_beta_pos a b : 0 < weno_beta a b.
Proof. unfold weno_beta. pose proof weno_eps_pos. nra. Qed.

Lemma weno_betas_pos q0 q1 q2 q3 q4 b0 b1 b2 :
  weno_betas q0 q1 q2 q3 q4 = (b0, b1, b2) -> 1 <= b0 /\ 1 <= b1 /\ 1 <= b2.
Proof.
  unfold weno_betas. cbv zeta. intros E; injection E as <- <- <-.
  set (x := weno_beta (q0 - 2 * q1 + q2) _). set (y := weno_beta (q1 - 2 * q2 + q3) _).
  set (z := weno_beta (q2 - 2 * q3 + q4) _).
  assert (0 < x) by apply weno_beta_pos. assert (0 < y) by apply weno_beta_pos.
  assert (0 < z) by apply weno_beta_pos.
  assert (Ht : 0 <= Rabs (z - x)) by apply Rabs_pos.
  set (t := Rabs (z - x)) in *. clearbody t x y z.
  assert (D : forall u, 0 < u -> 1 <= (u + t) / u).
  { intros u Hu. apply Rmult_le_reg_r with u; [exact Hu|].
    replace ((u + t) / u * u) with (u + t) by (field; lra). lra. }
  repeat split; apply D; assumption.
Qed.

Lemma weno_face_convex w0 w1 w2 p0 p1 p2 p3 p4 :
  0 < w0 -> 0 < w1 -> 0 < w2 ->
  exists a0 a1 a2, 0 < a0 /\ 0 < a1 /\ 0 < a2 /\ a0 + a1 + a2 = 1 /\
  weno_face w0 w1 w2 p0 p1 p2 p3 p4 =
   a0 * (1 / 3 * p0 + (- 7 / 6) * p1 + 11 / 6 * p2)
   + a1 * ((- 1 / 6) * p1 + 5 / 6 * p2 + 1 / 3 * p3)
   + a2 * (1 / 3 * p2 + 5 / 6 * p3 + (- 1 / 6) * p4).
Proof.
  intros H0 H1 H2.
  assert (Hs : 0 < / (w0 + w1 + w2)) by (apply Rinv_0_lt_compat; lra).
  exists (w0 / (w0 + w1 + w2)), (w1 / (w0 + w1 + w2)), (w2 / (w0 + w1 + w2)).
  repeat split; try (apply Rmult_lt_0_compat; assumption).
  - field. lra.
  - unfold weno_face. field. lra.
Qed.

Lemma weno_alpha_bound w0 w1 w2 : 0 < w0 -> 0 < w1 -> 0 < w2 ->
  0 < weno_alpha w0 w1 w2 <= 1125 / 1000 + weno_eps.
Proof.
  intros H0 H1 H2. unfold weno_alpha. cbv zeta. pose proof weno_eps_pos as He.
  set (D := 3 / 10 * w0 * w1 + 6 / 10 * w0 * w2 + 1 / 10 * w1 * w2).
  assert (P01 : 0 < w0 * w1) by (apply Rmult_lt_0_compat; assumption).
  assert (P02 : 0 < w0 * w2) by (apply Rmult_lt_0_compat; assumption).
  assert (P12 : 0 < w1 * w2) by (apply Rmult_lt_0_compat; assumption).
  assert (HD : 0 < D) by (unfold D; lra).
  assert (Hs : 0 < w0 + w1 + w2) by lra.
  assert (P : 0 < w0 * w1 * w2) by (apply Rmult_lt_0_compat; assumption).
  replace (3 * (1 / (w0 + w1 + w2)) * w0 * w1 * w2 / D)
    with (3 * (w0 * w1 * w2) / ((w0 + w1 + w2) * D)) by (field; lra).
  assert (HSD : 0 < (w0 + w1 + w2) * D) by (apply Rmult_lt_0_compat; assumption).
  split.
  - assert (0 < 3 * (w0 * w1 * w2) / ((w0 + w1 + w2) * D)) by (apply Rdiv_lt_0_compat; lra). lra.
  - apply Rplus_le_compat_r.
    apply Rmult_le_reg_r with ((w0 + w1 + w2) * D); [exact HSD|].
    replace (3 * (w0 * w1 * w2) / ((w0 + w1 + w2) * D) * ((w0 + w1 + w2) * D))
      with (3 * (w0 * w1 * w2)) by (field; lra).
    unfold D.
    assert (S1 : 0 <= w1 * (17 / 10 * w0 - w2) ^ 2)
      by (apply Rmult_le_pos; [lra|apply pow2_ge_0]).
    assert (S2 : 0 <= w2 * (49 / 20 * w0 - w1) ^ 2)
      by (apply Rmult_le_pos; [lra|apply pow2_ge_0]).
    assert (S3 : 0 <= w0 * (1414 / 1000 * w2 - w1) ^ 2)
      by (apply Rmult_le_pos; [lra|apply pow2_ge_0]).
    nra.
Qed.

Lemma harmonic_bound a b M : 0 < a <= M -> 0 < b <= M -> 0 < 2 * a * b / (a + b) <= M.
Proof.
  intros Ha Hb. split.
  - apply Rdiv_lt_0_compat; [|lra]. apply Rmult_lt_0_compat; lra.
  - apply Rmult_le_reg_r with (a + b); [lra|].
    replace (2 * a * b / (a + b) * (a + b)) with (2 * a * b) by (field; lra).
    assert (a * b <= M * b) by (apply Rmult_le_compat_r; lra).
    assert (a * b <= M * a) by (rewrite Rmult_comm; apply Rmult_le_compat_r; lra). lra.
Qed.

Lemma weno_alpha_lin_bound b0 b1 b2 : 1 <= b0 -> 1 <= b1 -> 1 <= b2 ->
  0 < weno_alpha_lin b0 b1 b2 <= 1126 / 1000.
Proof.
  intros H0 H1 H2. pose proof weno_eps_pos as He. unfold weno_alpha_lin. cbv zeta.
  assert (E : weno_eps < 1 / 1000).
  { eapply Rlt_le_trans; [apply He|]. simpl. lra. }
  apply harmonic_bound;
   match goal with |- 0 < weno_alpha ?a ?b ?c <= _ =>
     pose proof (weno_alpha_bound a b c ltac:(lra) ltac:(lra) ltac:(lra)) end; lra.
Qed.

Lemma parabola_upper u0 u1 u2 x m :
  parabola_value m u0 u1 u2 x
    (u0 + (u1 - u0) * (x - m)
     + (u2 - 2 * u1 + u0) / 2 * ((x - m) ^ 2 - (x - m) - 1 / 12)).
Proof.
  set (c2 := (u2 - 2 * u1 + u0) / 2).
  set (c1 := (u1 - u0) - c2 * (2 * m + 1)).
  set (c0 := u0 - c1 * m - c2 * (m ^ 2 + 1 / 12)).
  exists c0, c1, c2. unfold quad_avg, quad, c0, c1, c2. repeat split; field.
Qed.

(** the parabola is unique, so parabola_value is functional *)
Lemma parabola_value_unique m u0 u1 u2 x v v' :
  parabola_value m u0 u1 u2 x v -> parabola_value m u0 u1 u2 x v' -> v = v'.
Proof.
  intros (a0 & a1 & a2 & A0 & A1 & A2 & ->) (b0 & b1 & b2 & B0 & B1 & B2 & ->).
  unfold quad_avg in *. unfold quad.
  assert (E2 : a2 = b2) by nra. subst b2.
  assert (E1 : a1 = b1) by nra. subst b1.
  assert (E0 : a0 = b0) by lra. subst. reflexivity.
Qed.

Lemma weno_blend q0 q1 q2 q3 q4 ql qr : WENO5Z q0 q1 q2 q3 q4 = (ql, qr) ->
  exists alpha, 0 < alpha <= 1126 / 1000 /\
  (exists a0 a1 a2 P0 P1 P2, 0 < a0 /\ 0 < a1 /\ 0 < a2 /\ a0 + a1 + a2 = 1 /\
     parabola_value (-2) q0 q1 q2 (1 / 2) P0 /\
     parabola_value (-1) q1 q2 q3 (1 / 2) P1 /\
     parabola_value 0 q2 q3 q4 (1 / 2) P2 /\
     ql = alpha * (a0 * P0 + a1 * P1 + a2 * P2)
          + (1 - alpha) * (q2 + 1 / 2 * mc (q2 - q1) (q3 - q2) 2)) /\
  (exists a0 a1 a2 P0 P1 P2, 0 < a0 /\ 0 < a1 /\ 0 < a2 /\ a0 + a1 + a2 = 1 /\
     parabola_value (-2) q0 q1 q2 (- 1 / 2) P0 /\
     parabola_value (-1) q1 q2 q3 (- 1 / 2) P1 /\
     parabola_value 0 q2 q3 q4 (- 1 / 2) P2 /\
     qr = alpha * (a0 * P0 + a1 * P1 + a2 * P2)
          + (1 - alpha) * (q2 - 1 / 2 * mc (q2 - q1) (q3 - q2) 2)).
Proof.
  unfold WENO5Z. destruct (weno_betas q0 q1 q2 q3 q4) as [[b0 b1] b2] eqn:Eb.
  destruct (weno_betas_pos _ _ _ _ _ _ _ _ Eb) as (H0 & H1 & H2).
  cbv zeta. intros E; injection E as <- <-. pose proof weno_eps_pos as He.
  exists (weno_alpha_lin b0 b1 b2). split; [apply weno_alpha_lin_bound; assumption|]. split.
  - destruct (weno_face_convex (1 / 10 * b0 + weno_eps) (6 / 10 * b1 + weno_eps)
        (3 / 10 * b2 + weno_eps) q0 q1 q2 q3 q4) as (a0 & a1 & a2 & A0 & A1 & A2 & S & ->); try lra.
    exists a0, a1, a2, (1 / 3 * q0 + (- 7 / 6) * q1 + 11 / 6 * q2),
      ((- 1 / 6) * q1 + 5 / 6 * q2 + 1 / 3 * q3), (1 / 3 * q2 + 5 / 6 * q3 + (- 1 / 6) * q4).
    repeat split; try assumption.
    + eassert (P := parabola_upper q0 q1 q2 (1/2) (-2)).
      match type of P with parabola_value _ _ _ _ _ ?v =>
        replace v with (1 / 3 * q0 + (- 7 / 6) * q1 + 11 / 6 * q2) in P by field end. exact P.
    + eassert (P := parabola_upper q1 q2 q3 (1/2) (-1)).
      match type of P with parabola_value _ _ _ _ _ ?v =>
        replace v with ((- 1 / 6) * q1 + 5 / 6 * q2 + 1 / 3 * q3) in P by field end. exact P.
    + eassert (P := parabola_upper q2 q3 q4 (1/2) 0).
      match type of P with parabola_value _ _ _ _ _ ?v =>
        replace v with (1 / 3 * q2 + 5 / 6 * q3 + (- 1 / 6) * q4) in P by field end. exact P.
  - destruct (weno_face_convex (1 / 10 * b2 + weno_eps) (6 / 10 * b1 + weno_eps)
        (3 / 10 * b0 + weno_eps) q4 q3 q2 q1 q0) as (a0 & a1 & a2 & A0 & A1 & A2 & S & ->); try lra.
    exists a2, a1, a0, (1 / 3 * q2 + 5 / 6 * q1 + (- 1 / 6) * q0),
      ((- 1 / 6) * q3 + 5 / 6 * q2 + 1 / 3 * q1), (1 / 3 * q4 + (- 7 / 6) * q3 + 11 / 6 * q2).
    repeat split; try assumption; try lra.
    + eassert (P := parabola_upper q0 q1 q2 (-1/2) (-2)).
      match type of P with parabola_value _ _ _ _ _ ?v =>
        replace v with (1 / 3 * q2 + 5 / 6 * q1 + (- 1 / 6) * q0) in P by field end. exact P.
    + eassert (P := parabola_upper q1 q2 q3 (-1/2) (-1)).
      match type of P with parabola_value _ _ _ _ _ ?v =>
        replace v with ((- 1 / 6) * q3 + 5 / 6 * q2 + 1 / 3 * q1) in P by field end. exact P.
    + eassert (P := parabola_upper q2 q3 q4 (-1/2) 0).
      match type of P with parabola_value _ _ _ _ _ ?v =>
        replace v with (1 / 3 * q4 + (- 7 / 6) * q3 + 11 / 6 * q2) in P by field end. exact P.
Qed.

Lemma weno_linear c d :
  WENO5Z (c - 2 * d) (c - d) c (c + d) (c + 2 * d) = (c + d / 2, c - d / 2).
Proof.
  destruct (WENO5Z _ _ _ _ _) as [ql qr] eqn:E.
  pose proof weno_blend _ _ _ _ _ _ _ E as (al & _ & L & Rr).
  assert (M : mc (c - (c - d)) (c + d - c) 2 = d).
  { replace (c - (c - d)) with d by ring. replace (c + d - c) with d by ring.
    apply mc_linear; lra. }
  rewrite M in *.
  assert (U : forall m u0 u1 u2 x v a b, u0 = a + b * m -> u1 = a + b * (m + 1) ->
     u2 = a + b * (m + 2) -> parabola_value m u0 u1 u2 x v -> v = a + b * x).
  { intros m u0 u1 u2 x v a b E0 E1 E2 P.
    eapply parabola_value_unique; [exact P|]. subst.
    exists a, b, 0. unfold quad_avg, quad. repeat split; ring. }
  destruct L as (a0 & a1 & a2 & P0 & P1 & P2 & A0 & A1 & A2 & S & Q0 & Q1 & Q2 & ->).
  destruct Rr as (e0 & e1 & e2 & P0' & P1' & P2' & A0' & A1' & A2' & S' & Q0' & Q1' & Q2' & ->).
  apply (U _ _ _ _ _ _ c d) in Q0, Q1, Q2, Q0', Q1', Q2'; try lra. subst.
  replace a2 with (1 - a0 - a1) by lra. replace e2 with (1 - e0 - e1) by lra.
  f_equal; field.
Qed.

Lemma weno_betas_mirror q0 q1 q2 q3 q4 b0 b1 b2 :
  weno_betas q0 q1 q2 q3 q4 = (b0, b1, b2) -> weno_betas q4 q3 q2 q1 q0 = (b2, b1, b0).
Proof.
  unfold weno_betas. cbv zeta.
  replace (q4 - 2 * q3 + q2) with (q2 - 2 * q3 + q4) by ring.
  replace (q2 - 2 * q1 + q0) with (q0 - 2 * q1 + q2) by ring.
  replace (weno_beta (q3 - 2 * q2 + q1) (q1 - q3)) with (weno_beta (q1 - 2 * q2 + q3) (q3 - q1))
    by (unfold weno_beta; ring).
  intros E; injection E as <- <- <-.
  rewrite (Rabs_minus_sym (weno_beta (q0 - 2 * q1 + q2) _)). reflexivity.
Qed.

Lemma weno_mirror q0 q1 q2 q3 q4 ql qr :
  WENO5Z q0 q1 q2 q3 q4 = (ql, qr) -> WENO5Z q4 q3 q2 q1 q0 = (qr, ql).
Proof.
  unfold WENO5Z. destruct (weno_betas q0 q1 q2 q3 q4) as [[b0 b1] b2] eqn:Eb.
  pose proof weno_betas_pos _ _ _ _ _ _ _ _ Eb as (H0 & H1 & H2).
  apply weno_betas_mirror in Eb. rewrite Eb. cbv zeta.
  replace (q2 - q3) with (- (q3 - q2)) by ring.
  replace (q1 - q2) with (- (q2 - q1)) by ring.
  rewrite mc_opp, (mc_sym (q3 - q2)) by lra.
  replace (weno_alpha_lin b2 b1 b0) with (weno_alpha_lin b0 b1 b2)
    by (unfold weno_alpha_lin; cbv zeta; rewrite (Rplus_comm (weno_alpha (1 / 10 * b2 + _) _ _));
        f_equal; ring).
  intros E; injection E as <- <-. f_equal; ring.
Qed.

(** ** MP5 *)
Lemma MINMOD_spec a b :
  (0 < a * b /\ (MINMOD a b = a \/ MINMOD a b = b) /\ Rabs (MINMOD a b) = Rmin (Rabs a) (Rabs b))
  \/ (a * b <= 0 /\ MINMOD a b = 0).
Proof.
  unfold MINMOD. destruct (Rlt_bool_spec 0 (a * b)); [left|right; split; [assumption|reflexivity]].
  destruct (Rlt_bool_spec (Rabs a) (Rabs b)).
  - rewrite Rmin_left by lra. auto.
  - rewrite Rmin_right by lra. auto.
Qed.

Lemma MINMOD_pos a b : 0 < a -> 0 < b -> MINMOD a b = Rmin a b.
Proof.
  intros. unfold MINMOD. rewrite Rlt_bool_true by nra. rewrite !Rabs_right by lra.
  destruct (Rlt_bool_spec a b); mm; lra.
Qed.
Lemma MINMOD_opp a b : MINMOD (- a) (- b) = - MINMOD a b.
Proof.
  unfold MINMOD. replace (- a * - b) with (a * b) by ring. rewrite !Rabs_Ropp.
  destruct (Rlt_bool 0 (a * b)), (Rlt_bool (Rabs a) (Rabs b)); lra.
Qed.
Lemma MINMOD_neg a b : a < 0 -> b < 0 -> MINMOD a b = Rmax a b.
Proof.
  intros. replace a with (- - a) at 1 by ring. replace b with (- - b) at 1 by ring.
  rewrite MINMOD_opp, MINMOD_pos by lra. mm; lra.
Qed.
Lemma MINMOD_0 a b : a * b <= 0 -> MINMOD a b = 0.
Proof. intros. unfold MINMOD. rewrite Rlt_bool_false by lra. reflexivity. Qed.

(** the classical characterisation: minmod lies between 0 and each argument *)
Lemma MINMOD_between a b : between 0 a (MINMOD a b) /\ between 0 b (MINMOD a b).
Proof.
  unfold between. destruct (sign_cases a b) as [H|[[H1 H2]|[H1 H2]]].
  - rewrite MINMOD_0 by exact H. mm; lra.
  - rewrite MINMOD_pos by assumption. mm; lra.
  - rewrite MINMOD_neg by assumption. mm; lra.
Qed.

Lemma Median_clamp f lo hi : lo <= hi -> Median f lo hi = Rmax lo (Rmin f hi).
Proof.
  intros H. unfold Median.
  destruct (Rlt_dec f lo); [|destruct (Rlt_dec hi f)].
  - rewrite MINMOD_pos by lra. mm; lra.
  - rewrite MINMOD_neg by lra. mm; lra.
  - rewrite MINMOD_0 by nra. mm; lra.
Qed.

Lemma mp5_interval_contains a b c d e lo hi :
  mp5_interval a b c d e = (lo, hi) -> lo <= c <= hi.
Proof.
  unfold mp5_interval. cbv zeta. intros E; injection E as <- <-.
  split.
  - apply Rmax_lub; (eapply Rle_trans; [apply Rmin_l|apply Rmin_l]).
  - apply Rmin_glb; (eapply Rle_trans; [|apply Rmax_l]; apply Rmax_l).
Qed.

Lemma mp5_limited a b c d e :
  mp5_subcalc a b c d e = mp5_unlimited a b c d e /\
    (mp5_unlimited a b c d e - c) * (mp5_unlimited a b c d e - mp5_fMP b c d) <= / 10 ^ 12
  \/ exists lo hi, mp5_interval a b c d e = (lo, hi) /\ lo <= c <= hi /\
       lo <= mp5_subcalc a b c d e <= hi /\
       mp5_subcalc a b c d e = Rmax lo (Rmin (mp5_unlimited a b c d e) hi).
Proof.
  unfold mp5_subcalc. cbv zeta.
  destruct (Rle_bool_spec ((mp5_unlimited a b c d e - c) * (mp5_unlimited a b c d e - mp5_fMP b c d))
     (/ 10 ^ 12)); [left; split; [reflexivity|assumption]|right].
  destruct (mp5_interval a b c d e) as [lo hi] eqn:E.
  pose proof mp5_interval_contains _ _ _ _ _ _ _ E.
  exists lo, hi. split; [reflexivity|]. split; [assumption|].
  rewrite Median_clamp by lra. split; [|reflexivity].
  split; [apply Rmax_l|]. apply Rmax_lub; [lra|apply Rmin_r].
Qed.

(** for non-decreasing data the limiting interval is inside [c, d] *)
Lemma mp5_interval_mono a b c d e lo hi :
  a <= b <= c -> c <= d <= e -> mp5_interval a b c d e = (lo, hi) -> c <= lo /\ hi <= d.
Proof.
  intros H1 H2. unfold mp5_interval. cbv zeta. intros E; injection E as <- <-.
  set (d2m := a + c - 2 * b). set (d2 := b + d - 2 * c). set (d2p := c + e - 2 * d).
  set (X := MINMOD (4 * d2 - d2p) (4 * d2p - d2)).
  pose proof (MINMOD_between X (MINMOD d2 d2p)) as [_ B].
  set (M := MINMOD X (MINMOD d2 d2p)) in *.
  assert (BM : - (d - c) <= M <= d - c).
  { revert B. pose proof (MINMOD_between d2 d2p) as [B1 B2]. revert B1 B2. unfold between.
    set (N := MINMOD d2 d2p). intros B1 B2 B.
    assert (- (d - c) <= N <= d - c).
    { revert B1 B2. unfold d2, d2p. mm; intros; lra. }
    revert B. mm; intros; lra. }
  clearbody M. split.
  - eapply Rle_trans; [|apply Rmax_l]. repeat apply Rmin_glb; lra.
  - eapply Rle_trans; [apply Rmin_l|]. repeat apply Rmax_lub; lra.
Qed.

Lemma mp5_mono a b c d e : a <= b <= c -> c <= d <= e ->
  c - / 10 ^ 6 <= mp5_subcalc a b c d e <= d + / 10 ^ 6.
Proof.
  intros H1 H2.
  assert (He : 0 < / 10 ^ 6) by (apply Rinv_0_lt_compat, pow_lt; lra).
  destruct (mp5_limited a b c d e) as [[-> L]|(lo & hi & E & C & I & _)].
  - set (f := mp5_unlimited a b c d e) in *.
    assert (c <= mp5_fMP b c d <= d).
    { unfold mp5_fMP. pose proof (MINMOD_between (d - c) (4 * (c - b))) as [B1 B2].
      revert B1 B2. unfold between. mm; intros; lra. }
    set (g := mp5_fMP b c d) in *. clearbody f g.
    assert (Ee : / 10 ^ 12 = / 10 ^ 6 * / 10 ^ 6) by (simpl; field).
    rewrite Ee in L. set (h := / 10 ^ 6) in *. clearbody h. split.
    + destruct (Rle_dec (c - h) f); [assumption|exfalso].
      assert (h * h < (c - f) * (g - f)); [|lra].
      apply Rlt_le_trans with (h * (g - f)); [apply Rmult_lt_compat_l; lra|].
      apply Rmult_le_compat_r; lra.
    + destruct (Rle_dec f (d + h)); [assumption|exfalso].
      assert (h * h < (f - c) * (f - g)); [|lra].
      apply Rlt_le_trans with (h * (f - g)); [apply Rmult_lt_compat_l; lra|].
      apply Rmult_le_compat_r; lra.
  - pose proof mp5_interval_mono _ _ _ _ _ _ _ H1 H2 E. lra.
Qed.

Lemma mp5_interval_opp a b c d e lo hi :
  mp5_interval a b c d e = (lo, hi) -> mp5_interval (- a) (- b) (- c) (- d) (- e) = (- hi, - lo).
Proof.
  unfold mp5_interval. cbv zeta. intros E; injection E as <- <-.
  replace (- a + - c - 2 * - b) with (- (a + c - 2 * b)) by ring.
  replace (- b + - d - 2 * - c) with (- (b + d - 2 * c)) by ring.
  replace (- c + - e - 2 * - d) with (- (c + e - 2 * d)) by ring.
  set (x := a + c - 2 * b). set (y := b + d - 2 * c). set (z := c + e - 2 * d).
  replace (4 * - y - - z) with (- (4 * y - z)) by ring.
  replace (4 * - z - - y) with (- (4 * z - y)) by ring.
  replace (4 * - x - - y) with (- (4 * x - y)) by ring.
  replace (4 * - y - - x) with (- (4 * y - x)) by ring.
  rewrite !MINMOD_opp.
  set (M1 := MINMOD (MINMOD _ _) (MINMOD y z)). set (M2 := MINMOD (MINMOD _ _) (MINMOD y x)).
  clearbody M1 M2. clear x y z.
  assert (Rmn : forall u v, Rmin (- u) (- v) = - Rmax u v) by (intros; mm; lra).
  assert (Rmx : forall u v, Rmax (- u) (- v) = - Rmin u v) by (intros; mm; lra).
  replace (1 / 2 * (- c + - d) - 1 / 2 * - M1) with (- (1 / 2 * (c + d) - 1 / 2 * M1)) by ring.
  replace (- c + 4 * (- c - - b)) with (- (c + 4 * (c - b))) by ring.
  replace (1 / 2 * (3 * - c - - b) + 4 / 3 * - M2) with (- (1 / 2 * (3 * c - b) + 4 / 3 * M2)) by ring.
  repeat (rewrite Rmn || rewrite Rmx). reflexivity.
Qed.

Lemma mp5_opp a b c d e :
  mp5_subcalc (- a) (- b) (- c) (- d) (- e) = - mp5_subcalc a b c d e.
Proof.
  unfold mp5_subcalc. cbv zeta.
  assert (Ef : mp5_unlimited (- a) (- b) (- c) (- d) (- e) = - mp5_unlimited a b c d e)
    by (unfold mp5_unlimited; field).
  assert (Em : mp5_fMP (- b) (- c) (- d) = - mp5_fMP b c d).
  { unfold mp5_fMP. replace (- d - - c) with (- (d - c)) by ring.
    replace (4 * (- c - - b)) with (- (4 * (c - b))) by ring. rewrite MINMOD_opp. ring. }
  rewrite Ef, Em.
  replace ((- mp5_unlimited a b c d e - - c) * (- mp5_unlimited a b c d e - - mp5_fMP b c d))
    with ((mp5_unlimited a b c d e - c) * (mp5_unlimited a b c d e - mp5_fMP b c d)) by ring.
  destruct (Rle_bool _ _); [reflexivity|].
  destruct (mp5_interval a b c d e) as [lo hi] eqn:E.
  pose proof mp5_interval_contains _ _ _ _ _ _ _ E.
  apply mp5_interval_opp in E. rewrite E. rewrite !Median_clamp by lra. mm; lra.
Qed.

Lemma mp5_linear c d : mp5_subcalc (c - 2 * d) (c - d) c (c + d) (c + 2 * d) = c + d / 2.
Proof.
  unfold mp5_subcalc. cbv zeta.
  assert (Ef : mp5_unlimited (c - 2 * d) (c - d) c (c + d) (c + 2 * d) = c + d / 2)
    by (unfold mp5_unlimited; field).
  rewrite Ef.
  assert (He : 0 < / 10 ^ 12) by (apply Rinv_0_lt_compat, pow_lt; lra).
  assert (Em : mp5_fMP (c - d) c (c + d) = c + d).
  { unfold mp5_fMP. replace (c + d - c) with d by ring. replace (4 * (c - (c - d))) with (4 * d) by ring.
    destruct (Rtotal_order d 0) as [H|[H|H]].
    - rewrite MINMOD_neg by lra. mm; lra.
    - subst. rewrite MINMOD_0 by lra. lra.
    - rewrite MINMOD_pos by lra. mm; lra. }
  rewrite Em. rewrite Rle_bool_true; [reflexivity|].
  replace ((c + d / 2 - c) * (c + d / 2 - (c + d))) with (- (d * d) / 4) by field. nra.
Qed.

Lemma plm_monotone q0 q1 q2 q3 ql1 qr1 ql2 qr2 :
  q0 <= q1 -> q1 <= q2 -> q2 <= q3 ->
  PiecewiseLinear q0 q1 q2 = (ql1, qr1) -> PiecewiseLinear q1 q2 q3 = (ql2, qr2) ->
  qr1 <= q1 <= ql1 /\ ql1 <= q2 /\ q1 <= qr2 /\ qr2 <= q2 <= ql2.
Proof.
  intros H1 H2 H3 E1 E2.
  pose proof (plm_between _ _ _ _ _ E1) as [A1 A2]. pose proof (plm_between _ _ _ _ _ E2) as [B1 B2].
  revert A1 A2 B1 B2. unfold between. mm; intros; lra.
Qed.

Lemma mp5_mono_both a b c d e : a <= b <= c -> c <= d <= e ->
  c - / 10 ^ 6 <= fst (MP5 a b c d e) <= d + / 10 ^ 6 /\
  b - / 10 ^ 6 <= snd (MP5 a b c d e) <= c + / 10 ^ 6.
Proof.
  intros H1 H2. cbn [MP5 fst snd]. split; [apply mp5_mono; assumption|].
  pose proof (mp5_mono (- e) (- d) (- c) (- b) (- a)) as M. rewrite mp5_opp in M. lra.
Qed.

Lemma mp5_linear_both c d :
  MP5 (c - 2 * d) (c - d) c (c + d) (c + 2 * d) = (c + d / 2, c - d / 2).
Proof.
  unfold MP5. rewrite mp5_linear. f_equal.
  pose proof (mp5_linear c (- d)) as H.
  replace (c - 2 * - d) with (c + 2 * d) in H by ring. replace (c - - d) with (c + d) in H by ring.
  replace (c + - d) with (c - d) in H by ring. replace (c + 2 * - d) with (c - 2 * d) in H by ring.
  rewrite H. lra.
Qed.
Lemma mp5_scale_lim s : 0 < s -> / 10 ^ 12 < s * s / 400 -> mp5_subcalc 0 0 0 0 s = 0.
Proof.
  intros Hs H. unfold mp5_subcalc, mp5_unlimited, mp5_fMP. cbv zeta.
  rewrite (MINMOD_0 (0 - 0)) by lra.
  rewrite Rle_bool_false by (replace ((_ - 0) * _) with (s * s / 400) by field; exact H).
  destruct (mp5_interval 0 0 0 0 s) as [lo hi] eqn:E.
  pose proof mp5_interval_contains _ _ _ _ _ _ _ E.
  pose proof (mp5_interval_mono 0 0 0 0 s lo hi ltac:(lra) ltac:(lra) E).
  rewrite Median_clamp by lra. mm; lra.
Qed.
Lemma mp5_step : fst (MP5 0 0 0 0 1) = 0.
Proof. cbn [MP5 fst]. apply mp5_scale_lim; simpl; lra. Qed.
Lemma mp5_scale :
  fst (MP5 0 0 0 0 (/ 100000)) = - / 2000000 /\
  100000 * fst (MP5 0 0 0 0 (/ 100000)) <> fst (MP5 0 0 0 0 (100000 * / 100000)).
Proof.
  assert (A : fst (MP5 0 0 0 0 (/ 100000)) = - / 2000000).
  { cbn [MP5 fst]. unfold mp5_subcalc, mp5_unlimited, mp5_fMP. cbv zeta.
    rewrite (MINMOD_0 (0 - 0)) by lra. rewrite Rle_bool_true by (simpl; lra). lra. }
  split; [exact A|]. rewrite A. replace (100000 * / 100000) with 1 by lra. rewrite mp5_step. lra.
Qed.
Lemma overbee_unit d : d <> 0 -> overbee d d = 2.
Proof.
  intros H. unfold overbee. rewrite Rabs_pos_bool by exact H. rewrite std_min_R, Rmin_left by lra.
  field. apply Rabs_no_R0. exact H.
Qed.
Lemma phifunc_example : phifunc (-1) 1 4 0 1 0 = 1 / 4.
Proof. unfold phifunc. cbv zeta. rewrite Rlt_bool_true by lra. rewrite std_min_R. mm; lra. Qed.
Lemma bj_neg : barth_jespersen (-1) 2 = -4.
Proof.
  unfold barth_jespersen. rewrite Rabs_pos_bool by lra. cbv zeta. rewrite !std_min_R. mm; lra.
Qed.
Lemma overbee_opp : overbee (-1) 1 = 2.
Proof.
  unfold overbee. rewrite Rabs_pos_bool by lra. rewrite std_min_R, Rabs_left, Rabs_R1 by lra. mm; lra.
Qed.
