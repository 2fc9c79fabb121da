(** C05-C08: reconstruction and slope limiters.  Proofs are in Proofs/ReconProofs.v. *)
From Coq Require Import ZArith Reals Lra.
From Flocq Require Import Core.
From Verif.Model Require Import Num Reconstruction.
From Verif.Spec Require Import ReconSpec.
From Verif.Proofs Require Import NumR ReconProofs ReconWitness.
Local Open Scope R_scope.

(** ** C05 *)
Theorem C05_constant : forall q0, PiecewiseConstant q0 = (q0, q0).
Proof. reflexivity. Qed.
Print Assumptions C05_constant.

(** the upper-face state lies between this cell and the next, the lower-face
    state between the previous cell and this one *)
Theorem C05_plm_no_new_extrema : forall qm q0 qp ql qr,
  PiecewiseLinear qm q0 qp = (ql, qr) ->
  between q0 qp ql /\ between qm q0 qr.
Proof. exact plm_between. Qed.
Print Assumptions C05_plm_no_new_extrema.

(** monotone data stay monotone: across every cell the states are ordered like the
    data and both states of the interface 1|2 stay between the two averages *)
Theorem C05_plm_monotone : forall q0 q1 q2 q3 ql1 qr1 ql2 qr2,
  q0 <= q1 -> q1 <= q2 -> q2 <= q3 ->
  PiecewiseLinear q0 q1 q2 = (ql1, qr1) -> PiecewiseLinear q1 q2 q3 = (ql2, qr2) ->
  qr1 <= q1 <= ql1 /\ ql1 <= q2 /\ q1 <= qr2 /\ qr2 <= q2 <= ql2.
Proof. exact plm_monotone. Qed.
Print Assumptions C05_plm_monotone.
Example C05_plm_monotone_nonvacuous :
  PiecewiseLinear 0 1 3 = (1 + 3 / 4, 1 - 3 / 4).
Proof. rewrite plm_smooth by lra. f_equal; lra. Qed.

Theorem C05_plm_extremum : forall qm q0 qp,
  (q0 - qm) * (qp - q0) <= 0 -> PiecewiseLinear qm q0 qp = (q0, q0).
Proof. exact plm_extremum. Qed.
Print Assumptions C05_plm_extremum.

Theorem C05_plm_conserves_mean : forall qm q0 qp ql qr,
  PiecewiseLinear qm q0 qp = (ql, qr) -> (ql + qr) / 2 = q0.
Proof. exact plm_mean. Qed.
Print Assumptions C05_plm_conserves_mean.

Theorem C05_plm_exact_on_linear : forall q0 d,
  PiecewiseLinear (q0 - d) q0 (q0 + d) = (q0 + d / 2, q0 - d / 2).
Proof. exact plm_linear. Qed.
Print Assumptions C05_plm_exact_on_linear.

(** the limiter is inactive (centred slope) while neighbouring slopes differ by
    at most a factor two *)
Theorem C05_plm_unlimited_when_smooth : forall qm q0 qp,
  0 < q0 - qm -> 0 < qp - q0 -> qp - q0 <= 2 * (q0 - qm) -> q0 - qm <= 2 * (qp - q0) ->
  PiecewiseLinear qm q0 qp = (q0 + (qp - qm) / 4, q0 - (qp - qm) / 4).
Proof. exact plm_smooth. Qed.
Print Assumptions C05_plm_unlimited_when_smooth.

Theorem C05_plm_mirror : forall qm q0 qp ql qr,
  PiecewiseLinear qm q0 qp = (ql, qr) -> PiecewiseLinear qp q0 qm = (qr, ql).
Proof. exact plm_mirror. Qed.
Print Assumptions C05_plm_mirror.

(** ** C06 *)
(** each face state is alpha * (positive weights summing to one times the three
    parabola values at the face) + (1 - alpha) * (limited linear value), with
    0 < alpha <= 1.126.  The cell averages q0 .. q4 sit at -2 .. 2. *)
Theorem C06_weno_blend : forall q0 q1 q2 q3 q4 ql qr,
  WENO5Z q0 q1 q2 q3 q4 = (ql, qr) ->
  exists alpha, 0 < alpha <= 1126 / 1000 /\
  (exists a0 a1 a2 P0 P1 P2, 0 < a0 /\ 0 < a1 /\ 0 < a2 /\ a0 + a1 + a2 = 1 /\
     parabola_value (-2) q0 q1 q2 (1 / 2) P0 /\
     parabola_value (-1) q1 q2 q3 (1 / 2) P1 /\
     parabola_value 0 q2 q3 q4 (1 / 2) P2 /\
     ql = alpha * (a0 * P0 + a1 * P1 + a2 * P2)
          + (1 - alpha) * (q2 + 1 / 2 * mc (q2 - q1) (q3 - q2) 2)) /\
  (exists a0 a1 a2 P0 P1 P2, 0 < a0 /\ 0 < a1 /\ 0 < a2 /\ a0 + a1 + a2 = 1 /\
     parabola_value (-2) q0 q1 q2 (- 1 / 2) P0 /\
     parabola_value (-1) q1 q2 q3 (- 1 / 2) P1 /\
     parabola_value 0 q2 q3 q4 (- 1 / 2) P2 /\
     qr = alpha * (a0 * P0 + a1 * P1 + a2 * P2)
          + (1 - alpha) * (q2 - 1 / 2 * mc (q2 - q1) (q3 - q2) 2)).
Proof. exact weno_blend. Qed.
Print Assumptions C06_weno_blend.

(** the spec is meaningful: the parabola through three averages is unique *)
Theorem C06_parabola_unique : forall m u0 u1 u2 x v v',
  parabola_value m u0 u1 u2 x v -> parabola_value m u0 u1 u2 x v' -> v = v'.
Proof. exact parabola_value_unique. Qed.
Print Assumptions C06_parabola_unique.

(** the blending factor is not confined to (0,1]: the blend is not convex *)
Theorem C06_blend_convex_refuted : exists q0 q1 q2 q3 q4 b0 b1 b2,
  weno_betas q0 q1 q2 q3 q4 = (b0, b1, b2) /\ 1 + 5 / 100 < weno_alpha_lin b0 b1 b2.
Proof. exact weno_alpha_above_one. Qed.
Print Assumptions C06_blend_convex_refuted.

(** WENO5Z may overshoot monotone data (as expected of WENO schemes): here the
    two cells next to the face both hold 8 *)
Theorem C06_weno_no_new_extrema_refuted :
  8 + 1 / 10 < fst (WENO5Z 0 0 8 8 16).
Proof. exact weno_overshoot. Qed.
Print Assumptions C06_weno_no_new_extrema_refuted.

Theorem C06_weno_exact_on_linear : forall c d,
  WENO5Z (c - 2 * d) (c - d) c (c + d) (c + 2 * d) = (c + d / 2, c - d / 2).
Proof. exact weno_linear. Qed.
Print Assumptions C06_weno_exact_on_linear.

Theorem C06_weno_exact_on_constant : forall c, WENO5Z c c c c c = (c, c).
Proof.
  intros c. pose proof (weno_linear c 0) as H.
  replace (c - 2 * 0) with c in H by ring. replace (c - 0) with c in H by ring.
  replace (c + 0) with c in H by ring. replace (c + 2 * 0) with c in H by ring.
  rewrite H. f_equal; lra.
Qed.
Print Assumptions C06_weno_exact_on_constant.

Theorem C06_weno_mirror : forall q0 q1 q2 q3 q4 ql qr,
  WENO5Z q0 q1 q2 q3 q4 = (ql, qr) -> WENO5Z q4 q3 q2 q1 q0 = (qr, ql).
Proof. exact weno_mirror. Qed.
Print Assumptions C06_weno_mirror.

(** ** C07 *)
(** either the unlimited fifth-order value, accepted because it is inside the
    interval [q2, fMP] up to the absolute threshold 1e-12 on the product, or that
    value clamped to an interval that contains the cell average *)
Theorem C07_mp5_limited : forall a b c d e,
  let f5 := (2 * a - 13 * b + 47 * c + 27 * d - 3 * e) / 60 in
  let r := fst (MP5 a b c d e) in
  (r = f5 /\ (f5 - c) * (f5 - (c + MINMOD (d - c) (4 * (c - b)))) <= / 10 ^ 12)
  \/ exists lo hi, lo <= c <= hi /\ lo <= r <= hi /\ r = Rmax lo (Rmin f5 hi).
Proof.
  intros a b c d e. cbv zeta. cbn [MP5 fst].
  destruct (mp5_limited a b c d e) as [H|(lo & hi & _ & H)]; [left; exact H|right; eauto].
Qed.
Print Assumptions C07_mp5_limited.

(** monotone data: the face value leaves the range of the two adjacent cells by at
    most 1e-6 (an absolute number, whatever the units of the data) *)
Theorem C07_mp5_monotone : forall a b c d e,
  a <= b <= c -> c <= d <= e ->
  c - / 10 ^ 6 <= fst (MP5 a b c d e) <= d + / 10 ^ 6 /\
  b - / 10 ^ 6 <= snd (MP5 a b c d e) <= c + / 10 ^ 6.
Proof. exact mp5_mono_both. Qed.
Print Assumptions C07_mp5_monotone.
Example C07_mp5_monotone_nonvacuous : fst (MP5 0 0 0 0 1) = 0.
Proof. exact mp5_step. Qed.

Theorem C07_mp5_exact_on_linear : forall c d,
  MP5 (c - 2 * d) (c - d) c (c + d) (c + 2 * d) = (c + d / 2, c - d / 2).
Proof. exact mp5_linear_both. Qed.
Print Assumptions C07_mp5_exact_on_linear.

Theorem C07_mp5_odd : forall a b c d e,
  MP5 (- a) (- b) (- c) (- d) (- e) = (- fst (MP5 a b c d e), - snd (MP5 a b c d e)).
Proof. intros. unfold MP5. rewrite !mp5_opp. reflexivity. Qed.
Print Assumptions C07_mp5_odd.

Theorem C07_mp5_mirror : forall a b c d e,
  MP5 e d c b a = (snd (MP5 a b c d e), fst (MP5 a b c d e)).
Proof. reflexivity. Qed.
Print Assumptions C07_mp5_mirror.

(** the absolute threshold makes the limiter unit dependent, and lets it return a
    negative face value for non-negative monotone data *)
Theorem C07_scale_invariance_refuted :
  fst (MP5 0 0 0 0 (/ 100000)) = - / 2000000 /\
  100000 * fst (MP5 0 0 0 0 (/ 100000)) <> fst (MP5 0 0 0 0 (100000 * / 100000)).
Proof. exact mp5_scale. Qed.
Print Assumptions C07_scale_invariance_refuted.

(** ** C08 *)
(** r = dm/dp is the slope ratio *)
Theorem C08_koren_tvd : forall dm dp, dp <> 0 ->
  (dm / dp <= 0 -> koren dm dp = 0) /\
  (0 <= dm / dp -> 0 <= koren dm dp <= Rmin (2 * (dm / dp)) 2).
Proof. exact koren_tvd. Qed.
Print Assumptions C08_koren_tvd.
Theorem C08_mc_lim_tvd : forall dm dp, dp <> 0 ->
  (dm / dp <= 0 -> mc_lim dm dp = 0) /\
  (0 <= dm / dp -> 0 <= mc_lim dm dp <= Rmin (2 * (dm / dp)) 2).
Proof. exact mc_lim_tvd. Qed.
Print Assumptions C08_mc_lim_tvd.
Theorem C08_minmod_tvd : forall dm dp, dp <> 0 ->
  (dm / dp <= 0 -> minmod dm dp = 0) /\
  (0 <= dm / dp -> 0 <= minmod dm dp <= Rmin (3 / 2 * (dm / dp)) (3 / 2)).
Proof. exact minmod_tvd. Qed.
Print Assumptions C08_minmod_tvd.
Theorem C08_superbee_tvd : forall dm dp, dp <> 0 ->
  (dm / dp <= 0 -> superbee dm dp = 0) /\
  (0 <= dm / dp -> Rmin (dm / dp) 1 <= superbee dm dp <= Rmin (2 * (dm / dp)) 2).
Proof. exact superbee_tvd. Qed.
Print Assumptions C08_superbee_tvd.
Theorem C08_unit_on_equal_slopes : forall d, d <> 0 ->
  koren d d = 1 /\ mc_lim d d = 1 /\ minmod d d = 1 /\ superbee d d = 1 /\
  barth_jespersen d d = 1.
Proof. exact limiters_unit. Qed.
Print Assumptions C08_unit_on_equal_slopes.
(** second-order TVD schemes at r = 1; overbee gives 2 there *)
Theorem C08_overbee_unit_refuted : forall d, d <> 0 -> overbee d d = 2.
Proof. exact overbee_unit. Qed.
Print Assumptions C08_overbee_unit_refuted.

(** the slope actually used by reconstruction: zero for opposite signs, otherwise
    the smallest of the centred slope and alpha times the one-sided slopes, with
    their common sign *)
Theorem C08_mc : forall dm dp alpha, 0 <= alpha ->
  (dm * dp <= 0 -> mc dm dp alpha = 0) /\
  (0 < dm -> 0 < dp -> mc dm dp alpha = Rmin ((dm + dp) / 2) (alpha * Rmin dm dp)) /\
  mc (- dm) (- dp) alpha = - mc dm dp alpha /\
  mc dp dm alpha = mc dm dp alpha.
Proof.
  intros dm dp al H. split; [intros; apply mc_zero; assumption|].
  split; [intros; apply mc_pos; assumption|]. split; [apply mc_opp; exact H|apply mc_sym].
Qed.
Print Assumptions C08_mc.

(** the multidimensional limiter keeps gradient increments within [mind, maxd] *)
Theorem C08_phifunc : forall mind maxd gx gy dx dy, mind <= 0 <= maxd ->
  0 <= phifunc mind maxd gx gy dx dy <= 1 /\
  mind <= phifunc mind maxd gx gy dx dy * (gx * dx + gy * dy) <= maxd.
Proof. exact phifunc_bound. Qed.
Print Assumptions C08_phifunc.
Example C08_phifunc_nonvacuous : phifunc (-1) 1 4 0 1 0 = 1 / 4.
Proof. exact phifunc_example. Qed.

(** two limiters do not vanish for opposite-sign slopes *)
Theorem C08_barth_jespersen_refuted : barth_jespersen (-1) 2 = -4.
Proof. exact bj_neg. Qed.
Print Assumptions C08_barth_jespersen_refuted.
Theorem C08_overbee_refuted : overbee (-1) 1 = 2.
Proof. exact overbee_opp. Qed.
Print Assumptions C08_overbee_refuted.
