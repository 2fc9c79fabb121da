(** Two concrete stencils for WENO5Z; the eps of the code is kept symbolic, only
    0 < eps < 1e-10 is used. *)
From Coq Require Import Reals ZArith Lra Psatz.
From Flocq Require Import Core.
From Verif.Model Require Import Num Reconstruction.
From Verif.Spec Require Import ReconSpec.
From Verif.Proofs Require Import NumR ReconProofs.
Local Open Scope R_scope.

Lemma harmonic_num a b la lb M : 0 < la -> 0 < lb -> la <= a -> lb <= b -> M * (la + lb) < 2 * la * lb ->
  M < 2 * a * b / (a + b).
Proof.
  intros Ha Hb H1 H2 H3.
  assert (K : 2 * la * lb / (la + lb) <= 2 * a * b / (a + b)).
  { apply Rmult_le_reg_r with ((a + b) * (la + lb)); [nra|].
    replace (2 * la * lb / (la + lb) * ((a + b) * (la + lb))) with (2 * la * lb * (a + b)) by (field; lra).
    replace (2 * a * b / (a + b) * ((a + b) * (la + lb))) with (2 * a * b * (la + lb)) by (field; lra).
    assert (0 <= (la * a) * (b - lb)) by (apply Rmult_le_pos; nra).
    assert (0 <= (lb * b) * (a - la)) by (apply Rmult_le_pos; nra). lra. }
  eapply Rlt_le_trans; [|exact K].
  apply Rmult_lt_reg_r with (la + lb); [lra|].
  replace (2 * la * lb / (la + lb) * (la + lb)) with (2 * la * lb) by (field; lra). exact H3.
Qed.

Lemma alpha_num w0 w1 w2 l0 l1 l2 u0 u1 u2 M :
  0 < l0 -> 0 < l1 -> 0 < l2 -> l0 <= w0 <= u0 -> l1 <= w1 <= u1 -> l2 <= w2 <= u2 -> 0 <= M ->
  M * ((u0 + u1 + u2) * (3 / 10 * u0 * u1 + 6 / 10 * u0 * u2 + 1 / 10 * u1 * u2)) <= 3 * (l0 * l1 * l2) ->
  M <= weno_alpha w0 w1 w2.
Proof.
  intros L0 L1 L2 H0 H1 H2 HM H. unfold weno_alpha. cbv zeta. pose proof weno_eps_pos as He.
  set (D := 3 / 10 * w0 * w1 + 6 / 10 * w0 * w2 + 1 / 10 * w1 * w2).
  assert (P01 : 0 < w0 * w1 <= u0 * u1) by (split; [nra|apply Rmult_le_compat; lra]).
  assert (P02 : 0 < w0 * w2 <= u0 * u2) by (split; [nra|apply Rmult_le_compat; lra]).
  assert (P12 : 0 < w1 * w2 <= u1 * u2) by (split; [nra|apply Rmult_le_compat; lra]).
  assert (P : l0 * l1 * l2 <= w0 * w1 * w2).
  { apply Rmult_le_compat; try lra; [apply Rmult_le_pos; lra|]. apply Rmult_le_compat; lra. }
  assert (HD : 0 < D) by (unfold D; lra).
  replace (3 * (1 / (w0 + w1 + w2)) * w0 * w1 * w2 / D)
    with (3 * (w0 * w1 * w2) / ((w0 + w1 + w2) * D)) by (field; lra).
  assert (HSD : 0 < (w0 + w1 + w2) * D) by (apply Rmult_lt_0_compat; lra).
  assert (HB : (w0 + w1 + w2) * D <=
     (u0 + u1 + u2) * (3 / 10 * u0 * u1 + 6 / 10 * u0 * u2 + 1 / 10 * u1 * u2)).
  { apply Rmult_le_compat; try lra. unfold D. lra. }
  assert (M <= 3 * (w0 * w1 * w2) / ((w0 + w1 + w2) * D)); [|lra].
  apply Rmult_le_reg_r with ((w0 + w1 + w2) * D); [exact HSD|].
  replace (3 * (w0 * w1 * w2) / ((w0 + w1 + w2) * D) * ((w0 + w1 + w2) * D))
    with (3 * (w0 * w1 * w2)) by (field; lra).
  assert (M * ((w0 + w1 + w2) * D) <=
    M * ((u0 + u1 + u2) * (3 / 10 * u0 * u1 + 6 / 10 * u0 * u2 + 1 / 10 * u1 * u2)))
    by (apply Rmult_le_compat_l; assumption).
  lra.
Qed.

Lemma beta_num x t lo hi : 0 < x -> lo * (x + / 10 ^ 10) <= x + t -> x + t <= hi * x ->
  0 <= t -> 1 <= lo -> lo <= (x + weno_eps + t) / (x + weno_eps) <= hi.
Proof.
  intros Hx Hlo Hhi Ht H1. pose proof weno_eps_pos as He. set (e := weno_eps) in *. clearbody e.
  set (h := / 10 ^ 10) in *. clearbody h.
  assert (1 <= hi) by nra.
  split; apply Rmult_le_reg_r with (x + e); try lra;
    replace ((x + e + t) / (x + e) * (x + e)) with (x + e + t) by (field; lra); nra.
Qed.
Lemma wA_betas : exists b0 b1 b2, weno_betas 18 5 (-5) 7 19 = (b0, b1, b2) /\
  1756087 / 1000000 <= b0 <= 1756108 / 1000000 /\ 1118010 / 1000000 <= b1 <= 1118031 / 1000000 /\
  1430545 / 1000000 <= b2 <= 1430566 / 1000000.
Proof.
  do 3 eexists. split; [reflexivity|].
  pose proof weno_eps_pos as He. unfold weno_beta. cbv zeta.
  replace (13 / 3 * (18 - 2 * 5 + -5) * (18 - 2 * 5 + -5) + (18 - 4 * 5 + 3 * -5) * (18 - 4 * 5 + 3 * -5) + weno_eps) with (328 + weno_eps) by lra.
  replace (13 / 3 * (5 - 2 * -5 + 7) * (5 - 2 * -5 + 7) + (7 - 5) * (7 - 5) + weno_eps) with (6304 / 3 + weno_eps) by lra.
  replace (13 / 3 * (-5 - 2 * 7 + 19) * (-5 - 2 * 7 + 19) + (19 - 4 * 7 + 3 * -5) * (19 - 4 * 7 + 3 * -5) + weno_eps) with (576 + weno_eps) by lra.
  replace (576 + weno_eps - (328 + weno_eps)) with 248 by lra.
  rewrite Rabs_right by lra.
  split; [|split]; apply beta_num; lra.
Qed.

Lemma wB_betas : exists b0 b1 b2, weno_betas 0 0 8 8 16 = (b0, b1, b2) /\
  1599990 / 1000000 <= b0 <= 1600011 / 1000000 /\ 2499990 / 1000000 <= b1 <= 2500011 / 1000000 /\
  2499990 / 1000000 <= b2 <= 2500011 / 1000000.
Proof.
  do 3 eexists. split; [reflexivity|].
  pose proof weno_eps_pos as He. unfold weno_beta. cbv zeta.
  replace (13 / 3 * (0 - 2 * 0 + 8) * (0 - 2 * 0 + 8) + (0 - 4 * 0 + 3 * 8) * (0 - 4 * 0 + 3 * 8) + weno_eps) with (2560 / 3 + weno_eps) by lra.
  replace (13 / 3 * (0 - 2 * 8 + 8) * (0 - 2 * 8 + 8) + (8 - 0) * (8 - 0) + weno_eps) with (1024 / 3 + weno_eps) by lra.
  replace (13 / 3 * (8 - 2 * 8 + 16) * (8 - 2 * 8 + 16) + (16 - 4 * 8 + 3 * 8) * (16 - 4 * 8 + 3 * 8) + weno_eps) with (1024 / 3 + weno_eps) by lra.
  replace (1024 / 3 + weno_eps - (2560 / 3 + weno_eps)) with (-512) by lra.
  rewrite Rabs_left by lra.
  split; [|split]; apply beta_num; lra.
Qed.

Lemma weno_alpha_above_one : exists q0 q1 q2 q3 q4 b0 b1 b2,
  weno_betas q0 q1 q2 q3 q4 = (b0, b1, b2) /\ 1 + 5 / 100 < weno_alpha_lin b0 b1 b2.
Proof.
  destruct wA_betas as (b0 & b1 & b2 & E & H0 & H1 & H2).
  exists 18, 5, (-5), 7, 19, b0, b1, b2. split; [exact E|]. clear E.
  unfold weno_alpha_lin. cbv zeta. pose proof weno_eps_pos as He.
  assert (weno_eps < / 1000000) by (eapply Rlt_trans; [apply He|]; lra).
  apply harmonic_num with (1085 / 1000) (1032 / 1000); try lra.
  - apply alpha_num with (l0 := 1756 / 10000) (u0 := 1757 / 10000) (l1 := 6708 / 10000)
      (u1 := 6709 / 10000) (l2 := 4291 / 10000) (u2 := 4292 / 10000); lra.
  - apply alpha_num with (l0 := 1430 / 10000) (u0 := 1431 / 10000) (l1 := 6708 / 10000)
      (u1 := 6709 / 10000) (l2 := 5268 / 10000) (u2 := 5269 / 10000); lra.
Qed.

Lemma weno_overshoot : 8 + 1 / 10 < fst (WENO5Z 0 0 8 8 16).
Proof.
  unfold WENO5Z. destruct wB_betas as (b0 & b1 & b2 & -> & H0 & H1 & H2). cbv zeta. cbn [fst].
  rewrite mc_zero by lra. pose proof weno_eps_pos as He.
  assert (weno_eps < / 1000000) by (eapply Rlt_trans; [apply He|]; lra).
  assert (A : 1 / 2 < weno_alpha_lin b0 b1 b2).
  { unfold weno_alpha_lin. cbv zeta. apply harmonic_num with (8 / 10) (8 / 10); try lra.
    - apply alpha_num with (l0 := 15999 / 100000) (u0 := 16001 / 100000) (l1 := 14999 / 10000)
        (u1 := 15001 / 10000) (l2 := 7499 / 10000) (u2 := 7501 / 10000); lra.
    - apply alpha_num with (l0 := 24999 / 100000) (u0 := 25001 / 100000) (l1 := 14999 / 10000)
        (u1 := 15001 / 10000) (l2 := 4799 / 10000) (u2 := 4801 / 10000); lra. }
  set (al := weno_alpha_lin _ _ _) in *. clearbody al.
  match goal with |- context [weno_face ?a ?b ?c _ _ _ _ _] =>
    assert (F : 8 + 5 / 10 < weno_face a b c 0 0 8 8 16);
    [unfold weno_face; cbv zeta; set (w0 := a); set (w1 := b); set (w2 := c)|] end.
  { assert (15999 / 100000 < w0 < 16001 / 100000) by (unfold w0; lra).
    assert (14999 / 10000 < w1 < 15001 / 10000) by (unfold w1; lra).
    assert (7499 / 10000 < w2 < 7501 / 10000) by (unfold w2; lra). clearbody w0 w1 w2.
    apply Rmult_lt_reg_r with (w0 + w1 + w2); [lra|].
    match goal with |- _ < ?x * _ * _ => replace (x * (1 / (w0 + w1 + w2)) * (w0 + w1 + w2)) with x by (field; lra) end.
    lra. }
  set (W := weno_face _ _ _ _ _ _ _ _) in *. clearbody W. nra.
Qed.
