(** Bounds of the deleptonisation fit by Bernstein coefficients, and the optical depth. *)
From Coq Require Import Reals Lra Psatz.
From Coquelicot Require Import Coquelicot.
From Flocq Require Import Core.
From Verif.Model Require Import Num LightBulb.
Local Open Scope R_scope.

Lemma bern_pos c s u i j : 0 < c -> 0 <= s -> 0 <= u -> 0 <= c * (s ^ i * u ^ j).
Proof. intros Hc Hs Hu. apply Rmult_le_pos; [lra|]. apply Rmult_le_pos; apply pow_le; assumption. Qed.
Ltac bernstein := repeat apply Rplus_le_le_0_compat; apply bern_pos; lra.

Lemma ye_fit_lower x : 8 <= x <= 13 -> 28 / 100 <= ye_fit x.
Proof.
  intros Hx. set (s := (x - 8) / 5). set (u := 1 - s).
  assert (Hs : 0 <= s) by (unfold s; lra). assert (Hu : 0 <= u) by (unfold u, s; lra).
  assert (E : ye_fit x - 28 / 100 = 7405798376199 / 39062500000000 * (s ^ 0 * u ^ 6) + 80472236338443 / 78125000000000 * (s ^ 1 * u ^ 5) + 43324240434899 / 15625000000000 * (s ^ 2 * u ^ 4) + 148973794103791 / 125000000000000 * (s ^ 3 * u ^ 3) + 84685951337033 / 31250000000000 * (s ^ 4 * u ^ 2) + 447662569268233 / 1250000000000000 * (s ^ 5 * u ^ 1) + 75925145636359 / 10000000000000000 * (s ^ 6 * u ^ 0)).
  { unfold ye_fit, u, s. field. }
  assert (P : 0 <= ye_fit x - 28 / 100) by (rewrite E; bernstein). lra.
Qed.
Lemma ye_fit_upper x : 8 <= x <= 13 -> ye_fit x <= 47 / 100.
Proof.
  intros Hx. set (s := (x - 8) / 5). set (u := 1 - s).
  assert (Hs : 0 <= s) by (unfold s; lra). assert (Hu : 0 <= u) by (unfold u, s; lra).
  assert (E : 47 / 100 - ye_fit x = 16076623801 / 39062500000000 * (s ^ 0 * u ^ 6) + 8590263661557 / 78125000000000 * (s ^ 1 * u ^ 5) + 1207009565101 / 15625000000000 * (s ^ 2 * u ^ 4) + 326026205896209 / 125000000000000 * (s ^ 3 * u ^ 3) + 4376548662967 / 31250000000000 * (s ^ 4 * u ^ 2) + 977337430731767 / 1250000000000000 * (s ^ 5 * u ^ 1) + 1824074854363641 / 10000000000000000 * (s ^ 6 * u ^ 0)).
  { unfold ye_fit, u, s. field. }
  assert (P : 0 <= 47 / 100 - ye_fit x) by (rewrite E; bernstein). lra.
Qed.
Definition ye_slope (x : R) : R := (-639541866693) / 5000000000 * x ^ 0 + 159999223373 / 2500000000 * x ^ 1 + (-2543064209487) / 200000000000 * x ^ 2 + 1566952098151 / 1250000000000 * x ^ 3 + (-613182771683) / 10000000000000 * x ^ 4 + 5951842080453 / 5000000000000000 * x ^ 5.
Lemma ye_fit_derive x : is_derive ye_fit x (ye_slope x).
Proof. unfold ye_fit, ye_slope. auto_derive; [exact I | field]. Qed.
Lemma ye_slope_neg x : 8 <= x <= 13 -> ye_slope x < 0.
Proof.
  intros Hx. destruct (Rle_lt_dec x (21 / 2)) as [H|H].
  - set (s := (x - 8) / (5 / 2)). set (u := 1 - s).
    assert (Hs : 0 <= s) by (unfold s; lra). assert (Hu : 0 <= u) by (unfold u, s; lra).
    assert (E : - ye_slope x - 1 / 1000 = 1601343835189 / 78125000000000 * (s ^ 0 * u ^ 5) + 143984964459 / 15625000000000 * (s ^ 1 * u ^ 4) + 170234398683431 / 500000000000000 * (s ^ 2 * u ^ 3) + 169820686504511 / 500000000000000 * (s ^ 3 * u ^ 2) + 510180204448089 / 4000000000000000 * (s ^ 4 * u ^ 1) + 3745235712169247 / 160000000000000000 * (s ^ 5 * u ^ 0)).
    { unfold ye_slope, u, s. field. }
    assert (P : 0 <= - ye_slope x - 1 / 1000) by (rewrite E; bernstein). lra.
  - set (s := (x - 21 / 2) / (5 / 2)). set (u := 1 - s).
    assert (Hs : 0 <= s) by (unfold s; lra). assert (Hu : 0 <= u) by (unfold u, s; lra).
    assert (E : - ye_slope x - 1 / 1000 = 3745235712169247 / 160000000000000000 * (s ^ 0 * u ^ 5) + 1704514894376891 / 16000000000000000 * (s ^ 1 * u ^ 4) + 1022359568620623 / 4000000000000000 * (s ^ 2 * u ^ 3) + 1017832140166719 / 2000000000000000 * (s ^ 3 * u ^ 2) + 1028425089732207 / 2000000000000000 * (s ^ 4 * u ^ 1) + 307574968032771 / 5000000000000000 * (s ^ 5 * u ^ 0)).
    { unfold ye_slope, u, s. field. }
    assert (P : 0 <= - ye_slope x - 1 / 1000) by (rewrite E; bernstein). lra.
Qed.
Lemma ye_fit_decreasing x y : 8 <= x -> x < y -> y <= 13 -> ye_fit y < ye_fit x.
Proof.
  intros H1 H2 H3. destruct (MVT_gen ye_fit x y ye_slope) as (c & Hc & E).
  - intros z _. apply ye_fit_derive.
  - intros z _. apply continuity_pt_filterlim. apply (ex_derive_continuous ye_fit). eexists. apply ye_fit_derive.
  - rewrite Rmin_left, Rmax_right in Hc by lra. pose proof (ye_slope_neg c ltac:(lra)). nra.
Qed.

(** *** decimal logarithm *)
Lemma ln10_pos : 0 < ln 10.
Proof. rewrite <- ln_1. apply ln_increasing; lra. Qed.
Lemma log10_lt x y : 0 < x -> x < y -> log10 x < log10 y.
Proof. intros. unfold log10. pose proof ln10_pos. apply Rmult_lt_compat_r; [apply Rinv_0_lt_compat; assumption | apply ln_increasing; assumption]. Qed.
Lemma log10_le x y : 0 < x -> x <= y -> log10 x <= log10 y.
Proof. intros H [L|<-]; [left; apply log10_lt; assumption | lra]. Qed.
Lemma log10_inv_lt x y : 0 < x -> 0 < y -> log10 x < log10 y -> x < y.
Proof. intros H1 H2 H. destruct (Rlt_le_dec x y) as [L|L]; [exact L|]. pose proof (log10_le y x H2 L). lra. Qed.
Lemma log10_pow n : log10 (10 ^ n) = INR n.
Proof. unfold log10. rewrite ln_pow by lra. pose proof ln10_pos. field. lra. Qed.
Lemma log10_pow10 y : log10 (pow10 y) = y.
Proof. unfold log10, pow10, Rpower. rewrite ln_exp. pose proof ln10_pos. field. lra. Qed.
Lemma pow10_log10 x : 0 < x -> pow10 (log10 x) = x.
Proof. intros H. unfold log10, pow10, Rpower. pose proof ln10_pos. replace (ln x / ln 10 * ln 10) with (ln x) by (field; lra). apply exp_ln. exact H. Qed.
Lemma pow10_pos y : 0 < pow10 y.
Proof. apply exp_pos. Qed.
Lemma pow10_lt x y : x < y -> pow10 x < pow10 y.
Proof. intros. apply Rpower_lt; lra. Qed.
Lemma pow10_inv_lt x y : pow10 x < pow10 y -> x < y.
Proof. intros H. rewrite <- (log10_pow10 x), <- (log10_pow10 y). apply log10_lt; [apply pow10_pos | exact H]. Qed.
Lemma pow10_nat n : pow10 (INR n) = 10 ^ n.
Proof. unfold pow10. apply Rpower_pow. lra. Qed.
Lemma log10_continuous x : 0 < x -> continuous log10 x.
Proof.
  intros H. apply (ex_derive_continuous log10). unfold log10. auto_derive. pose proof ln10_pos. repeat split; lra.
Qed.
Lemma pow10_continuous y : continuous pow10 y.
Proof. apply (ex_derive_continuous pow10). unfold pow10, Rpower. auto_derive. exact I. Qed.

(** *** the exponent of the optical depth *)
Definition tau_exponent (l : R) : R :=
  if Rlt_bool l XL2 then (YL2 - YL1) / (XL2 - XL1) * (l - XL1) + YL1
  else if Rlt_bool XL3 l then (YL4 - YL3) / (XL4 - XL3) * (l - XL3) + YL3
  else (YL3 - YL2) / (XL3 - XL2) * (l - XL2) + YL2.
Lemma calc_tau_exponent rho : calc_tau rho = pow10 (tau_exponent (log10 rho)).
Proof. unfold calc_tau, tau_exponent. destruct (Rlt_bool _ _); [reflexivity|]. destruct (Rlt_bool _ _); reflexivity. Qed.
Lemma tau_exponent_slopes x y : x < y -> 7 / 10 * (y - x) <= tau_exponent y - tau_exponent x <= 5 * (y - x).
Proof.
  intros H. unfold tau_exponent, XL1, XL2, XL3, XL4, YL1, YL2, YL3, YL4.
  destruct (Rlt_bool_spec x (88 / 10)), (Rlt_bool_spec y (88 / 10)), (Rlt_bool_spec (1415 / 100) x), (Rlt_bool_spec (1415 / 100) y); try lra.
Qed.
Lemma tau_exponent_continuous x : continuous tau_exponent x.
Proof.
  apply filterlim_locally. intros e. exists (mkposreal (e / 5) ltac:(pose proof (cond_pos e); lra)).
  intros y Hy. change (Rabs (y - x) < e / 5) in Hy. change (Rabs (tau_exponent y - tau_exponent x) < e).
  destruct (Rtotal_order x y) as [L|[->|L]].
  - pose proof (tau_exponent_slopes x y L). rewrite Rabs_pos_eq in Hy by lra. rewrite Rabs_pos_eq by lra. lra.
  - rewrite Rminus_eq_0, Rabs_R0. apply cond_pos.
  - pose proof (tau_exponent_slopes y x L). rewrite Rabs_left in Hy by lra. rewrite Rabs_left by lra. lra.
Qed.
