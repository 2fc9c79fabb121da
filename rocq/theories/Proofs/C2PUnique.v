From Coq Require Import Reals Arith ZArith Lia Lra Psatz Bool.
From Coquelicot Require Import Coquelicot.
From Flocq Require Import Core.
Local Open Scope R_scope.

(** The scalar functions of mu that enter the residual of con2prim_robust, and how they vary.
    b2 = b.b, br2 = (b.r)^2, r2 = r.r. *)
Section Scalars.
Variables (b2 br2 r2 q : R).
Hypothesis Hb : 0 <= b2.
Hypothesis Hbr : 0 <= br2.
Hypothesis Hr : 0 <= r2.
Definition ux (mu : R) : R := 1 / (1 + mu * b2).
Definition urb (mu : R) : R := ux mu * (ux mu * r2 + mu * (1 + ux mu) * br2).
Definition us (mu : R) : R := mu * mu * urb mu.
Definition up (mu : R) : R := 1 + (q - / 2 * (b2 + mu * mu * (b2 * urb mu - br2))) - mu * urb mu.
Definition uk (mu : R) : R := ux mu ^ 3 * r2 + mu * ux mu * (1 + ux mu + ux mu ^ 2) * br2.

Lemma ux_pos mu : 0 <= mu -> 0 < ux mu.
Proof. intros H. unfold ux. apply Rdiv_lt_0_compat; [lra|]. assert (0 <= mu * b2) by (apply Rmult_le_pos; assumption). lra. Qed.
Lemma uk_nonneg mu : 0 <= mu -> 0 <= uk mu.
Proof.
  intros H. pose proof (ux_pos mu H) as X. unfold uk. apply Rplus_le_le_0_compat.
  - apply Rmult_le_pos; [apply pow_le; lra|exact Hr].
  - apply Rmult_le_pos; [|exact Hbr]. apply Rmult_le_pos; [apply Rmult_le_pos; lra|]. pose proof (pow2_ge_0 (ux mu)). lra.
Qed.
Lemma us_derive mu : 0 <= mu -> is_derive us mu (2 * mu * uk mu).
Proof.
  intros H. assert (0 <= mu * b2) by (apply Rmult_le_pos; assumption).
  unfold us, urb, uk, ux. auto_derive; [lra|]. field. lra.
Qed.
Lemma up_derive mu : 0 <= mu -> is_derive up mu (- uk mu).
Proof.
  intros H. assert (0 <= mu * b2) by (apply Rmult_le_pos; assumption).
  unfold up, urb, uk, ux. auto_derive; [lra|]. field. lra.
Qed.
Lemma us_mono m1 m2 : 0 <= m1 -> m1 <= m2 -> us m1 <= us m2.
Proof.
  intros H [L|E]; [|rewrite E; lra].
  destruct (MVT_gen us m1 m2 (fun m => 2 * m * uk m)) as (c & [Hc1 Hc2] & E).
  - intros x Hx. rewrite Rmin_left, Rmax_right in Hx by lra. apply us_derive; lra.
  - intros x Hx. rewrite Rmin_left, Rmax_right in Hx by lra. apply derivable_continuous_pt. exists (2 * x * uk x).
    apply is_derive_Reals. apply us_derive. lra.
  - rewrite Rmin_left, Rmax_right in * by lra. pose proof (uk_nonneg c ltac:(lra)) as K.
    assert (0 <= 2 * c * uk c) by (apply Rmult_le_pos; lra).
    assert (0 <= 2 * c * uk c * (m2 - m1)) by (apply Rmult_le_pos; lra). lra.
Qed.
(** c p + (s - 1)/mu increases while s < 1, for 0 <= c <= 2 *)
Lemma cp_mono c m1 m2 : 0 <= c <= 2 -> 0 < m1 -> m1 < m2 -> us m2 < 1 ->
  c * up m1 + (us m1 - 1) / m1 < c * up m2 + (us m2 - 1) / m2.
Proof.
  intros Hc H1 H2 H3.
  apply (incr_function_le (fun m => c * up m + (us m - 1) / m) (Finite m1) (Finite m2)
    (fun m => (2 - c) * uk m + (1 - us m) / (m * m))); cbn; try lra.
  - intros m A B. pose proof (us_derive m ltac:(lra)) as D1. pose proof (up_derive m ltac:(lra)) as D2.
    evar_last.
    + apply (is_derive_plus (fun m => c * up m) (fun m => (us m - 1) / m)).
      * apply (is_derive_scal up). exact D2.
      * apply (is_derive_div (fun m => us m - 1) (fun m => m)); [|apply is_derive_id|lra]. apply (is_derive_minus us (fun _ => 1)); [exact D1|apply is_derive_const].
    + unfold plus, minus, opp, zero, one, scal; cbn. unfold plus, opp, mult; cbn. unfold mult; cbn. field. lra.
  - intros m A B. pose proof (uk_nonneg m ltac:(lra)) as K. pose proof (us_mono m m2 ltac:(lra) B) as S.
    assert (0 <= (2 - c) * uk m) by (apply Rmult_le_pos; lra).
    assert (0 < (1 - us m) / (m * m)) by (apply Rdiv_lt_0_compat; nra). lra.
Qed.
End Scalars.

(** The residual of an ideal gas, P = (G - 1) rho e with 1 < G <= 2: the sign of
    mu nu + s - 1 changes once. *)
Section Gas.
Variables (b2 br2 r2 q v0 G emax : R).
Hypothesis Hb : 0 <= b2.
Hypothesis Hbr : 0 <= br2.
Hypothesis Hr : 0 <= r2.
Hypothesis HG : 1 <= G <= 2.
Hypothesis Hv : 0 <= v0 < 1.
Hypothesis He : 0 < emax.
Definition gw (mu : R) : R := sqrt (1 - Rmin (us b2 br2 r2 mu) v0).
Definition gV (mu : R) : R := Rmin (us b2 br2 r2 mu) v0.
(** energy floor as a function of mu: depends on mu through 1/W only *)
Variable fl : R -> R.
Hypothesis Hfl : forall mu, 0 <= mu -> 0 < fl mu <= emax.
Hypothesis Hflm : forall m1 m2, 0 <= m1 -> m1 <= m2 -> fl m1 <= fl m2.
Hypothesis Hflc : forall m1 m2, 0 <= m1 -> 0 <= m2 -> gV m1 = gV m2 -> fl m1 = fl m2.
Definition gtrial (mu : R) : R := up b2 br2 r2 q mu / gw mu - 1.
Definition ge (mu : R) : R := if Rle_bool (gtrial mu) (fl mu) then fl mu else if Rlt_bool emax (gtrial mu) then emax else gtrial mu.
Definition gnu (mu : R) : R :=
  Rmax ((1 + G * ge mu) * gw mu) ((1 + G * ge mu) / (1 + ge mu) * up b2 br2 r2 q mu).
Definition gG (mu : R) : R := mu * gnu mu + us b2 br2 r2 mu - 1.
Let s := us b2 br2 r2.
Let p := up b2 br2 r2 q.

Lemma gV_range mu : 0 <= mu -> 0 <= gV mu < 1 /\ gV mu <= s mu.
Proof.
  intros H. pose proof (us_mono b2 br2 r2 Hb Hbr Hr 0 mu (Rle_refl 0) H) as K.
  assert (Z : us b2 br2 r2 0 = 0) by (unfold us; ring). fold s in K, Z. unfold gV. fold s. split.
  - split; [apply Rmin_glb; lra|]. eapply Rle_lt_trans; [apply Rmin_r|lra].
  - apply Rmin_l.
Qed.
Lemma gw_range mu : 0 <= mu -> 0 < gw mu <= 1 /\ gw mu * gw mu = 1 - gV mu.
Proof.
  intros H. destruct (gV_range mu H) as [K _]. unfold gw. fold (gV mu). split.
  - split; [apply sqrt_lt_R0; lra|]. pose proof (sqrt_le_1_alt (1 - gV mu) 1 ltac:(lra)) as Q. rewrite sqrt_1 in Q. exact Q.
  - apply sqrt_sqrt. lra.
Qed.
Lemma gw_mono m1 m2 : 0 <= m1 -> m1 <= m2 -> gw m2 <= gw m1.
Proof.
  intros H K. unfold gw. apply sqrt_le_1_alt. pose proof (us_mono b2 br2 r2 Hb Hbr Hr m1 m2 H K) as S.
  pose proof (Rle_min_compat_r _ _ v0 S) as Q. lra.
Qed.
Let c3 := (1 + G * emax) / (1 + emax).
Lemma c3_range : 1 <= c3 <= 2.
Proof.
  unfold c3. split.
  - apply Rmult_le_reg_r with (1 + emax); [lra|]. unfold Rdiv. rewrite Rmult_assoc, Rinv_l by lra. nra.
  - apply Rmult_le_reg_r with (1 + emax); [lra|]. unfold Rdiv. rewrite Rmult_assoc, Rinv_l by lra. nra.
Qed.
(** the three branches *)
Let M1 mu := (1 + G * fl mu) * gw mu.
Let M2 mu := G * p mu - (G - 1) * gw mu.
Let M3 mu := c3 * p mu.
Lemma frac_diff a b : 0 < 1 + a -> 0 < 1 + b -> (1 + G * a) / (1 + a) - (1 + G * b) / (1 + b) = (G - 1) * (a - b) / ((1 + a) * (1 + b)).
Proof. intros A B. field. lra. Qed.
Lemma gnu_cases mu : 0 <= mu -> gnu mu = Rmax (M1 mu) (Rmin (M2 mu) (M3 mu)).
Proof.
  intros H. destruct (gw_range mu H) as [W _]. destruct (Hfl mu H) as [F1 F2]. set (w := gw mu) in *.
  assert (Pw : p mu = (1 + gtrial mu) * w) by (unfold gtrial; fold w; fold p; field; lra).
  set (t := gtrial mu) in *.
  assert (E2 : M2 mu = (1 + G * t) * w) by (unfold M2; fold w; rewrite Pw; ring).
  assert (E3 : M3 mu = (1 + G * emax) / (1 + emax) * (1 + t) * w) by (unfold M3, c3; rewrite Pw; ring).
  assert (E1 : M1 mu = (1 + G * fl mu) * w) by reflexivity.
  unfold gnu, ge. fold p. fold t. fold w. rewrite Pw.
  assert (Hge : G * fl mu > 0) by (apply Rmult_lt_0_compat; lra).
  destruct (Rle_bool_spec t (fl mu)) as [A|A].
  - rewrite Rmax_left.
    + rewrite E1. symmetry. apply Rmax_left. eapply Rle_trans; [apply Rmin_l|]. rewrite E2.
      apply Rmult_le_compat_r; [lra|]. nra.
    + replace ((1 + G * fl mu) / (1 + fl mu) * ((1 + t) * w)) with ((1 + G * fl mu) * w * ((1 + t) / (1 + fl mu))) by (field; lra).
      rewrite <- (Rmult_1_r ((1 + G * fl mu) * w)) at 2. apply Rmult_le_compat_l; [apply Rmult_le_pos; lra|].
      apply Rmult_le_reg_r with (1 + fl mu); [lra|]. unfold Rdiv. rewrite Rmult_assoc, Rinv_l by lra. lra.
  - assert (T3 : (1 + t) * ((1 + G * t) / (1 + t)) = 1 + G * t) by (field; lra).
    assert (D : (1 + G * t) / (1 + t) - (1 + G * emax) / (1 + emax) = (G - 1) * (t - emax) / ((1 + t) * (1 + emax))) by (apply frac_diff; lra).
    assert (Ip : 0 < / ((1 + t) * (1 + emax))) by (apply Rinv_0_lt_compat; nra).
    destruct (Rlt_bool_spec emax t) as [B|B].
    + assert (0 <= (G - 1) * (t - emax) / ((1 + t) * (1 + emax))).
      { unfold Rdiv. apply Rmult_le_pos; [nra|lra]. }
      set (c := (1 + G * emax) / (1 + emax)) in *.
      assert (Cp : 0 < c) by (unfold c; apply Rdiv_lt_0_compat; nra).
      assert (Ce : c * (1 + emax) = 1 + G * emax) by (unfold c; field; lra).
      rewrite (Rmax_right ((1 + G * emax) * w)).
      * rewrite Rmax_right; [rewrite Rmin_right; [rewrite E3; ring|]|].
        -- rewrite E2, E3. apply Rmult_le_compat_r; [lra|]. nra.
        -- rewrite E1. apply Rmin_glb.
           ++ rewrite E2. apply Rmult_le_compat_r; [lra|]. nra.
           ++ rewrite E3. apply Rmult_le_compat_r; [lra|]. nra.
      * rewrite <- Ce, <- Rmult_assoc. apply Rmult_le_compat_r; [lra|]. apply Rmult_le_compat_l; lra.
    + assert ((G - 1) * (t - emax) / ((1 + t) * (1 + emax)) <= 0).
      { assert (0 <= (G - 1) * (emax - t) / ((1 + t) * (1 + emax))); [unfold Rdiv; apply Rmult_le_pos; [nra|lra]|].
        unfold Rdiv in *. nra. }
      replace ((1 + G * t) / (1 + t) * ((1 + t) * w)) with ((1 + G * t) * w) by (field; lra).
      rewrite (Rmax_left ((1 + G * t) * w) ((1 + G * t) * w)) by lra.
      rewrite Rmin_left.
      * rewrite Rmax_right; [rewrite E2; reflexivity|]. rewrite E1, E2. apply Rmult_le_compat_r; [lra|]. nra.
      * rewrite E2, E3. apply Rmult_le_compat_r; [lra|]. nra.
Qed.

Lemma M1_cross m1 m2 : 0 < m1 -> m1 < m2 -> 0 <= m1 * M1 m1 + s m1 - 1 -> 0 < m2 * M1 m2 + s m2 - 1.
Proof.
  intros H1 H2 K. destruct (gw_range m1 ltac:(lra)) as [[W1 W1'] S1]. destruct (gw_range m2 ltac:(lra)) as [[W2 W2'] S2].
  pose proof (us_mono b2 br2 r2 Hb Hbr Hr m1 m2 ltac:(lra) ltac:(lra)) as Sm. fold s in Sm.
  pose proof (gw_mono m1 m2 ltac:(lra) ltac:(lra)) as Wm.
  destruct (Hfl m1 ltac:(lra)) as [F1 _]. destruct (Hfl m2 ltac:(lra)) as [F2 _].
  pose proof (Hflm m1 m2 ltac:(lra) ltac:(lra)) as Fm.
  unfold M1 in *. set (w1 := gw m1) in *. set (w2 := gw m2) in *.
  assert (C1 : 1 <= 1 + G * fl m1) by nra. assert (C2 : 1 + G * fl m1 <= 1 + G * fl m2) by nra.
  destruct (Rle_lt_dec (s m1) v0) as [A|A].
  - assert (V1 : gV m1 = s m1) by (unfold gV; fold s; apply Rmin_left; exact A). rewrite V1 in S1.
    assert (Q : w1 * w1 <= m1 * ((1 + G * fl m1) * w1)) by lra.
    assert (Q1 : w1 <= m1 * (1 + G * fl m1)). { apply Rmult_le_reg_r with w1; [lra|]. lra. }
    assert (Q2 : m1 * (1 + G * fl m1) < m2 * (1 + G * fl m2)) by nra.
    assert (Q3 : w2 * w2 < m2 * (1 + G * fl m2) * w2) by (apply Rmult_lt_compat_r; lra).
    assert (gV m2 <= s m2) by apply Rmin_l. lra.
  - assert (V1 : gV m1 = gV m2). { unfold gV. fold s. rewrite !Rmin_right by lra. reflexivity. }
    pose proof (Hflc m1 m2 ltac:(lra) ltac:(lra) V1) as Fe. rewrite <- Fe.
    assert (We : w1 = w2). { unfold w1, w2, gw. fold s. fold (gV m1) (gV m2). unfold gV in V1. fold s in V1. rewrite V1. reflexivity. }
    rewrite <- We. assert (0 < (1 + G * fl m1) * w1) by (apply Rmult_lt_0_compat; lra). nra.
Qed.
Lemma M23_cross m1 m2 : 0 < m1 -> m1 < m2 -> s m2 < 1 ->
  (0 <= m1 * M2 m1 + s m1 - 1 -> 0 < m2 * M2 m2 + s m2 - 1) /\ (0 <= m1 * M3 m1 + s m1 - 1 -> 0 < m2 * M3 m2 + s m2 - 1).
Proof.
  intros H1 H2 H3.
  assert (Eq : forall M m, 0 < m -> m * M + s m - 1 = m * (M + (s m - 1) / m)) by (intros M m Hm; field; lra).
  assert (X : forall x y, 0 <= m1 * x -> x < y -> 0 < m2 * y).
  { intros x y A B. assert (0 <= x). { apply Rmult_le_reg_l with m1; [exact H1|]. rewrite Rmult_0_r. exact A. }
    apply Rmult_lt_0_compat; lra. }
  split; rewrite !Eq by lra; intros K; (apply X with (1 := K)).
  - pose proof (cp_mono b2 br2 r2 q Hb Hbr Hr G m1 m2 ltac:(lra) H1 H2 H3) as Q. fold s p in Q.
    pose proof (gw_mono m1 m2 ltac:(lra) ltac:(lra)) as Wm. unfold M2.
    assert ((G - 1) * gw m2 <= (G - 1) * gw m1) by (apply Rmult_le_compat_l; lra). lra.
  - pose proof c3_range as C. pose proof (cp_mono b2 br2 r2 q Hb Hbr Hr c3 m1 m2 ltac:(lra) H1 H2 H3) as Q. exact Q.
Qed.
Lemma gG_cross m1 m2 : 0 < m1 -> m1 < m2 -> 0 <= gG m1 -> 0 < gG m2.
Proof.
  intros H1 H2 K. unfold gG in K |- *. fold s in K |- *. rewrite (gnu_cases m1) in K by lra. rewrite (gnu_cases m2) by lra.
  assert (B1 : forall m x y, 0 < m -> m * Rmax x y + s m - 1 = Rmax (m * x + s m - 1) (m * y + s m - 1)).
  { intros m x y Hm. unfold Rmax. destruct (Rle_dec x y), (Rle_dec (m * x + s m - 1) (m * y + s m - 1)); nra. }
  assert (B2 : forall m x y, 0 < m -> m * Rmin x y + s m - 1 = Rmin (m * x + s m - 1) (m * y + s m - 1)).
  { intros m x y Hm. unfold Rmin. destruct (Rle_dec x y), (Rle_dec (m * x + s m - 1) (m * y + s m - 1)); nra. }
  rewrite B1, B2 in K by lra. rewrite B1, B2 by lra.
  destruct (Rlt_le_dec (s m2) 1) as [S2|S2].
  - destruct (M23_cross m1 m2 H1 H2 S2) as [C2 C3]. pose proof (M1_cross m1 m2 H1 H2) as C1.
    unfold Rmax in K. destruct (Rle_dec (m1 * M1 m1 + s m1 - 1) (Rmin (m1 * M2 m1 + s m1 - 1) (m1 * M3 m1 + s m1 - 1))) as [A|A].
    + eapply Rlt_le_trans; [|apply Rmax_r]. apply Rmin_glb_lt.
      * apply C2. eapply Rle_trans; [exact K|apply Rmin_l].
      * apply C3. eapply Rle_trans; [exact K|apply Rmin_r].
    + eapply Rlt_le_trans; [|apply Rmax_l]. apply C1, K.
  - eapply Rlt_le_trans; [|apply Rmax_l]. destruct (gw_range m2 ltac:(lra)) as [[W2 _] _]. destruct (Hfl m2 ltac:(lra)) as [F2 _].
    assert (0 < m2 * M1 m2). { unfold M1. apply Rmult_lt_0_compat; [lra|]. apply Rmult_lt_0_compat; [nra|lra]. } lra.
Qed.
Lemma gG_unique m1 m2 : 0 < m1 -> 0 < m2 -> gG m1 = 0 -> gG m2 = 0 -> m1 = m2.
Proof.
  intros H1 H2 E1 E2. destruct (Rtotal_order m1 m2) as [L|[E|L]]; [|exact E|].
  - pose proof (gG_cross m1 m2 H1 L ltac:(lra)). lra.
  - pose proof (gG_cross m2 m1 H2 L ltac:(lra)). lra.
Qed.
End Gas.

(** A function whose derivative is positive at each of its zeros has at most one. *)
Lemma derive_pos_local f x l : is_derive f x l -> 0 < l ->
  exists d, 0 < d /\ (forall y, x < y < x + d -> f x < f y) /\ (forall y, x - d < y < x -> f y < f x).
Proof.
  intros H Hl. apply is_derive_Reals in H. destruct (H (l / 2) ltac:(lra)) as (d & Hd). exists (pos d). split; [apply cond_pos|].
  assert (K : forall h, h <> 0 -> Rabs h < d -> l / 2 < (f (x + h) - f x) / h).
  { intros h h0 hd. pose proof (Hd h h0 hd) as Q. apply Rabs_def2 in Q. lra. }
  split; intros y Hy.
  - pose proof (K (y - x) ltac:(lra) ltac:(rewrite Rabs_pos_eq; lra)) as Q. replace (x + (y - x)) with y in Q by ring.
    apply (Rmult_lt_compat_r (y - x)) in Q; [|lra]. unfold Rdiv in Q. rewrite (Rmult_assoc (f y - f x)), Rinv_l in Q by lra.
    assert (0 < l * / 2 * (y - x)) by (apply Rmult_lt_0_compat; lra). lra.
  - pose proof (K (y - x) ltac:(lra) ltac:(rewrite Rabs_left; lra)) as Q. replace (x + (y - x)) with y in Q by ring.
    apply (Rmult_lt_compat_r (x - y)) in Q; [|lra].
    replace ((f y - f x) / (y - x) * (x - y)) with (f x - f y) in Q by (field; lra).
    assert (0 < l / 2 * (x - y)) by (apply Rmult_lt_0_compat; lra). lra.
Qed.
Lemma derive_cont_sign f x l e : is_derive f x l -> 0 < Rabs (f x) -> e = f x ->
  exists d, 0 < d /\ forall y, Rabs (y - x) < d -> 0 < f y * e.
Proof.
  intros H A E. subst e. assert (C : continuity_pt f x).
  { apply derivable_continuous_pt. exists l. apply is_derive_Reals. exact H. }
  destruct (C (Rabs (f x)) A) as (d & Hd & K). exists d. split; [exact Hd|]. intros y Hy.
  destruct (Req_dec y x) as [E|E].
  - rewrite E. destruct (Req_dec (f x) 0) as [Z|Z]; [rewrite Z, Rabs_R0 in A; lra|]. exact (Rsqr_pos_lt _ Z).
  - specialize (K y). unfold D_x, no_cond, dist, R_met, R_dist in K. cbn in K. unfold R_dist in K.
    specialize (K (conj (conj I (not_eq_sym E)) Hy)). unfold Rabs in K at 2.
    destruct (Rcase_abs (f x)) as [N|N]; apply Rabs_def2 in K.
    + assert (Q : 0 < (- f y) * (- f x)) by (apply Rmult_lt_0_compat; lra). lra.
    + assert (0 < f x) by (destruct N; [lra|]; rewrite H0, Rabs_R0 in A; lra). apply Rmult_lt_0_compat; lra.
Qed.
Lemma one_zero f df a b : a < b -> (forall x, a <= x <= b -> is_derive f x (df x)) ->
  (forall x, a <= x <= b -> f x = 0 -> 0 < df x) -> f a = 0 -> f b = 0 -> False.
Proof.
  intros ab Hd Hz fa fb.
  destruct (derive_pos_local f b (df b) (Hd b ltac:(lra)) (Hz b ltac:(lra) fb)) as (d1 & D1 & _ & L1).
  destruct (derive_pos_local f a (df a) (Hd a ltac:(lra)) (Hz a ltac:(lra) fa)) as (d2 & D2 & L2 & _).
  set (b' := Rmax ((a + b) / 2) (b - d1 / 2)).
  assert (Hb' : (a + b) / 2 <= b' < b /\ b - d1 < b').
  { unfold b', Rmax. destruct (Rle_dec ((a + b) / 2) (b - d1 / 2)); lra. }
  assert (Nb : f b' < 0) by (rewrite <- fb; apply L1; lra).
  set (x0 := Rmin ((3 * a + b) / 4) (a + d2 / 2)).
  assert (Hx0 : a < x0 <= (3 * a + b) / 4 /\ x0 < a + d2).
  { unfold x0, Rmin. destruct (Rle_dec ((3 * a + b) / 4) (a + d2 / 2)); lra. }
  assert (Px : 0 < f x0) by (rewrite <- fa; apply L2; lra).
  destruct (completeness (fun x => x0 <= x <= b' /\ 0 < f x)) as (z & Ub & Lub).
  { exists b'. intros x [Hx _]. lra. }
  { exists x0. split; [lra|exact Px]. }
  assert (Z0 : x0 <= z) by (apply Ub; split; [lra|exact Px]).
  assert (Z1 : z <= b') by (apply Lub; intros x [Hx _]; lra).
  assert (dz : is_derive f z (df z)) by (apply Hd; lra).
  destruct (Rtotal_order (f z) 0) as [N|[E|N]].
  - destruct (derive_cont_sign f z (df z) (f z) dz ltac:(apply Rabs_pos_lt; lra) eq_refl) as (d & dp & S).
    assert (z <= z - d / 2); [|lra]. apply Lub. intros x [Hx Fx].
    destruct (Rle_lt_dec x (z - d / 2)) as [Q|Q]; [exact Q|].
    assert (x <= z) by (apply Ub; split; [exact Hx|exact Fx]).
    specialize (S x ltac:(apply Rabs_def1; lra)). nra.
  - destruct (derive_pos_local f z (df z) dz (Hz z ltac:(lra) E)) as (d & dp & S & _).
    assert (Zl : z < b') by (destruct Z1 as [Q|Q]; [exact Q|rewrite Q in E; lra]).
    set (y := Rmin b' (z + d / 2)).
    assert (Hy : z < y <= b' /\ y < z + d) by (unfold y, Rmin; destruct (Rle_dec b' (z + d / 2)); lra).
    assert (y <= z); [|lra]. apply Ub. split; [lra|]. rewrite <- E. apply S. lra.
  - destruct (derive_cont_sign f z (df z) (f z) dz ltac:(apply Rabs_pos_lt; lra) eq_refl) as (d & dp & S).
    assert (Zl : z < b') by (destruct Z1 as [Q|Q]; [exact Q|rewrite Q in N; lra]).
    set (y := Rmin b' (z + d / 2)).
    assert (Hy : z < y <= b' /\ y < z + d) by (unfold y, Rmin; destruct (Rle_dec b' (z + d / 2)); lra).
    assert (y <= z); [|lra]. apply Ub. split; [lra|]. specialize (S y ltac:(apply Rabs_def1; lra)). nra.
Qed.

(** Roots without active limiter, any equation of state *)
Section AnyEos.
Variables (b2 br2 r2 q D : R) (P Pr Pe : R -> R -> R).
Hypothesis Hb : 0 <= b2.
Hypothesis Hbr : 0 <= br2.
Hypothesis Hr : 0 <= r2.
Hypothesis HD : 0 < D.
Let s := us b2 br2 r2.
Let p := up b2 br2 r2 q.
Let k := uk b2 br2 r2.
Definition aw (mu : R) : R := sqrt (1 - us b2 br2 r2 mu).
Definition aeps (mu : R) : R := up b2 br2 r2 q mu / aw mu - 1.
Definition aF (mu : R) : R := mu * (up b2 br2 r2 q mu + P (D * aw mu) (aeps mu) / D) + us b2 br2 r2 mu - 1.

Lemma aw_range mu : 0 <= mu -> s mu < 1 -> 0 < aw mu <= 1 /\ aw mu * aw mu = 1 - s mu.
Proof.
  intros H H1. pose proof (us_mono b2 br2 r2 Hb Hbr Hr 0 mu (Rle_refl 0) H) as K.
  assert (Z : us b2 br2 r2 0 = 0) by (unfold us; ring). fold s in K, Z. unfold aw. fold s. split.
  - split; [apply sqrt_lt_R0; lra|]. pose proof (sqrt_le_1_alt (1 - s mu) 1 ltac:(lra)) as Q. rewrite sqrt_1 in Q. exact Q.
  - apply sqrt_sqrt. lra.
Qed.
Lemma aw_derive mu : 0 <= mu -> s mu < 1 -> is_derive aw mu (- mu * k mu / aw mu).
Proof.
  intros H H1. destruct (aw_range mu H H1) as [W S2]. unfold aw. fold s. evar_last.
  - apply (is_derive_comp sqrt (fun m => 1 - s m)).
    + apply is_derive_Reals, derivable_pt_lim_sqrt. lra.
    + apply (is_derive_minus (fun _ => 1) s); [apply is_derive_const|apply (us_derive b2 br2 r2 Hb mu H)].
  - unfold scal, minus, plus, opp, zero; cbn. unfold mult; cbn. unfold aw in W. fold s in W. fold k. field. lra.
Qed.
Lemma aeps_derive mu : 0 <= mu -> s mu < 1 -> is_derive aeps mu (k mu / aw mu ^ 3 * (p mu * mu - aw mu * aw mu)).
Proof.
  intros H H1. destruct (aw_range mu H H1) as [W S2]. unfold aeps. evar_last.
  - apply (is_derive_minus (fun m => p m / aw m) (fun _ => 1)); [|apply is_derive_const].
    apply (is_derive_div p aw); [apply (up_derive b2 br2 r2 q Hb mu H)|apply aw_derive; assumption|lra].
  - unfold minus, plus, opp, zero; cbn. fold k. field. lra.
Qed.
(** pressure differentiable, non-negative, sound speed at most that of light *)
Definition causal_at (rho e : R) : Prop :=
  differentiable_pt_lim P rho e (Pr rho e) (Pe rho e) /\ 0 <= P rho e /\
  Pr rho e + P rho e / rho ^ 2 * Pe rho e <= 1 + e + P rho e / rho.
Lemma aF_derive mu : 0 <= mu -> s mu < 1 -> causal_at (D * aw mu) (aeps mu) ->
  is_derive aF mu (p mu + P (D * aw mu) (aeps mu) / D + mu * k mu
    + mu / D * (Pr (D * aw mu) (aeps mu) * (D * (- mu * k mu / aw mu))
       + Pe (D * aw mu) (aeps mu) * (k mu / aw mu ^ 3 * (p mu * mu - aw mu * aw mu)))).
Proof.
  intros H H1 (Hd & _ & _). pose proof (aw_derive mu H H1) as Dw. pose proof (aeps_derive mu H H1) as De.
  assert (DP : is_derive (fun m => P (D * aw m) (aeps m)) mu
     (Pr (D * aw mu) (aeps mu) * (D * (- mu * k mu / aw mu)) + Pe (D * aw mu) (aeps mu) * (k mu / aw mu ^ 3 * (p mu * mu - aw mu * aw mu)))).
  { apply is_derive_Reals.
    apply (derivable_pt_lim_comp_2d P (fun m => D * aw m) aeps mu _ _ _ _ Hd).
    - apply is_derive_Reals. apply (is_derive_scal aw). exact Dw.
    - apply is_derive_Reals. exact De. }
  set (dP := _ + _ * (k mu / _ * _)) in *. clearbody dP.
  unfold aF. evar_last.
  - apply (is_derive_minus (fun m => m * (p m + P (D * aw m) (aeps m) / D) + s m) (fun _ => 1)); [|apply is_derive_const].
    apply (is_derive_plus (fun m => m * (p m + P (D * aw m) (aeps m) / D)) s); [|apply (us_derive b2 br2 r2 Hb mu H)].
    apply (is_derive_mult (fun m => m) (fun m => p m + P (D * aw m) (aeps m) / D)); [apply is_derive_id| |intros; apply Rmult_comm].
    apply (is_derive_plus p (fun m => P (D * aw m) (aeps m) / D)); [apply (up_derive b2 br2 r2 q Hb mu H)|].
    apply (is_derive_scal_l (fun m => P (D * aw m) (aeps m)) mu dP (/ D)). exact DP.
  - unfold minus, plus, opp, zero, one, scal, mult; cbn. unfold mult; cbn. fold k. fold p. field. lra.
Qed.
Lemma aF_slope mu : 0 < mu -> s mu < 1 -> causal_at (D * aw mu) (aeps mu) -> aF mu = 0 ->
  0 < p mu + P (D * aw mu) (aeps mu) / D + mu * k mu
    + mu / D * (Pr (D * aw mu) (aeps mu) * (D * (- mu * k mu / aw mu))
       + Pe (D * aw mu) (aeps mu) * (k mu / aw mu ^ 3 * (p mu * mu - aw mu * aw mu))).
Proof.
  intros H H1 (_ & HP & Hc) E. destruct (aw_range mu ltac:(lra) H1) as [W S2].
  pose proof (uk_nonneg b2 br2 r2 Hb Hbr Hr mu ltac:(lra)) as K. fold k in K.
  unfold aF in E. fold p s in E.
  assert (Pw : p mu = (1 + aeps mu) * aw mu) by (unfold aeps; fold p; field; lra).
  set (e := aeps mu) in *. set (w := aw mu) in *. set (PP := P (D * w) e) in *. set (A := Pr (D * w) e) in *. set (B := Pe (D * w) e) in *.
  assert (Nu : p mu + PP / D = w * w / mu).
  { assert (Q : mu * (p mu + PP / D) = w * w) by lra. rewrite <- Q. field. split; lra. }
  assert (Pm : p mu * mu - w * w = - mu * PP / D).
  { assert (Q : mu * (p mu + PP / D) = w * w) by lra. assert (Q2 : mu * p mu + mu * PP / D = w * w) by (rewrite <- Q; field; lra). lra. }
  rewrite Pm, Nu.
  replace (w * w / mu + mu * k mu + mu / D * (A * (D * (- mu * k mu / w)) + B * (k mu / w ^ 3 * (- mu * PP / D))))
    with (w * w / mu + mu * k mu * (1 - mu / w * (A + PP / (D * w) ^ 2 * B))) by (field; lra).
  assert (Hh : mu / w * (1 + e + PP / (D * w)) = 1).
  { assert (Q : mu * ((1 + e) * w + PP / D) = w * w) by (rewrite <- Pw; lra).
    replace (mu / w * (1 + e + PP / (D * w))) with (mu * ((1 + e) * w + PP / D) / (w * w)) by (field; lra). rewrite Q. field. lra. }
  assert (Mw : 0 < mu / w) by (apply Rdiv_lt_0_compat; lra).
  assert (mu / w * (A + PP / (D * w) ^ 2 * B) <= 1). { rewrite <- Hh. apply Rmult_le_compat_l; [lra|]. exact Hc. }
  assert (0 < w * w / mu) by (apply Rdiv_lt_0_compat; nra).
  assert (0 <= mu * k mu) by (apply Rmult_le_pos; lra).
  assert (0 <= mu * k mu * (1 - mu / w * (A + PP / (D * w) ^ 2 * B))) by (apply Rmult_le_pos; lra). lra.
Qed.
(** p mu - w^2 increases *)
Lemma pm_mono m1 m2 : 0 <= m1 -> m1 <= m2 -> (forall m, m1 <= m <= m2 -> s m < 1 /\ 0 <= p m) ->
  p m1 * m1 - (1 - s m1) <= p m2 * m2 - (1 - s m2).
Proof.
  intros H1 [L|E] Hp; [|rewrite E; lra].
  destruct (MVT_gen (fun m => p m * m - (1 - s m)) m1 m2 (fun m => p m + m * k m)) as (c & [Hc1 Hc2] & E).
  - intros x Hx. rewrite Rmin_left, Rmax_right in Hx by lra.
    pose proof (us_derive b2 br2 r2 Hb x ltac:(lra)) as Ds. pose proof (up_derive b2 br2 r2 q Hb x ltac:(lra)) as Dp.
    evar_last.
    + apply (is_derive_minus (fun m => p m * m) (fun m => 1 - s m)).
      * apply (is_derive_mult p (fun m => m)); [exact Dp|apply is_derive_id|intros; apply Rmult_comm].
      * apply (is_derive_minus (fun _ => 1) s); [apply is_derive_const|exact Ds].
    + unfold minus, plus, opp, zero, one, mult; cbn. fold k p. ring.
  - intros x Hx. rewrite Rmin_left, Rmax_right in Hx by lra. apply derivable_continuous_pt.
    pose proof (us_derive b2 br2 r2 Hb x ltac:(lra)) as Ds. pose proof (up_derive b2 br2 r2 q Hb x ltac:(lra)) as Dp.
    apply is_derive_Reals in Ds. apply is_derive_Reals in Dp.
    apply derivable_pt_minus; [apply derivable_pt_mult; [eexists; exact Dp|apply derivable_pt_id]|].
    apply derivable_pt_minus; [apply derivable_pt_const|eexists; exact Ds].
  - rewrite Rmin_left, Rmax_right in * by lra. pose proof (uk_nonneg b2 br2 r2 Hb Hbr Hr c ltac:(lra)) as K. fold k in K.
    destruct (Hp c ltac:(lra)) as [_ Q]. assert (0 <= (p c + c * k c) * (m2 - m1)).
    { apply Rmult_le_pos; [|lra]. assert (0 <= c * k c) by (apply Rmult_le_pos; lra). lra. } lra.
Qed.
Lemma p_mono m1 m2 : 0 <= m1 -> m1 <= m2 -> p m2 <= p m1.
Proof.
  intros H1 [L|E]; [|rewrite E; lra].
  destruct (MVT_gen p m1 m2 (fun m => - k m)) as (c & [Hc1 Hc2] & E).
  - intros x Hx. rewrite Rmin_left, Rmax_right in Hx by lra. apply (up_derive b2 br2 r2 q Hb). lra.
  - intros x Hx. rewrite Rmin_left, Rmax_right in Hx by lra. apply derivable_continuous_pt. eexists. apply is_derive_Reals. apply (up_derive b2 br2 r2 q Hb). lra.
  - rewrite Rmin_left, Rmax_right in * by lra. pose proof (uk_nonneg b2 br2 r2 Hb Hbr Hr c ltac:(lra)) as K. fold k in K.
    assert (0 <= k c * (m2 - m1)) by (apply Rmult_le_pos; lra). lra.
Qed.
Lemma aeps_mono m1 m2 m : 0 <= m1 -> m1 <= m <= m2 -> s m2 < 1 -> 0 <= p m2 -> p m2 * m2 - (1 - s m2) <= 0 ->
  aeps m2 <= aeps m <= aeps m1.
Proof.
  intros H1 Hm S2 P2 N.
  assert (Sx : forall x, m1 <= x <= m2 -> s x < 1). { intros x Hx. pose proof (us_mono b2 br2 r2 Hb Hbr Hr x m2 ltac:(lra) ltac:(lra)). fold s in H. lra. }
  assert (Q : forall x y, m1 <= x -> x <= y -> y <= m2 -> aeps y <= aeps x).
  { intros x y A [B|B] C; [|rewrite B; lra].
    destruct (MVT_gen aeps x y (fun m => k m / aw m ^ 3 * (p m * m - aw m * aw m))) as (c & [Hc1 Hc2] & E).
    - intros z Hz. rewrite Rmin_left, Rmax_right in Hz by lra. apply aeps_derive; [lra|apply Sx; lra].
    - intros z Hz. rewrite Rmin_left, Rmax_right in Hz by lra. apply derivable_continuous_pt. eexists. apply is_derive_Reals. apply aeps_derive; [lra|apply Sx; lra].
    - rewrite Rmin_left, Rmax_right in * by lra. destruct (aw_range c ltac:(lra) (Sx c ltac:(lra))) as [W W2].
      pose proof (uk_nonneg b2 br2 r2 Hb Hbr Hr c ltac:(lra)) as K. fold k in K.
      assert (Np : p c * c - aw c * aw c <= 0).
      { rewrite W2. pose proof (pm_mono c m2 ltac:(lra) ltac:(lra)) as M. assert (p c * c - (1 - s c) <= p m2 * m2 - (1 - s m2)); [|lra].
        apply M. intros z Hz. split; [apply Sx; lra|]. pose proof (p_mono z m2 ltac:(lra) ltac:(lra)). lra. }
      assert (Kp : 0 <= k c / aw c ^ 3) by (apply Rmult_le_pos; [exact K|left; apply Rinv_0_lt_compat, pow_lt; lra]).
      assert (0 <= k c / aw c ^ 3 * (aw c * aw c - p c * c) * (y - x)) by (apply Rmult_le_pos; [apply Rmult_le_pos; lra|lra]). nra. }
  split; apply Q; lra.
Qed.
Lemma aF_unique m1 m2 flr : 0 < m1 -> m1 <= m2 -> s m2 < 1 -> flr < D * aw m2 -> 0 < aeps m2 -> 0 <= P (D * aw m2) (aeps m2) ->
  (forall rho e, flr < rho -> 0 < e -> causal_at rho e) ->
  aF m1 = 0 -> aF m2 = 0 -> m1 = m2.
Proof.
  intros H1 [L|E] S2 F2 E2 P2 Hc Z1 Z2; [|exact E]. exfalso.
  assert (Sx : forall x, m1 <= x <= m2 -> s x < 1). { intros x Hx. pose proof (us_mono b2 br2 r2 Hb Hbr Hr x m2 ltac:(lra) ltac:(lra)). fold s in H. lra. }
  destruct (aw_range m2 ltac:(lra) S2) as [W2 W2s].
  assert (Pp : 0 <= p m2). { assert (p m2 = (1 + aeps m2) * aw m2) by (unfold aeps; fold p; field; lra). rewrite H. apply Rmult_le_pos; lra. }
  assert (N : p m2 * m2 - (1 - s m2) <= 0).
  { unfold aF in Z2. fold p s in Z2. assert (0 <= m2 * (P (D * aw m2) (aeps m2) / D)).
    { apply Rmult_le_pos; [lra|]. apply Rmult_le_pos; [exact P2|left; apply Rinv_0_lt_compat; lra]. } lra. }
  assert (Hcx : forall x, m1 <= x <= m2 -> causal_at (D * aw x) (aeps x)).
  { intros x Hx. apply Hc.
    - apply Rlt_le_trans with (1 := F2). apply Rmult_le_compat_l; [lra|]. unfold aw. apply sqrt_le_1_alt.
      pose proof (us_mono b2 br2 r2 Hb Hbr Hr x m2 ltac:(lra) ltac:(lra)). lra.
    - pose proof (aeps_mono m1 m2 x ltac:(lra) Hx S2 Pp N). lra. }
  refine (one_zero aF _ m1 m2 L (fun x Hx => aF_derive x ltac:(lra) (Sx x Hx) (Hcx x Hx)) _ Z1 Z2).
  intros x Hx Zx. cbv beta. apply aF_slope; [lra|apply Sx; lra|apply Hcx; lra|exact Zx].
Qed.
End AnyEos.
