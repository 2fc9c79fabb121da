(** WENO5-Z in binary64: the face states are finite. *)
From Coq Require Import ZArith Reals Lra Lia Bool Psatz.
From Flocq Require Import Core BinarySingleNaN Ulp.
From Verif.Model Require Import Num ReconIEEE.
From Verif.Proofs Require Import NumB64 ReconB64 WenoB64.
Local Open Scope R_scope.

Lemma square_nonneg (x : B64) e : fin x e -> (-1074 <= e + e <= 1023)%Z ->
  is_finite (nmul x x) = true /\ 0 <= B2R (nmul x x) <= b2 (e + e).
Proof.
  intros Fx He. pose proof (fin_mul x x e e Fx Fx He) as [F B]. split; [exact F|].
  destruct Fx as [Fx Bx].
  destruct (mul64 x x Fx Fx) as [E _].
  { rewrite Rabs_mult. eapply Rle_trans; [apply Rmult_le_compat; [apply Rabs_pos|apply Rabs_pos|exact Bx|exact Bx]|].
    rewrite <- bpow_plus. apply bpow_le. lia. }
  assert (P : 0 <= B2R (nmul x x)).
  { rewrite E. apply rnd64_ge0. nra. }
  rewrite Rabs_pos_eq in B by exact P. lra.
Qed.

(** fl(fl(c * a) * a) keeps the sign of c *)
Lemma csquare_nonneg (c x : B64) k e : pos c 0 k -> fin x e -> (0 <= k)%Z -> (-1074 <= k + e + e <= 1023)%Z -> (-1074 <= k + e <= 1023)%Z ->
  is_finite (nmul (nmul c x) x) = true /\ 0 <= B2R (nmul (nmul c x) x) <= b2 (k + e + e).
Proof.
  intros Pc Fx Hk H1 H2.
  pose proof (fin_mul c x k e (pos_fin _ _ _ Pc) Fx H2) as F1.
  pose proof (fin_mul (nmul c x) x (k + e) e F1 Fx H1) as [F2 B2]. split; [exact F2|].
  destruct Pc as [Fc [Ac Bc]]. destruct Fx as [Fx Bx]. destruct F1 as [F1 B1].
  destruct (mul64 c x Fc Fx) as [E1 _].
  { rewrite Rabs_mult. eapply Rle_trans; [apply Rmult_le_compat; [apply Rabs_pos|apply Rabs_pos| |exact Bx]|].
    - rewrite Rabs_pos_eq; [exact Bc|]. cbn in Ac; lra.
    - rewrite <- bpow_plus. apply bpow_le. lia. }
  destruct (mul64 (nmul c x) x F1 Fx) as [E2 _].
  { rewrite Rabs_mult. eapply Rle_trans; [apply Rmult_le_compat; [apply Rabs_pos|apply Rabs_pos|exact B1|exact Bx]|].
    rewrite <- bpow_plus. apply bpow_le. lia. }
  assert (P : 0 <= B2R (nmul (nmul c x) x)).
  { rewrite E2, E1. apply rnd64_ge0. cbn in Ac.
    destruct (Rle_or_lt 0 (B2R x)) as [Hx|Hx].
    - apply Rmult_le_pos; [apply rnd64_ge0|]; nra.
    - assert (rnd64 (B2R c * B2R x) <= 0) by (apply rnd64_le0; nra). nra. }
  rewrite Rabs_pos_eq in B2 by exact P. lra.
Qed.

Lemma add_nonneg (x y : B64) e : is_finite x = true -> 0 <= B2R x <= b2 e -> is_finite y = true -> 0 <= B2R y <= b2 e ->
  (-1075 <= e <= 1022)%Z -> is_finite (nadd x y) = true /\ 0 <= B2R (nadd x y) <= b2 (e + 1).
Proof.
  intros Fx Bx Fy By He.
  assert (H0 : 0 <= B2R x + B2R y <= b2 (e + 1)) by (rewrite bp_double; lra).
  destruct (add64 x y Fx Fy) as [E F].
  { rewrite Rabs_pos_eq by lra. eapply Rle_trans; [apply H0|]. apply bpow_le. lia. }
  split; [exact F|]. rewrite E. split; [apply rnd64_ge0; lra|].
  rewrite <- (rnd64_bpow (e + 1)) by lia. apply rnd64_le. lra.
Qed.

Lemma beta_pos (a b : B64) : fin a 83 -> fin b 84 -> pos (g_beta a b) (-333) 171.
Proof.
  intros Fa Fb. unfold g_beta.
  destruct (csquare_nonneg (nlit 13 3) a 3 83) as [F1 B1]; [lit|exact Fa|lia|lia|lia|].
  destruct (square_nonneg b 84 Fb) as [F2 B2]; [lia|].
  destruct (add_nonneg (nmul (nmul (nlit 13 3) a) a) (nmul b b) 169 F1) as [F3 B3]; [exact B1|exact F2| |lia|].
  { split; [apply B2|]. eapply Rle_trans; [apply B2|]. apply bpow_le; lia. }
  apply (pos_add_r (nadd (nmul (nmul (nlit 13 3) a) a) (nmul b b)) g_eps (-333) 170 170 F3 B3); [|lia|lia|lia].
  apply (pos_w _ _ _ _ _ eps_pos); lia.
Qed.

(** (beta + tau) / beta is at least one *)
Lemma ratio_pos (b t : B64) : pos b (-333) 171 -> is_finite t = true -> 0 <= B2R t <= b2 172 ->
  pos (ndiv (nadd b t) b) 0 506.
Proof.
  intros Pb Ft Bt.
  assert (Ps : pos (nadd b t) (-333) 173).
  { apply (pos_add b t (-333) 172 172); try lia; try assumption. apply (pos_w _ _ _ _ _ Pb); lia. }
  pose proof (pos_div _ _ _ _ _ _ Ps Pb ltac:(lia) ltac:(lia)) as [F [_ B]].
  split; [exact F|]. split; [|exact B].
  destruct Pb as [Fb [Ab Bb]]. pose proof (bpow_gt_0 radix2 (-333)) as Q.
  destruct (add64 b t Fb Ft) as [Ea Fa].
  { rewrite Rabs_pos_eq by lra. apply Rle_trans with (b2 173); [|apply bpow_le; lia].
    change 173%Z with (172 + 1)%Z. rewrite bp_double. pose proof (bpow_le radix2 171 172 ltac:(lia)). lra. }
  assert (Ge : B2R b <= B2R (nadd b t)).
  { rewrite Ea, <- (rnd64_B2R b) at 1. apply rnd64_le. lra. }
  assert (Gd : 1 <= B2R (nadd b t) / B2R b).
  { apply Rmult_le_reg_r with (B2R b); [lra|]. unfold Rdiv. rewrite Rmult_assoc, Rinv_l by lra. lra. }
  destruct (div64 (nadd b t) b Fa) as [Ed _].
  { apply Rgt_not_eq. lra. }
  { rewrite Rabs_pos_eq by lra.
    apply Rle_trans with (b2 506); [|apply bpow_le; lia].
    change 506%Z with (173 + 333)%Z. rewrite bpow_plus. unfold Rdiv.
    destruct Ps as [_ [_ Us]].
    apply Rmult_le_compat; [lra|apply Rlt_le, Rinv_0_lt_compat; lra|exact Us|].
    replace (b2 333) with (/ b2 (-333)) by (rewrite <- bpow_opp; reflexivity). apply Rinv_le; lra. }
  rewrite Ed. change (b2 0) with 1.
  replace 1 with (rnd64 (b2 0)) at 1 by (rewrite rnd64_bpow by lia; reflexivity). apply rnd64_le.
  exact Gd.
Qed.

Lemma weight_pos (g b : B64) : pos g (-4) 0 -> pos b 0 506 -> pos (nadd (nmul g b) g_eps) (-4) 507.
Proof.
  intros Pg Pb. pose proof (pos_mul _ _ _ _ _ _ Pg Pb ltac:(lia) ltac:(lia)) as Pm.
  apply (pos_addp _ _ (-4) 506 (-333) (-332)); [exact Pm|exact eps_pos|lia|lia|lia].
Qed.

(** rounding a normal positive number at most doubles or halves it *)
Lemma rnd64_twice x : b2 (-1022) <= x -> x / 2 <= rnd64 x <= 2 * x.
Proof.
  intros H. pose proof (bpow_gt_0 radix2 (-1022)).
  pose proof (rnd64_err x) as E. apply Rabs_le_inv in E. rewrite Rabs_pos_eq in E by lra.
  assert (B1 : b2 (-1075) = b2 (-53) * b2 (-1022)) by (rewrite <- bpow_plus; reflexivity).
  assert (B2 : b2 (-53) <= 1 / 8).
  { apply Rle_trans with (b2 (-3)); [apply bpow_le; lia|]. cbn [bpow]. compute; lra. }
  pose proof (bpow_gt_0 radix2 (-53)). rewrite B1 in E.
  set (b := b2 (-53)) in *. set (c := b2 (-1022)) in *. clearbody b c.
  assert (b * c <= b * x) by (apply Rmult_le_compat_l; lra).
  assert (b * x <= 1 / 8 * x) by (apply Rmult_le_compat_r; lra). lra.
Qed.

Lemma normal x a e : pos x a e -> (-1022 <= a)%Z -> b2 (-1022) <= B2R x.
Proof. intros [_ [A _]] H. pose proof (bpow_le radix2 (-1022) a H). lra. Qed.

Lemma mul_val (x y : B64) a e b f : pos x a e -> pos y b f -> (-1022 <= a + b)%Z -> (e + f <= 1023)%Z ->
  B2R x * B2R y / 2 <= B2R (nmul x y) <= 2 * (B2R x * B2R y).
Proof.
  intros [Fx [Ax Bx]] [Fy [Ay By]] H1 H2.
  pose proof (bpow_gt_0 radix2 a). pose proof (bpow_gt_0 radix2 b).
  assert (L : b2 (a + b) <= B2R x * B2R y <= b2 (e + f)) by (rewrite !bpow_plus; split; apply Rmult_le_compat; lra).
  pose proof (bpow_le radix2 (-1022) (a + b) H1). pose proof (bpow_le radix2 _ _ H2). pose proof (bpow_gt_0 radix2 (a + b)).
  destruct (mul64 x y Fx Fy) as [-> _]; [rewrite Rabs_pos_eq; lra|]. apply rnd64_twice. lra.
Qed.
Lemma div_val (x y : B64) a e b f : pos x a e -> pos y b f -> (-1022 <= a - f)%Z -> (e - b <= 1023)%Z ->
  B2R x / B2R y / 2 <= B2R (ndiv x y) <= 2 * (B2R x / B2R y).
Proof.
  intros [Fx [Ax Bx]] [Fy [Ay By]] H1 H2.
  pose proof (bpow_gt_0 radix2 a). pose proof (bpow_gt_0 radix2 b). pose proof (bpow_gt_0 radix2 f).
  assert (L : b2 (a - f) <= B2R x / B2R y <= b2 (e - b)).
  { unfold Zminus. rewrite !bpow_plus, !bpow_opp. unfold Rdiv.
    assert (/ b2 f <= / B2R y <= / b2 b) by (split; apply Rinv_le; lra).
    assert (0 < / b2 f) by (apply Rinv_0_lt_compat; lra).
    split; apply Rmult_le_compat; lra. }
  pose proof (bpow_le radix2 _ _ H1). pose proof (bpow_le radix2 _ _ H2). pose proof (bpow_gt_0 radix2 (a - f)).
  destruct (div64 x y Fx) as [-> _]; [apply Rgt_not_eq; lra|rewrite Rabs_pos_eq; lra|]. apply rnd64_twice. lra.
Qed.
(** a rounded sum of nonnegative numbers is at least either *)
Lemma add_ge (x y : B64) a e b f : pos x a e -> pos y b f -> (e <= 1022)%Z -> (f <= 1022)%Z ->
  B2R x <= B2R (nadd x y) /\ B2R y <= B2R (nadd x y).
Proof.
  intros [Fx [Ax Bx]] [Fy [Ay By]] He Hf.
  pose proof (bpow_gt_0 radix2 a). pose proof (bpow_gt_0 radix2 b).
  pose proof (bpow_le radix2 _ _ He). pose proof (bpow_le radix2 _ _ Hf).
  assert (b2 1023 = 2 * b2 1022) by apply (bp_double 1022).
  destruct (add64 x y Fx Fy) as [E _]; [rewrite Rabs_pos_eq; lra|].
  rewrite E. split; [rewrite <- (rnd64_B2R x) at 1|rewrite <- (rnd64_B2R y) at 1]; apply rnd64_le; lra.
Qed.

Lemma wsum_pos (w0 w1 w2 : B64) : pos w0 (-4) 507 -> pos w1 (-4) 507 -> pos w2 (-4) 507 ->
  pos (ndiv (nlit 1 1) (nadd (nadd w0 w1) w2)) (-509) 4 /\
  B2R (ndiv (nlit 1 1) (nadd (nadd w0 w1) w2)) <= 2 / B2R w0.
Proof.
  intros P0 P1 P2.
  pose proof (pos_addp _ _ _ _ _ _ P0 P1 ltac:(lia) ltac:(lia) ltac:(lia)) as P01. cbn [Z.add Z.pos_sub] in P01.
  pose proof (pos_addp _ _ _ _ _ _ P01 P2 ltac:(lia) ltac:(lia) ltac:(lia)) as Ps.
  assert (L1 : pos (nlit 1 1) 0 0) by lit.
  pose proof (pos_div _ _ _ _ _ _ L1 Ps ltac:(lia) ltac:(lia)) as Pw.
  pose proof (div_val _ _ _ _ _ _ L1 Ps ltac:(lia) ltac:(lia)) as [_ V].
  split; [apply (pos_w _ _ _ _ _ Pw); lia|].
  pose proof (add_ge _ _ _ _ _ _ P0 P1 ltac:(lia) ltac:(lia)) as [G1 _].
  pose proof (add_ge _ _ _ _ _ _ P01 P2 ltac:(lia) ltac:(lia)) as [G2 _].
  destruct P0 as [_ [A0 _]]. pose proof (bpow_gt_0 radix2 (-4)).
  eapply Rle_trans; [exact V|]. rewrite B2R_lit_one. unfold Rdiv.
  assert (/ B2R (nadd (nadd w0 w1) w2) <= / B2R w0) by (apply Rinv_le; lra). lra.
Qed.

Lemma alpha_pos (w0 w1 w2 : B64) : pos w0 (-4) 507 -> pos w1 (-4) 507 -> pos w2 (-4) 507 ->
  pos (g_alpha w0 w1 w2) (-333) 15.
Proof.
  intros P0 P1 P2. unfold g_alpha.
  destruct (wsum_pos w0 w1 w2 P0 P1 P2) as [Pw Vw].
  set (wsum := ndiv (nlit 1 1) (nadd (nadd w0 w1) w2)) in *. clearbody wsum.
  pose proof (bpow_gt_0 radix2 (-4)) as Q4.
  assert (W0 : 0 < B2R w0) by (destruct P0 as [_ [A _]]; lra).
  assert (W1 : 0 < B2R w1) by (destruct P1 as [_ [A _]]; lra).
  assert (W2 : 0 < B2R w2) by (destruct P2 as [_ [A _]]; lra).
  assert (L3 : pos (nlit 3 1) 1 2) by lit.
  (* 3 * wsum *)
  pose proof (pos_mul _ _ _ _ _ _ L3 Pw ltac:(lia) ltac:(lia)) as Pt1.
  pose proof (mul_val _ _ _ _ _ _ L3 Pw ltac:(lia) ltac:(lia)) as [_ V1].
  set (t1 := nmul (nlit 3 1) wsum) in *. clearbody t1.
  assert (V1' : B2R t1 <= 16 / B2R w0).
  { destruct L3 as [_ [A3 U3]]. change (b2 2) with 4 in U3. change (b2 1) with 2 in A3.
    eapply Rle_trans; [exact V1|].
    assert (0 < B2R wsum) by (destruct Pw as [_ [A _]]; pose proof (bpow_gt_0 radix2 (-509)); lra).
    set (l3 := B2R (nlit 3 1 : B64)) in *. clearbody l3.
    assert (l3 * B2R wsum <= 4 * (2 / B2R w0)) by (apply Rmult_le_compat; lra).
    unfold Rdiv in *. lra. }
  (* * w0 *)
  pose proof (pos_mul _ _ _ _ _ _ Pt1 P0 ltac:(lia) ltac:(lia)) as Pt2.
  pose proof (mul_val _ _ _ _ _ _ Pt1 P0 ltac:(lia) ltac:(lia)) as [_ V2].
  set (t2 := nmul t1 w0) in *. clearbody t2.
  assert (V2' : B2R t2 <= b2 5).
  { change (b2 5) with 32. eapply Rle_trans; [exact V2|].
    assert (B2R t1 * B2R w0 <= 16 / B2R w0 * B2R w0) by (apply Rmult_le_compat_r; lra).
    assert (E : 16 / B2R w0 * B2R w0 = 16) by (field; lra). lra. }
  assert (Pt2' : pos t2 (-512) 5).
  { destruct Pt2 as [F [A _]]. split; [exact F|]. split; [|exact V2'].
    eapply Rle_trans; [|exact A]. apply bpow_le. lia. }
  (* * w1 *)
  pose proof (pos_mul _ _ _ _ _ _ Pt2' P1 ltac:(lia) ltac:(lia)) as Pt3.
  pose proof (mul_val _ _ _ _ _ _ Pt2' P1 ltac:(lia) ltac:(lia)) as [_ V3].
  set (t3 := nmul t2 w1) in *. clearbody t3.
  assert (V3' : B2R t3 <= 64 * B2R w1).
  { change (b2 5) with 32 in V2'. eapply Rle_trans; [exact V3|].
    assert (B2R t2 * B2R w1 <= 32 * B2R w1) by (apply Rmult_le_compat_r; lra). lra. }
  (* * w2 *)
  pose proof (pos_mul _ _ _ _ _ _ Pt3 P2 ltac:(lia) ltac:(lia)) as Pt4.
  pose proof (mul_val _ _ _ _ _ _ Pt3 P2 ltac:(lia) ltac:(lia)) as [_ V4].
  set (t4 := nmul t3 w2) in *. clearbody t4.
  assert (V4' : B2R t4 <= 128 * (B2R w1 * B2R w2)).
  { eapply Rle_trans; [exact V4|].
    assert (B2R t3 * B2R w2 <= 64 * B2R w1 * B2R w2) by (apply Rmult_le_compat_r; lra). lra. }
  (* denominator *)
  assert (G3 : pos (nlit 3 10) (-4) 0) by lit. assert (G6 : pos (nlit 6 10) (-4) 0) by lit.
  assert (G1 : pos (nlit 1 10) (-4) 0) by lit.
  pose proof (pos_mul _ _ _ _ _ _ G3 P0 ltac:(lia) ltac:(lia)) as Pa.
  pose proof (pos_mul _ _ _ _ _ _ Pa P1 ltac:(lia) ltac:(lia)) as Pa'.
  pose proof (pos_mul _ _ _ _ _ _ G6 P0 ltac:(lia) ltac:(lia)) as Pb.
  pose proof (pos_mul _ _ _ _ _ _ Pb P2 ltac:(lia) ltac:(lia)) as Pb'.
  pose proof (pos_mul _ _ _ _ _ _ G1 P1 ltac:(lia) ltac:(lia)) as Pc.
  pose proof (mul_val _ _ _ _ _ _ G1 P1 ltac:(lia) ltac:(lia)) as [Vc _].
  pose proof (pos_mul _ _ _ _ _ _ Pc P2 ltac:(lia) ltac:(lia)) as Pc'.
  pose proof (mul_val _ _ _ _ _ _ Pc P2 ltac:(lia) ltac:(lia)) as [Vc' _].
  set (d1 := nmul (nmul (nlit 3 10) w0) w1) in *. set (d2 := nmul (nmul (nlit 6 10) w0) w2) in *.
  set (c1 := nmul (nlit 1 10) w1) in *. set (d3 := nmul c1 w2) in *.
  pose proof (pos_addp _ _ _ _ _ _ Pa' Pb' ltac:(lia) ltac:(lia) ltac:(lia)) as Pd.
  pose proof (pos_addp _ _ _ _ _ _ Pd Pc' ltac:(lia) ltac:(lia) ltac:(lia)) as Pden.
  pose proof (add_ge _ _ _ _ _ _ Pd Pc' ltac:(lia) ltac:(lia)) as [_ Gd].
  set (den := nadd (nadd d1 d2) d3) in *.
  assert (Vd : B2R w1 * B2R w2 / 64 <= B2R den).
  { eapply Rle_trans; [|exact Gd]. eapply Rle_trans; [|exact Vc'].
    destruct G1 as [_ [A1 _]]. change (b2 (-4)) with (/ 16) in A1.
    assert (C1 : B2R w1 / 32 <= B2R c1).
    { eapply Rle_trans; [|exact Vc]. assert (/ 16 * B2R w1 <= B2R (nlit 1 10 : B64) * B2R w1) by (apply Rmult_le_compat_r; lra). lra. }
    assert (B2R w1 / 32 * B2R w2 <= B2R c1 * B2R w2) by (apply Rmult_le_compat_r; lra). lra. }
  clearbody den.
  assert (Dp : 0 < B2R den) by (pose proof (Rmult_lt_0_compat _ _ W1 W2); lra).
  assert (Tp : 0 < B2R t4) by (destruct Pt4 as [_ [A _]]; eapply Rlt_le_trans; [|exact A]; apply bpow_gt_0).
  assert (Qb : 0 <= B2R t4 / B2R den <= b2 13).
  { change (b2 13) with 8192. split; [apply Rlt_le, Rdiv_lt_0_compat; assumption|].
    apply Rmult_le_reg_r with (B2R den); [exact Dp|]. unfold Rdiv. rewrite Rmult_assoc, Rinv_l by lra. lra. }
  destruct Pt4 as [Ft4 _].
  destruct (div64 t4 den Ft4) as [Eq Fq].
  { apply Rgt_not_eq, Dp. }
  { rewrite Rabs_pos_eq by apply Qb. eapply Rle_trans; [apply Qb|]. apply bpow_le; lia. }
  apply (pos_add_r (ndiv t4 den) g_eps (-333) 14 13 Fq); [|apply (pos_w _ _ _ _ _ eps_pos); lia|lia|lia|lia].
  rewrite Eq. split; [apply rnd64_ge0, Qb|].
  rewrite <- (rnd64_bpow 13) by lia. apply rnd64_le, Qb.
Qed.

Ltac fw := first [eassumption | lit].
Lemma parab_fin (c0 c1 c2 p0 p1 p2 : B64) :
  fin c0 1 -> fin c1 1 -> fin c2 1 -> fin p0 80 -> fin p1 80 -> fin p2 80 ->
  fin (nadd (nadd (nmul c0 p0) (nmul c1 p1)) (nmul c2 p2)) 83.
Proof.
  intros C0 C1 C2 P0 P1 P2.
  pose proof (fin_mul _ _ _ _ C0 P0 ltac:(lia)) as M0. pose proof (fin_mul _ _ _ _ C1 P1 ltac:(lia)) as M1.
  pose proof (fin_mul _ _ _ _ C2 P2 ltac:(lia)) as M2.
  pose proof (fin_add _ _ _ M0 M1 ltac:(lia)) as S1.
  apply (fin_add _ _ 82); [exact S1|apply (fin_w _ _ _ M2); lia|lia].
Qed.

Lemma face_fin (w0 w1 w2 p0 p1 p2 p3 p4 : B64) :
  pos w0 (-4) 507 -> pos w1 (-4) 507 -> pos w2 (-4) 507 ->
  fin p0 80 -> fin p1 80 -> fin p2 80 -> fin p3 80 -> fin p4 80 ->
  fin (g_face w0 w1 w2 p0 p1 p2 p3 p4) 596.
Proof.
  intros P0 P1 P2 Q0 Q1 Q2 Q3 Q4. unfold g_face.
  destruct (wsum_pos w0 w1 w2 P0 P1 P2) as [Pw _].
  assert (A : fin (nadd (nadd (nmul (nlit 1 3) p0) (nmul (nlit (-7) 6) p1)) (nmul (nlit 11 6) p2)) 83)
    by (apply parab_fin; first [assumption|lit]).
  assert (B : fin (nadd (nadd (nmul (nlit (-1) 6) p1) (nmul (nlit 5 6) p2)) (nmul (nlit 1 3) p3)) 83)
    by (apply parab_fin; first [assumption|lit]).
  assert (C : fin (nadd (nadd (nmul (nlit 1 3) p2) (nmul (nlit 5 6) p3)) (nmul (nlit (-1) 6) p4)) 83)
    by (apply parab_fin; first [assumption|lit]).
  pose proof (fin_mul _ _ _ _ (pos_fin _ _ _ P0) A ltac:(lia)) as M0.
  pose proof (fin_mul _ _ _ _ (pos_fin _ _ _ P1) B ltac:(lia)) as M1.
  pose proof (fin_mul _ _ _ _ (pos_fin _ _ _ P2) C ltac:(lia)) as M2.
  pose proof (fin_add _ _ _ M0 M1 ltac:(lia)) as S1.
  pose proof (fin_add _ _ 591 S1 (fin_w _ _ 591 M2 ltac:(lia)) ltac:(lia)) as S2.
  apply (fin_mul _ _ 592 4 S2 (pos_fin _ _ _ Pw)). lia.
Qed.

Lemma fin_min x y e : fin x e -> fin y e -> fin (std_min x y) e.
Proof. intros X Y. unfold std_min. destruct (nlt y x); assumption. Qed.
Lemma fin_copysign x s e : fin x e -> fin (copysign64 x s) e.
Proof.
  intros [F B]. unfold copysign64. destruct (Bsign s).
  - split; [rewrite is_finite_Bopp, is_finite_Babs; exact F|]. rewrite B2R_Bopp, B2R_Babs, Rabs_Ropp, Rabs_Rabsolu. exact B.
  - split; [rewrite is_finite_Babs; exact F|]. rewrite B2R_Babs, Rabs_Rabsolu. exact B.
Qed.

Lemma mc_fin (dm dp : B64) : fin dm 81 -> fin dp 81 -> fin (g_mc copysign64 dm dp (nlit 2 1)) 82.
Proof.
  intros Fm Fp. unfold g_mc. apply fin_copysign. apply fin_min.
  - apply fin_abs.
    assert (Fl : fin ((if nlt (nlit 0 1) (nmul dm dp) then nlit 1 1 else nlit 0 1) : B64) 0)
      by (destruct (nlt _ _); lit).
    assert (Hh : fin (nlit 1 2) 0) by lit.
    pose proof (fin_mul _ _ _ _ Fl Hh ltac:(lia)) as F1.
    pose proof (fin_add _ _ _ Fm Fp ltac:(lia)) as F2.
    apply (fin_mul _ _ 0 82 F1 F2). lia.
  - assert (H2 : fin (nlit 2 1) 1) by lit.
    apply (fin_mul _ _ 1 81 H2); [|lia]. apply fin_min; apply fin_abs; assumption.
Qed.

Lemma blend_fin (al q c : B64) : pos al (-681) 364 -> fin q 596 -> fin c 84 ->
  fin (nadd (nmul al q) (nmul (nsub (nlit 1 1) al) c)) 961.
Proof.
  intros Pa Q C.
  pose proof (fin_mul _ _ _ _ (pos_fin _ _ _ Pa) Q ltac:(lia)) as M.
  assert (L1 : fin (nlit 1 1) 364) by lit.
  pose proof (fin_sub _ _ _ L1 (pos_fin _ _ _ Pa) ltac:(lia)) as S1.
  pose proof (fin_mul _ _ _ _ S1 C ltac:(lia)) as M2.
  apply (fin_add _ _ 960 M); [apply (fin_w _ _ _ M2); lia|lia].
Qed.

Lemma alpha_lin_pos (al ar : B64) : pos al (-333) 15 -> pos ar (-333) 15 ->
  pos (ndiv (nmul (nmul (nlit 2 1) al) ar) (nadd al ar)) (-681) 364.
Proof.
  intros Pl Pr.
  assert (L2 : pos (nlit 2 1) 1 1) by lit.
  pose proof (pos_mul _ _ _ _ _ _ L2 Pl ltac:(lia) ltac:(lia)) as M1.
  pose proof (pos_mul _ _ _ _ _ _ M1 Pr ltac:(lia) ltac:(lia)) as M2.
  pose proof (pos_addp _ _ _ _ _ _ Pl Pr ltac:(lia) ltac:(lia) ltac:(lia)) as A.
  pose proof (pos_div _ _ _ _ _ _ M2 A ltac:(lia) ltac:(lia)) as D.
  apply (pos_w _ _ _ _ _ D); lia.
Qed.

Lemma diff3_fin (x y z : B64) : fin x 80 -> fin y 80 -> fin z 80 ->
  fin (nadd (nsub x (nmul (nlit 2 1) y)) z) 83.
Proof.
  intros X Y Z. assert (L : fin (nlit 2 1) 1) by lit.
  pose proof (fin_mul _ _ _ _ L Y ltac:(lia)) as M.
  pose proof (fin_sub _ _ 81 (fin_w _ _ 81 X ltac:(lia)) M ltac:(lia)) as S1.
  apply (fin_add _ _ 82 S1); [apply (fin_w _ _ _ Z); lia|lia].
Qed.
Lemma diff4_fin (x y z : B64) : fin x 80 -> fin y 80 -> fin z 80 ->
  fin (nadd (nsub x (nmul (nlit 4 1) y)) (nmul (nlit 3 1) z)) 84.
Proof.
  intros X Y Z. assert (L : fin (nlit 4 1) 2) by lit. assert (L3 : fin (nlit 3 1) 2) by lit.
  pose proof (fin_mul _ _ _ _ L Y ltac:(lia)) as M. pose proof (fin_mul _ _ _ _ L3 Z ltac:(lia)) as M3.
  pose proof (fin_sub _ _ 82 (fin_w _ _ 82 X ltac:(lia)) M ltac:(lia)) as S1.
  apply (fin_add _ _ 83 S1); [apply (fin_w _ _ _ M3); lia|lia].
Qed.

Section Unfold.
  Context {T : Type} `{Num T}.
  Variable csign : T -> T -> T.
  Lemma weno_cases (q0 q1 q2 q3 q4 : T) (P : T * T -> Prop) :
    (forall be0 be1 be2 tau r0 r1 r2 w0 w1 w2 v0 v2 fl fr al ar dq alin,
      be0 = g_beta (nadd (nsub q0 (nmul (nlit 2 1) q1)) q2) (nadd (nsub q0 (nmul (nlit 4 1) q1)) (nmul (nlit 3 1) q2)) ->
      be1 = g_beta (nadd (nsub q1 (nmul (nlit 2 1) q2)) q3) (nsub q3 q1) ->
      be2 = g_beta (nadd (nsub q2 (nmul (nlit 2 1) q3)) q4) (nadd (nsub q4 (nmul (nlit 4 1) q3)) (nmul (nlit 3 1) q2)) ->
      tau = nabs (nsub be2 be0) ->
      r0 = ndiv (nadd be0 tau) be0 -> r1 = ndiv (nadd be1 tau) be1 -> r2 = ndiv (nadd be2 tau) be2 ->
      w0 = nadd (nmul (nlit 1 10) r0) g_eps -> w1 = nadd (nmul (nlit 6 10) r1) g_eps ->
      w2 = nadd (nmul (nlit 3 10) r2) g_eps ->
      v0 = nadd (nmul (nlit 1 10) r2) g_eps -> v2 = nadd (nmul (nlit 3 10) r0) g_eps ->
      fl = g_face w0 w1 w2 q0 q1 q2 q3 q4 -> fr = g_face v0 w1 v2 q4 q3 q2 q1 q0 ->
      al = g_alpha w0 w1 w2 -> ar = g_alpha v0 w1 v2 ->
      dq = g_mc csign (nsub q2 q1) (nsub q3 q2) (nlit 2 1) ->
      alin = ndiv (nmul (nmul (nlit 2 1) al) ar) (nadd al ar) ->
      P (nadd (nmul alin fl) (nmul (nsub (nlit 1 1) alin) (nadd q2 (nmul (nlit 1 2) dq))),
         nadd (nmul alin fr) (nmul (nsub (nlit 1 1) alin) (nsub q2 (nmul (nlit 1 2) dq))))) ->
    P (g_WENO5Z csign q0 q1 q2 q3 q4).
  Proof. intros HP. unfold g_WENO5Z. cbv zeta. eapply HP; reflexivity. Qed.
End Unfold.

Lemma weno64_finite (q0 q1 q2 q3 q4 : B64) :
  fin q0 80 -> fin q1 80 -> fin q2 80 -> fin q3 80 -> fin q4 80 ->
  fin (fst (WENO5Z64 q0 q1 q2 q3 q4)) 961 /\ fin (snd (WENO5Z64 q0 q1 q2 q3 q4)) 961.
Proof.
  intros F0 F1 F2 F3 F4. unfold WENO5Z64.
  apply (weno_cases copysign64 q0 q1 q2 q3 q4 (fun p => fin (fst p) 961 /\ fin (snd p) 961)).
  intros be0 be1 be2 tau r0 r1 r2 w0 w1 w2 v0 v2 fl fr al ar dq alin
    E0 E1 E2 Et Er0 Er1 Er2 Ew0 Ew1 Ew2 Ev0 Ev2 Efl Efr Eal Ear Edq Ealin. cbn [fst snd].
  pose proof (beta_pos _ _ (diff3_fin q0 q1 q2 F0 F1 F2) (diff4_fin q0 q1 q2 F0 F1 F2)) as B0.
  pose proof (fin_sub _ _ _ F3 F1 ltac:(lia)) as D31.
  pose proof (beta_pos _ _ (diff3_fin q1 q2 q3 F1 F2 F3) (fin_w _ _ 84 D31 ltac:(lia))) as B1.
  pose proof (beta_pos _ _ (diff3_fin q2 q3 q4 F2 F3 F4) (diff4_fin q4 q3 q2 F4 F3 F2)) as B2.
  rewrite <- E0 in B0. rewrite <- E1 in B1. rewrite <- E2 in B2. clear E0 E1 E2.
  pose proof (fin_abs _ _ (fin_sub _ _ _ (pos_fin _ _ _ B2) (pos_fin _ _ _ B0) ltac:(lia))) as [Ft Bt].
  assert (Bt' : 0 <= B2R (nabs (nsub be2 be0)) <= b2 172).
  { assert (P : 0 <= B2R (nabs (nsub be2 be0))) by (cbn [nabs Num_B64]; rewrite B2R_Babs; apply Rabs_pos).
    rewrite Rabs_pos_eq in Bt by exact P. split; [exact P|exact Bt]. }
  rewrite <- Et in Ft, Bt'. clear Et Bt.
  pose proof (ratio_pos be0 tau B0 Ft Bt') as R0. pose proof (ratio_pos be1 tau B1 Ft Bt') as R1.
  pose proof (ratio_pos be2 tau B2 Ft Bt') as R2.
  rewrite <- Er0 in R0. rewrite <- Er1 in R1. rewrite <- Er2 in R2. clear Er0 Er1 Er2.
  assert (G3 : pos (nlit 3 10) (-4) 0) by lit. assert (G6 : pos (nlit 6 10) (-4) 0) by lit.
  assert (G1 : pos (nlit 1 10) (-4) 0) by lit.
  pose proof (weight_pos _ _ G1 R0) as W0. pose proof (weight_pos _ _ G6 R1) as W1. pose proof (weight_pos _ _ G3 R2) as W2.
  pose proof (weight_pos _ _ G1 R2) as V0. pose proof (weight_pos _ _ G3 R0) as V2.
  rewrite <- Ew0 in W0. rewrite <- Ew1 in W1. rewrite <- Ew2 in W2. rewrite <- Ev0 in V0. rewrite <- Ev2 in V2.
  clear Ew0 Ew1 Ew2 Ev0 Ev2.
  pose proof (face_fin _ _ _ _ _ _ _ _ W0 W1 W2 F0 F1 F2 F3 F4) as FL.
  pose proof (face_fin _ _ _ _ _ _ _ _ V0 W1 V2 F4 F3 F2 F1 F0) as FR.
  pose proof (alpha_pos _ _ _ W0 W1 W2) as AL. pose proof (alpha_pos _ _ _ V0 W1 V2) as AR.
  rewrite <- Efl in FL. rewrite <- Efr in FR. rewrite <- Eal in AL. rewrite <- Ear in AR. clear Efl Efr Eal Ear.
  pose proof (alpha_lin_pos _ _ AL AR) as AA. rewrite <- Ealin in AA. clear Ealin.
  pose proof (mc_fin _ _ (fin_sub _ _ _ F2 F1 ltac:(lia)) (fin_sub _ _ _ F3 F2 ltac:(lia))) as DQ.
  rewrite <- Edq in DQ. clear Edq.
  assert (Lh : fin (nlit 1 2) 0) by lit.
  pose proof (fin_mul _ _ _ _ Lh DQ ltac:(lia)) as HD.
  pose proof (fin_add _ _ 82 (fin_w _ _ 82 F2 ltac:(lia)) HD ltac:(lia)) as CP.
  pose proof (fin_sub _ _ 82 (fin_w _ _ 82 F2 ltac:(lia)) HD ltac:(lia)) as CM.
  pose proof (blend_fin _ _ _ AA FL (fin_w _ _ 84 CP ltac:(lia))) as X1.
  pose proof (blend_fin _ _ _ AA FR (fin_w _ _ 84 CM ltac:(lia))) as X2.
  split; [exact X1|exact X2].
Qed.
