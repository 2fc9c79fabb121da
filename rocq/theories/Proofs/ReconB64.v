(** Rounding analysis of the limited linear reconstruction in binary64. *)
From Coq Require Import ZArith Reals Lra Lia Bool Psatz.
From Flocq Require Import Core BinarySingleNaN Ulp Relative Plus_error Sterbenz.
From Verif.Model Require Import Num ReconIEEE.
From Verif.Proofs Require Import NumB64.
Local Open Scope R_scope.

Lemma sub64 (x y : B64) :
  is_finite x = true -> is_finite y = true -> Rabs (B2R x - B2R y) <= bpow radix2 1023 ->
  B2R (nsub x y) = rnd64 (B2R x - B2R y) /\ is_finite (nsub x y) = true.
Proof.
  intros Fx Fy H.
  generalize (Bminus_correct prec64 emax64 _ _ mode_NE x y Fx Fy).
  change (round radix2 fexp64 (round_mode mode_NE)) with rnd64.
  rewrite rnd64_overflow_free by exact H.
  intros (E1 & E2 & _). split; assumption.
Qed.

Lemma rnd64_0 : rnd64 0 = 0.
Proof. apply round_0; auto with typeclass_instances. Qed.
Lemma rnd64_ge0 x : 0 <= x -> 0 <= rnd64 x.
Proof. intros H. rewrite <- rnd64_0. apply rnd64_le, H. Qed.
Lemma rnd64_le0 x : x <= 0 -> rnd64 x <= 0.
Proof. intros H. rewrite <- rnd64_0. apply rnd64_le, H. Qed.
Lemma rnd64_format x : generic_format radix2 fexp64 x -> rnd64 x = x.
Proof. intros. apply round_generic; auto with typeclass_instances. Qed.
Lemma format_rnd64 x : generic_format radix2 fexp64 (rnd64 x).
Proof. apply generic_format_round; auto with typeclass_instances. Qed.

(** every rounding moves a number by at most 2^-53 of itself plus half the smallest double *)
Lemma rnd64_err x : Rabs (rnd64 x - x) <= bpow radix2 (-53) * Rabs x + bpow radix2 (-1075).
Proof.
  destruct (error_N_FLT radix2 (-1074) 53 eq_refl (fun n => negb (Z.even n)) x) as [e [u [He [Hu [_ E]]]]].
  assert (R64 : rnd64 x = x * (1 + e) + u).
  { unfold rnd64. rewrite <- E. apply round_ext. reflexivity. }
  rewrite R64. replace (x * (1 + e) + u - x) with (e * x + u) by ring.
  eapply Rle_trans; [apply Rabs_triang|].
  apply Rplus_le_compat.
  - rewrite Rabs_mult. apply Rmult_le_compat_r; [apply Rabs_pos|].
    eapply Rle_trans; [exact He|]. unfold u_ro. apply Req_le. change (-53)%Z with (-1 + (-53 + 1))%Z.
    rewrite (bpow_plus radix2 (-1)). cbn [bpow]. reflexivity.
  - eapply Rle_trans; [exact Hu|]. apply Req_le. change (-1075)%Z with (-1 + -1074)%Z.
    rewrite (bpow_plus radix2 (-1)). cbn -[bpow Rmult Z.add]. reflexivity.
Qed.

Lemma rnd64_up x : 0 <= x -> bpow radix2 (-1022) <= x -> rnd64 x <= (1 + bpow radix2 (-52)) * x.
Proof.
  intros H0 Hx. pose proof (rnd64_err x) as E. apply Rabs_le_inv in E. rewrite Rabs_pos_eq in E by exact H0.
  assert (B1 : bpow radix2 (-1075) = bpow radix2 (-53) * bpow radix2 (-1022)) by (rewrite <- bpow_plus; reflexivity).
  assert (B2 : bpow radix2 (-52) = 2 * bpow radix2 (-53)).
  { change 2 with (bpow radix2 1). rewrite <- bpow_plus. reflexivity. }
  pose proof (bpow_gt_0 radix2 (-53)). rewrite B1 in E. rewrite B2.
  set (b := bpow radix2 (-53)) in *. set (c := bpow radix2 (-1022)) in *.
  assert (b * c <= b * x) by (apply Rmult_le_compat_l; lra). lra.
Qed.

(** halving the limited slope and adding it never passes the neighbour, with all
    four roundings *)
Lemma lim_step (x y s : R) :
  generic_format radix2 fexp64 x -> generic_format radix2 fexp64 y -> x <= y ->
  0 <= s -> s <= rnd64 (3 / 2 * rnd64 (y - x)) ->
  x <= rnd64 (x + rnd64 (/ 2 * s)) <= y.
Proof.
  intros Fx Fy Hxy Hs Hb.
  assert (Hd : 0 <= rnd64 (y - x)) by (apply rnd64_ge0; lra).
  assert (Hh : 0 <= rnd64 (/ 2 * s)) by (apply rnd64_ge0; lra).
  split.
  { rewrite <- (rnd64_format x Fx) at 1. apply rnd64_le. lra. }
  rewrite <- (rnd64_format y Fy). apply rnd64_le.
  enough (rnd64 (/ 2 * s) <= y - x) by lra.
  destruct (Rle_or_lt (rnd64 (y - x)) (y - x)) as [Hc|Hc].
  - (* the difference rounded down: 1.5 d rounds to at most 2 d *)
    assert (D2 : rnd64 (2 * rnd64 (y - x)) = 2 * rnd64 (y - x)).
    { apply rnd64_format. pose proof (format_rnd64 (y - x)) as G.
      change fexp64 with (FLT_exp (-1074) 53) in *.
      apply FLT_format_generic in G; [|reflexivity].
      destruct G as [[n e] Ef Hn He]. cbn [Fnum Fexp] in *.
      apply generic_format_FLT.
      exists (Float radix2 n (e + 1)); cbn [Fnum Fexp]; [|exact Hn|lia].
      rewrite Ef. unfold F2R; cbn [Fnum Fexp]. rewrite bpow_plus. cbn. lra. }
    assert (S2 : s <= 2 * rnd64 (y - x)).
    { eapply Rle_trans; [exact Hb|]. rewrite <- D2. apply rnd64_le. lra. }
    eapply Rle_trans; [|exact Hc].
    rewrite <- (rnd64_format (rnd64 (y - x)) (format_rnd64 _)). apply rnd64_le. lra.
  - (* rounded up: it is not exact, so the numbers are normal and relative errors are tiny *)
    assert (Hbig : bpow radix2 (-1021) < y - x).
    { apply Rnot_le_lt. intros Hsm.
      apply (Rlt_irrefl (y - x)). rewrite <- (rnd64_format (y - x)) at 2; [exact Hc|].
      change fexp64 with (FLT_exp (-1074) 53).
      replace (y - x) with (y + - x) by ring.
      apply FLT_format_plus_small; [reflexivity|exact Fy|apply generic_format_opp, Fx|].
      rewrite Rabs_pos_eq by lra. change (53 + -1074)%Z with (-1021)%Z. lra. }
    assert (Hb1 : bpow radix2 (-1022) <= bpow radix2 (-1021)) by (apply bpow_le; lia).
    assert (E52 : bpow radix2 (-52) <= 1 / 100).
    { apply Rle_trans with (bpow radix2 (-7)); [apply bpow_le; lia|]. cbn [bpow]. compute; lra. }
    pose proof (rnd64_up (y - x) ltac:(lra) ltac:(lra)) as U1.
    pose proof (rnd64_up (3 / 2 * rnd64 (y - x)) ltac:(lra) ltac:(lra)) as U2.
    set (d := rnd64 (y - x)) in *. set (e := bpow radix2 (-52)) in *.
    assert (He : 0 < e) by apply bpow_gt_0.
    assert (Hd1 : d <= 101 / 100 * (y - x)) by nra.
    assert (Hs1 : s <= 101 / 100 * (3 / 2 * d)) by nra.
    assert (Hs2 : / 2 * s <= 9 / 10 * (y - x)) by lra.
    destruct (Rle_or_lt (bpow radix2 (-1022)) (/ 2 * s)) as [Hn|Hn].
    + pose proof (rnd64_up (/ 2 * s) ltac:(lra) Hn) as U3. fold e in U3. clearbody d e.
      assert (H3 : e * (/ 2 * s) <= 1 / 100 * (/ 2 * s)) by (apply Rmult_le_compat_r; lra). lra.
    + apply Rle_trans with (rnd64 (bpow radix2 (-1022))); [apply rnd64_le; lra|].
      rewrite rnd64_bpow by lia. lra.
Qed.

Definition btw (a b x : R) : Prop := Rmin a b <= x <= Rmax a b.

Lemma lim_step_signed (x y s : R) :
  generic_format radix2 fexp64 x -> generic_format radix2 fexp64 y ->
  (x <= y /\ 0 <= s \/ y <= x /\ s <= 0) ->
  Rabs s <= rnd64 (3 / 2 * Rabs (rnd64 (y - x))) ->
  btw x y (rnd64 (x + rnd64 (/ 2 * s))).
Proof.
  intros Fx Fy [[H1 H2]|[H1 H2]] Hb; unfold btw.
  - assert (0 <= rnd64 (y - x)) by (apply rnd64_ge0; lra).
    rewrite (Rabs_pos_eq s), (Rabs_pos_eq (rnd64 _)) in Hb by lra.
    rewrite Rmin_left, Rmax_right by lra. apply lim_step; assumption.
  - assert (rnd64 (y - x) <= 0) by (apply rnd64_le0; lra).
    rewrite (Rabs_left1 s), (Rabs_left1 (rnd64 _)) in Hb by lra.
    rewrite Rmin_right, Rmax_left by lra.
    assert (L : - x <= rnd64 (- x + rnd64 (/ 2 * - s)) <= - y).
    { apply lim_step; [apply generic_format_opp, Fx|apply generic_format_opp, Fy|lra|lra|].
      replace (- y - - x) with (- (y - x)) by ring. rewrite rnd64_opp. exact Hb. }
    replace (/ 2 * - s) with (- (/ 2 * s)) in L by ring. rewrite rnd64_opp in L.
    replace (- x + - rnd64 (/ 2 * s)) with (- (x + rnd64 (/ 2 * s))) in L by ring.
    rewrite rnd64_opp in L. lra.
Qed.

(** a positive floating-point product means equal signs, even if it overflows *)
Lemma pos_product (x y : B64) :
  is_finite x = true -> is_finite y = true -> nlt (nlit 0 1) (nmul x y) = true ->
  0 < B2R x /\ 0 < B2R y \/ B2R x < 0 /\ B2R y < 0.
Proof.
  intros Fx Fy H. change (nlit 0 1 : B64) with (nzero : B64) in H. rewrite zero_eq in H.
  cbn [nmul nlt Num_B64] in H.
  destruct x as [sx| | |sx mx ex Bx]; try discriminate Fx;
  destruct y as [sy| | |sy my ey By]; try discriminate Fy.
  1: destruct sx, sy; discriminate H.
  1: destruct sx, sy; discriminate H.
  1: destruct sx, sy; discriminate H.
  generalize (Bmult_correct prec64 emax64 _ _ mode_NE (B754_finite sx mx ex Bx) (B754_finite sy my ey By)).
  set (p := Bmult mode_NE (B754_finite sx mx ex Bx) (B754_finite sy my ey By)) in *.
  intros C.
  assert (Sp : Bsign p = xorb sx sy).
  { destruct (Rlt_bool _ _).
    - destruct C as (_ & F & Sg). apply Sg. destruct p; try reflexivity. discriminate F.
    - cbn [Bsign] in C. destruct p as [s0| s0| |s0 m0 e0 B0]; cbn in C; try discriminate C.
      injection C as C. exact C. }
  assert (Np : xorb sx sy = false).
  { rewrite <- Sp. destruct p as [s0|s0| |s0 m0 e0 B0]; cbn in H |- *; try discriminate H; destruct s0; try reflexivity; discriminate H. }
  unfold B2R. destruct sx, sy; try discriminate Np; cbn [cond_Zopp].
  - right. split; apply F2R_lt_0; reflexivity.
  - left. split; apply F2R_gt_0; reflexivity.
Qed.

Lemma B2R_lit_3_2 : B2R (nlit 3 2 : B64) = 3 / 2.
Proof.
  assert (E : B2SF (nlit 3 2 : B64) = SpecFloat.S754_finite false (3 * 2 ^ 51) (-52)) by (vm_compute; reflexivity).
  rewrite <- SF2R_B2SF, E. unfold SF2R, F2R; cbn -[Rmult Rinv]; lra.
Qed.
Lemma finite_lit_3_2 : is_finite (nlit 3 2 : B64) = true.
Proof. vm_compute. reflexivity. Qed.

Lemma abs64 (x : B64) : is_finite x = true -> B2R (nabs x) = Rabs (B2R x) /\ is_finite (nabs x) = true.
Proof. intros F. split; [apply B2R_Babs|]. cbn [nabs Num_B64]. rewrite is_finite_Babs. exact F. Qed.

Lemma min64 (x y : B64) : is_finite x = true -> is_finite y = true ->
  B2R (std_min x y) = Rmin (B2R x) (B2R y) /\ is_finite (std_min x y) = true.
Proof.
  intros Fx Fy. unfold std_min. rewrite (lt64 y x Fy Fx).
  destruct (Rlt_bool_spec (B2R y) (B2R x)) as [L|L]; split; try assumption.
  - rewrite Rmin_right by lra. reflexivity.
  - rewrite Rmin_left by lra. reflexivity.
Qed.

Lemma copysign64_val (x s : B64) : is_finite x = true -> is_finite s = true ->
  is_finite (copysign64 x s) = true /\
  (B2R (copysign64 x s) = Rabs (B2R x) /\ 0 <= B2R s \/ B2R (copysign64 x s) = - Rabs (B2R x) /\ B2R s <= 0).
Proof.
  intros Fx Fs. unfold copysign64.
  assert (Sg : Bsign s = true -> B2R s <= 0).
  { destruct s as [b|b| |b m e B]; try discriminate Fs; cbn [Bsign]; intros ->; cbn -[F2R]; [lra|].
    apply Rlt_le, F2R_lt_0. reflexivity. }
  assert (Sf : Bsign s = false -> 0 <= B2R s).
  { destruct s as [b|b| |b m e B]; try discriminate Fs; cbn [Bsign]; intros ->; cbn -[F2R]; [lra|].
    apply Rlt_le, F2R_gt_0. reflexivity. }
  destruct (Bsign s).
  - rewrite is_finite_Bopp, is_finite_Babs, B2R_Bopp, B2R_Babs. split; [exact Fx|]. right. auto.
  - rewrite is_finite_Babs, B2R_Babs. split; [exact Fx|]. left. auto.
Qed.

Lemma rnd64_bounded x e : (-1074 <= e)%Z -> - bpow radix2 e <= x <= bpow radix2 e ->
  - bpow radix2 e <= rnd64 x <= bpow radix2 e.
Proof. intros He H. apply Rabs_le_inv, rnd64_abs_le; [exact He|]. apply Rabs_le, H. Qed.

Lemma bp_double e : bpow radix2 (e + 1) = 2 * bpow radix2 e.
Proof. rewrite bpow_plus. cbn. lra. Qed.

Lemma mc64_spec (dm dp : B64) :
  is_finite dm = true -> is_finite dp = true ->
  Rabs (B2R dm) <= bpow radix2 1021 -> Rabs (B2R dp) <= bpow radix2 1021 ->
  let s := g_mc copysign64 dm dp (nlit 3 2) in
  is_finite s = true /\
  Rabs (B2R s) <= rnd64 (3 / 2 * Rabs (B2R dm)) /\ Rabs (B2R s) <= rnd64 (3 / 2 * Rabs (B2R dp)) /\
  (B2R s = 0 \/ 0 < B2R dm /\ 0 < B2R dp /\ 0 <= B2R s \/ B2R dm < 0 /\ B2R dp < 0 /\ B2R s <= 0).
Proof.
  intros Fm Fp Hm Hp s.
  set (M := bpow radix2 1021) in *.
  assert (M1 : bpow radix2 1022 = 2 * M) by apply (bp_double 1021).
  assert (M2 : bpow radix2 1023 = 4 * M) by (eapply eq_trans; [apply (bp_double 1022)|rewrite M1; ring]).
  assert (M0 : 1 <= M) by (apply (bpow_le radix2 0 1021); lia).
  pose proof (Rabs_le_inv _ _ Hm) as Hm'. pose proof (Rabs_le_inv _ _ Hp) as Hp'.
  destruct (add64 dm dp Fm Fp) as [Ea Fa]; [apply Rabs_le; lra|].
  assert (Ba : - (2 * M) <= B2R (nadd dm dp) <= 2 * M).
  { rewrite Ea, <- M1. apply rnd64_bounded; [lia|]. lra. }
  (* dc *)
  set (fl := (if nlt (nlit 0 1) (nmul dm dp) then nlit 1 1 else nlit 0 1) : B64) in *.
  assert (Hfl : is_finite fl = true /\ (B2R fl = 1 /\ (0 < B2R dm /\ 0 < B2R dp \/ B2R dm < 0 /\ B2R dp < 0) \/ B2R fl = 0)).
  { unfold fl. destruct (nlt (nlit 0 1) (nmul dm dp)) eqn:Pr.
    - split; [vm_compute; reflexivity|]. left. split; [apply B2R_lit_one|]. apply (pos_product dm dp Fm Fp Pr).
    - split; [vm_compute; reflexivity|]. right. apply B2R_zero. }
  destruct Hfl as [Ffl Hfl].
  assert (Hc : is_finite (nmul fl (nlit 1 2)) = true /\
    (B2R (nmul fl (nlit 1 2)) = / 2 /\ B2R fl = 1 \/ B2R (nmul fl (nlit 1 2)) = 0 /\ B2R fl = 0)).
  { destruct (mul64 fl (nlit 1 2) Ffl finite_lit_half) as [E F].
    - rewrite B2R_lit_half. destruct Hfl as [[-> _]| ->]; apply Rabs_le; lra.
    - split; [exact F|]. rewrite E, B2R_lit_half. destruct Hfl as [[-> _]| ->].
      + left. split; [|reflexivity]. rewrite Rmult_1_l, <- B2R_lit_half. apply rnd64_B2R.
      + right. split; [|reflexivity]. rewrite Rmult_0_l. apply rnd64_0. }
  destruct Hc as [Fc Hc].
  set (c := nmul fl (nlit 1 2)) in *.
  destruct (mul64 c (nadd dm dp) Fc Fa) as [Edc Fdc].
  { destruct Hc as [[-> _]|[-> _]]; apply Rabs_le; lra. }
  set (dc := nmul c (nadd dm dp)) in *.
  (* the bounding magnitude *)
  destruct (abs64 dm Fm) as [Eam Fam]. destruct (abs64 dp Fp) as [Eap Fap].
  destruct (min64 (nabs dm) (nabs dp) Fam Fap) as [Emn Fmn]. rewrite Eam, Eap in Emn.
  assert (Bmn : 0 <= Rmin (Rabs (B2R dm)) (Rabs (B2R dp)) <= M).
  { split; [apply Rmin_glb; apply Rabs_pos|]. eapply Rle_trans; [apply Rmin_l|]. exact Hm. }
  destruct (mul64 (nlit 3 2) (std_min (nabs dm) (nabs dp)) finite_lit_3_2 Fmn) as [Eb Fb].
  { rewrite B2R_lit_3_2, Emn. apply Rabs_le; lra. }
  rewrite B2R_lit_3_2, Emn in Eb.
  destruct (abs64 dc Fdc) as [Eadc Fadc].
  destruct (min64 (nabs dc) (nmul (nlit 3 2) (std_min (nabs dm) (nabs dp))) Fadc Fb) as [Ex Fx].
  rewrite Eadc, Eb in Ex.
  set (x := std_min (nabs dc) (nmul (nlit 3 2) (std_min (nabs dm) (nabs dp)))) in *.
  assert (Es : s = copysign64 x dc) by reflexivity.
  destruct (copysign64_val x dc Fx Fdc) as [Fs Vs]. rewrite <- Es in Fs, Vs. clearbody s.
  set (bd := rnd64 (3 / 2 * Rmin (Rabs (B2R dm)) (Rabs (B2R dp)))) in *.
  assert (Bd0 : 0 <= bd) by (apply rnd64_ge0; lra).
  assert (X0 : 0 <= B2R x <= bd).
  { rewrite Ex. split; [apply Rmin_glb; [apply Rabs_pos|exact Bd0]|apply Rmin_r]. }
  assert (X1 : B2R x <= Rabs (B2R dc)) by (rewrite Ex; apply Rmin_l).
  rewrite (Rabs_pos_eq (B2R x)) in Vs by lra.
  assert (As : Rabs (B2R s) <= bd).
  { destruct Vs as [[-> _]|[-> _]]; [|rewrite Rabs_Ropp]; rewrite Rabs_pos_eq; lra. }
  split; [exact Fs|]. split; [|split].
  - eapply Rle_trans; [exact As|]. apply rnd64_le. pose proof (Rmin_l (Rabs (B2R dm)) (Rabs (B2R dp))). lra.
  - eapply Rle_trans; [exact As|]. apply rnd64_le. pose proof (Rmin_r (Rabs (B2R dm)) (Rabs (B2R dp))). lra.
  - assert (Z : B2R dc = 0 -> B2R s = 0).
    { intros Ez. rewrite Ez, Rabs_R0 in X1. destruct Vs as [[-> _]|[-> _]]; lra. }
    destruct Hc as [[Vc Vf]|[Vc Vf]].
    + destruct Hfl as [[_ Sg]|Q]; [|lra].
      rewrite Vc in Edc. destruct Sg as [[Pm Pp]|[Nm Np]].
      * assert (0 <= B2R dc).
        { rewrite Edc. apply rnd64_ge0. rewrite Ea. apply Rmult_le_pos; [lra|]. apply rnd64_ge0. lra. }
        destruct Vs as [[-> _]|[_ Nd]]; [right; left; lra|].
        left. apply Z. lra.
      * assert (B2R dc <= 0).
        { rewrite Edc. apply rnd64_le0. assert (B2R (nadd dm dp) <= 0) by (rewrite Ea; apply rnd64_le0; lra). lra. }
        destruct Vs as [[_ Nd]|[-> _]]; [|right; right; lra].
        left. apply Z. lra.
    + left. apply Z. rewrite Edc, Vc, Rmult_0_l. apply rnd64_0.
Qed.

Lemma plm64_between (qm q0 qp ql qr : B64) :
  is_finite qm = true -> is_finite q0 = true -> is_finite qp = true ->
  Rabs (B2R qm) <= bpow radix2 1020 -> Rabs (B2R q0) <= bpow radix2 1020 -> Rabs (B2R qp) <= bpow radix2 1020 ->
  PiecewiseLinear64 qm q0 qp = (ql, qr) ->
  is_finite ql = true /\ is_finite qr = true /\
  btw (B2R q0) (B2R qp) (B2R ql) /\ btw (B2R qm) (B2R q0) (B2R qr).
Proof.
  intros Fm F0 Fp Hm H0 Hp E.
  apply Rabs_le_inv in Hm, H0, Hp.
  set (M := bpow radix2 1020) in *.
  assert (M0 : bpow radix2 1021 = 2 * M) by apply (bp_double 1020).
  assert (M1 : bpow radix2 1022 = 4 * M) by (eapply eq_trans; [apply (bp_double 1021)|rewrite M0; ring]).
  assert (M2 : bpow radix2 1023 = 8 * M) by (eapply eq_trans; [apply (bp_double 1022)|rewrite M1; ring]).
  assert (Mp : 0 < M) by apply bpow_gt_0.
  destruct (sub64 q0 qm F0 Fm) as [Edm Fdm]; [apply Rabs_le; lra|].
  destruct (sub64 qp q0 Fp F0) as [Edp Fdp]; [apply Rabs_le; lra|].
  destruct (mc64_spec (nsub q0 qm) (nsub qp q0) Fdm Fdp) as [Fs (Bm & Bp & Sg)].
  { rewrite Edm. apply rnd64_abs_le; [lia|]. rewrite M0. apply Rabs_le; lra. }
  { rewrite Edp. apply rnd64_abs_le; [lia|]. rewrite M0. apply Rabs_le; lra. }
  unfold PiecewiseLinear64, g_PiecewiseLinear in E.
  set (s := g_mc copysign64 (nsub q0 qm) (nsub qp q0) (nlit 3 2)) in *. clearbody s.
  rewrite Edm in Bm, Sg. rewrite Edp in Bp, Sg.
  assert (Bs : - (4 * M) <= B2R s <= 4 * M).
  { rewrite <- M1. apply Rabs_le_inv. eapply Rle_trans; [exact Bm|].
    assert (Q : - (2 * M) <= rnd64 (B2R q0 - B2R qm) <= 2 * M) by (rewrite <- M0; apply rnd64_bounded; [lia|lra]).
    rewrite <- (rnd64_bpow 1022) by lia. apply rnd64_le. rewrite M1.
    assert (Rabs (rnd64 (B2R q0 - B2R qm)) <= 2 * M) by (apply Rabs_le; lra). lra. }
  destruct (mul64 (nlit 1 2) s finite_lit_half Fs) as [Eh Fh].
  { rewrite B2R_lit_half. apply Rabs_le; lra. }
  rewrite B2R_lit_half in Eh.
  set (h := nmul (nlit 1 2) s) in *.
  assert (Bh : - (4 * M) <= B2R h <= 4 * M) by (rewrite Eh, <- M1; apply rnd64_bounded; [lia|lra]).
  destruct (add64 q0 h F0 Fh) as [El Fl]; [apply Rabs_le; lra|].
  destruct (sub64 q0 h F0 Fh) as [Er Fr]; [apply Rabs_le; lra|].
  assert (Eql : ql = nadd q0 h) by congruence. assert (Eqr : qr = nsub q0 h) by congruence.
  rewrite Eql, Eqr. split; [exact Fl|]. split; [exact Fr|].
  assert (G : forall x : B64, generic_format radix2 fexp64 (B2R x)) by (intros; apply generic_format_B2R).
  assert (Ord : (B2R q0 <= B2R qp /\ 0 <= B2R s \/ B2R qp <= B2R q0 /\ B2R s <= 0) /\
                (B2R qm <= B2R q0 /\ 0 <= B2R s \/ B2R q0 <= B2R qm /\ B2R s <= 0)).
  { assert (P : forall x, 0 < rnd64 x -> 0 < x) by (intros x Hx; apply Rnot_le_lt; intros Q; apply rnd64_le0 in Q; lra).
    assert (N : forall x, rnd64 x < 0 -> x < 0) by (intros x Hx; apply Rnot_le_lt; intros Q; apply rnd64_ge0 in Q; lra).
    destruct Sg as [Z|[(S1 & S2 & S3)|(S1 & S2 & S3)]].
    - rewrite Z. split; destruct (Rle_or_lt (B2R q0) (B2R qp)), (Rle_or_lt (B2R qm) (B2R q0)); lra.
    - apply P in S1, S2. split; left; lra.
    - apply N in S1, S2. split; right; lra. }
  destruct Ord as [O1 O2]. split.
  - rewrite El, Eh. apply lim_step_signed; [apply G|apply G|exact O1|exact Bp].
  - rewrite Er, Eh.
    assert (L : btw (- B2R q0) (- B2R qm) (rnd64 (- B2R q0 + rnd64 (/ 2 * B2R s)))).
    { apply lim_step_signed; [apply generic_format_opp, G|apply generic_format_opp, G|lra|].
      replace (- B2R qm - - B2R q0) with (B2R q0 - B2R qm) by ring. exact Bm. }
    replace (- B2R q0 + rnd64 (/ 2 * B2R s)) with (- (B2R q0 - rnd64 (/ 2 * B2R s))) in L by ring.
    rewrite rnd64_opp in L. unfold btw in *.
    rewrite <- Ropp_Rmax, <- Ropp_Rmin in L. rewrite (Rmin_comm (B2R qm)), (Rmax_comm (B2R qm)). lra.
Qed.

(** a NaN in the stencil is never masked *)
Lemma nan_add (x y : B64) : is_nan x = true \/ is_nan y = true -> is_nan (nadd x y) = true.
Proof. cbn [nadd Num_B64]. intros [H|H]; destruct x, y; try discriminate H; reflexivity. Qed.
Lemma nan_sub (x y : B64) : is_nan x = true \/ is_nan y = true -> is_nan (nsub x y) = true.
Proof. cbn [nsub Num_B64]. intros [H|H]; destruct x, y; try discriminate H; reflexivity. Qed.
Lemma nan_mul (x y : B64) : is_nan x = true \/ is_nan y = true -> is_nan (nmul x y) = true.
Proof. cbn [nmul Num_B64]. intros [H|H]; destruct x, y; try discriminate H; reflexivity. Qed.
Lemma nan_minl (x y : B64) : is_nan x = true -> is_nan (std_min x y) = true.
Proof. unfold std_min; cbn [nlt Num_B64]. intros H. destruct x; try discriminate H. destruct y as [[]|[]| |[]]; reflexivity. Qed.

Lemma plm64_nan (qm q0 qp : B64) :
  is_nan qm = true \/ is_nan q0 = true \/ is_nan qp = true ->
  is_nan (fst (PiecewiseLinear64 qm q0 qp)) = true /\ is_nan (snd (PiecewiseLinear64 qm q0 qp)) = true.
Proof.
  intros H. unfold PiecewiseLinear64, g_PiecewiseLinear. cbn [fst snd].
  assert (S : is_nan (g_mc copysign64 (nsub q0 qm) (nsub qp q0) (nlit 3 2)) = true).
  { unfold g_mc.
    set (dc := nmul _ (nadd (nsub q0 qm) (nsub qp q0))).
    assert (D : is_nan dc = true).
    { apply nan_mul. right. apply nan_add.
      destruct H as [H|[H|H]]; [left|left|right]; apply nan_sub; auto. }
    assert (A : is_nan (nabs dc) = true) by (destruct dc; try discriminate D; reflexivity).
    pose proof (nan_minl (nabs dc) (nmul (nlit 3 2) (std_min (nabs (nsub q0 qm)) (nabs (nsub qp q0)))) A) as Mn.
    unfold copysign64. destruct (std_min _ _); try discriminate Mn. destruct (Bsign dc); reflexivity. }
  assert (Hh : is_nan (nmul (nlit 1 2) (g_mc copysign64 (nsub q0 qm) (nsub qp q0) (nlit 3 2))) = true)
    by (apply nan_mul; right; exact S).
  split; [apply nan_add|apply nan_sub]; right; exact Hh.
Qed.
