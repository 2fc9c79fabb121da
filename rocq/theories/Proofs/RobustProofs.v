From Coq Require Import ZArith Reals Lra Lia Bool Psatz.
From Flocq Require Import Core BinarySingleNaN.
From Verif.Model Require Import Num Robust.
From Verif.Proofs Require Import NumR NumB64.
Local Open Scope R_scope.

(** ** Over the reals *)
Lemma EPS_R : (EPS : R) = 10 / 2 ^ 52.
Proof. unfold EPS; num_R. f_equal. rewrite pow_IZR. reflexivity. Qed.
Lemma EPS_pos : 0 < (EPS : R) < / 100.
Proof. rewrite EPS_R. lra. Qed.
Lemma SMALL_R : (SMALL : R) = 10 * bpow radix2 (-1022).
Proof.
  unfold SMALL; num_R. unfold Rdiv. f_equal.
Qed.
Lemma SMALL_pos : 0 < (SMALL : R).
Proof. rewrite SMALL_R. pose proof (bpow_gt_0 radix2 (-1022)). lra. Qed.

Lemma make_positive_R (v : R) : make_positive v = Rmax v EPS.
Proof. unfold make_positive. rewrite std_max_R. reflexivity. Qed.

Lemma make_positive_spec (v : R) :
  EPS <= make_positive v /\ v <= make_positive v /\ (EPS <= v -> make_positive v = v) /\
  (v < EPS -> make_positive v = EPS).
Proof.
  rewrite make_positive_R. unfold Rmax. destruct (Rle_dec v EPS); repeat split; intros; lra.
Qed.

Lemma make_bounded_R (v lo hi : R) :
  make_bounded v lo hi = Rmin (Rmax v (lo + EPS)) (hi * (1 - EPS)).
Proof. unfold make_bounded. rewrite std_min_R, std_max_R. num_R. reflexivity. Qed.

Lemma make_bounded_spec (v lo hi : R) :
  lo + EPS <= hi * (1 - EPS) ->
  (lo + EPS <= make_bounded v lo hi <= hi * (1 - EPS)) /\
  (lo + EPS <= v <= hi * (1 - EPS) -> make_bounded v lo hi = v) /\
  (v <= lo + EPS -> make_bounded v lo hi = lo + EPS) /\
  (hi * (1 - EPS) <= v -> make_bounded v lo hi = hi * (1 - EPS)).
Proof.
  intros Hw. rewrite make_bounded_R. unfold Rmin, Rmax.
  destruct (Rle_dec v (lo + EPS)); destruct (Rle_dec _ (hi * (1 - EPS)));
    repeat split; intros; lra.
Qed.

Lemma sgn_R (v : R) : sgn v = if Rle_dec 0 v then 1%Z else (-1)%Z.
Proof.
  unfold sgn; num_R.
  destruct (Rle_bool_spec 0 v), (Rlt_bool_spec v 0), (Rle_dec 0 v); try lra; reflexivity.
Qed.

Lemma ratio_R (a b : R) :
  ratio a b = if Rle_dec 0 b then a / (b + SMALL) else a / (b - SMALL).
Proof.
  unfold ratio; num_R. cbv zeta.
  destruct (Rle_bool_spec 0 b), (Rle_dec 0 b); try lra; f_equal; lra.
Qed.

(** relative perturbation of the quotient *)
Lemma ratio_close (a b : R) : b <> 0 ->
  ratio a b = a / b * (/ (1 + SMALL / Rabs b)).
Proof.
  intros Hb. rewrite ratio_R. pose proof SMALL_pos.
  destruct (Rle_dec 0 b).
  - rewrite Rabs_right by lra. field. split; [lra|]. lra.
  - rewrite Rabs_left by lra. field. repeat split; lra.
Qed.

Lemma ratio_no_div_zero (a b : R) :
  exists d, d <> 0 /\ ratio a b = a / d /\ Rabs d = Rabs b + SMALL /\ 0 <= b * d.
Proof.
  rewrite ratio_R. pose proof SMALL_pos.
  destruct (Rle_dec 0 b).
  - exists (b + SMALL). rewrite !Rabs_right by lra. repeat split; try lra. nra.
  - exists (b - SMALL). rewrite !Rabs_left by lra. repeat split; try lra. nra.
Qed.

(** ** In binary64 *)
Lemma nlt_le_trans_B (x y : B64) : is_nan x = false -> is_nan y = false ->
  nlt x y = negb (nle y x).
Proof.
  intros Nx Ny. cbn [nlt nle Num_B64]. unfold Bltb, Bleb, SpecFloat.SFltb, SpecFloat.SFleb.
  destruct x as [sx|sx| |sx mx ex Hx], y as [sy|sy| |sy my ey Hy]; try discriminate;
    cbn; try reflexivity; try (destruct sx; reflexivity); try (destruct sy; reflexivity);
    try (destruct sx, sy; reflexivity).
  change (Bltb (B754_finite sx mx ex Hx : B64) (B754_finite sy my ey Hy) =
          negb (Bleb (B754_finite sy my ey Hy : B64) (B754_finite sx mx ex Hx))).
  rewrite Bltb_correct, Bleb_correct by reflexivity.
  destruct (Rlt_bool_spec (B2R (B754_finite sx mx ex Hx : B64)) (B2R (B754_finite sy my ey Hy : B64)));
  destruct (Rle_bool_spec (B2R (B754_finite sy my ey Hy : B64)) (B2R (B754_finite sx mx ex Hx : B64)));
  try lra; reflexivity.
Qed.

Lemma EPS_B64_nan : is_nan (EPS : B64) = false.
Proof. vm_compute. reflexivity. Qed.

Lemma nle_refl_B (x : B64) : is_nan x = false -> nle x x = true.
Proof.
  intros Nx. cbn [nle Num_B64].
  destruct x as [s|s| |s m e H]; try discriminate; try (destruct s; reflexivity).
  rewrite Bleb_correct by reflexivity. apply Rle_bool_true. lra.
Qed.

Lemma make_positive_B64 (v : B64) : is_nan v = false ->
  is_nan (make_positive v) = false /\ nle EPS (make_positive v) = true /\
  (nle EPS v = true -> make_positive v = v).
Proof.
  intros Nv. unfold make_positive, std_max.
  rewrite nlt_le_trans_B by (assumption || apply EPS_B64_nan).
  destruct (nle EPS v) eqn:E; cbn [negb].
  - split; [assumption|]. split; [exact E|reflexivity].
  - split; [apply EPS_B64_nan|]. split; [apply nle_refl_B; apply EPS_B64_nan|discriminate].
Qed.

Lemma make_positive_B64_nan (v : B64) : is_nan v = true -> is_nan (make_positive v) = true.
Proof.
  destruct v; try discriminate. intros _. vm_compute. reflexivity.
Qed.

Lemma finite_SMALL : is_finite (SMALL : B64) = true.
Proof. vm_compute. reflexivity. Qed.
Lemma B2R_SMALL : B2R (SMALL : B64) = 10 * bpow radix2 (-1022).
Proof.
  assert (E : B2SF (SMALL : B64) = SpecFloat.S754_finite false 5629499534213120 (-1071))
    by (vm_compute; reflexivity).
  rewrite <- SF2R_B2SF, E. unfold SF2R, F2R; cbn [Fnum Fexp cond_Zopp].
  replace (bpow radix2 (-1022)) with (bpow radix2 49 * bpow radix2 (-1071))
    by (rewrite <- bpow_plus; reflexivity).
  change (bpow radix2 49) with 562949953421312. lra.
Qed.

Definition sgnlit (b : B64) : B64 := if nle nzero b then nlit 1 1 else nlit (-1) 1.

Lemma sgnlit_spec (b : B64) : is_finite b = true ->
  is_finite (sgnlit b) = true /\
  (0 <= B2R b /\ B2R (sgnlit b) = 1 \/ B2R b < 0 /\ B2R (sgnlit b) = -1).
Proof.
  intros Fb. unfold sgnlit. rewrite zero_eq. rewrite le64 by (assumption || reflexivity).
  cbn [B2R]. destruct (Rle_bool_spec 0 (B2R b)).
  - split; [vm_compute; reflexivity|]. left. split; [assumption|apply B2R_lit_one].
  - split; [vm_compute; reflexivity|]. right. split; [assumption|apply B2R_lit_mone].
Qed.

Lemma guard_small (b : B64) : is_finite b = true ->
  B2R (nmul (sgnlit b) SMALL) = B2R (sgnlit b) * (10 * bpow radix2 (-1022)) /\
  is_finite (nmul (sgnlit b) SMALL) = true.
Proof.
  intros Fb. destruct (sgnlit_spec b Fb) as [F S].
  destruct (mul64_sign (sgnlit b) SMALL) as [E1 E2]; [|apply finite_SMALL|].
  - destruct S as [[_ S]|[_ S]]; [left|right]; auto.
  - rewrite B2R_SMALL in E1. auto.
Qed.

Lemma ratio_unfold (a b : B64) : ratio a b = ndiv a (nadd b (nmul (sgnlit b) SMALL)).
Proof. reflexivity. Qed.

Lemma bpow_small_le : 10 * bpow radix2 (-1022) <= bpow radix2 (-1018).
Proof.
  replace (bpow radix2 (-1018)) with (16 * bpow radix2 (-1022))
    by (change 16 with (bpow radix2 4); rewrite <- bpow_plus; reflexivity).
  pose proof (bpow_gt_0 radix2 (-1022)). lra.
Qed.

(** adding the guard does not change a double that is not close to underflow *)
Lemma guard_absorbed_R (x s : R) :
  generic_format radix2 fexp64 x -> bpow radix2 (-965) <= x ->
  0 <= s <= 10 * bpow radix2 (-1022) -> rnd64 (x + s) = x.
Proof.
  intros Gx Hx Hs.
  assert (Hpos : 0 < x) by (pose proof (bpow_gt_0 radix2 (-965)); lra).
  assert (Hulp : bpow radix2 (-1017) <= ulp radix2 fexp64 x).
  { rewrite ulp_neq_0 by lra. apply bpow_le. unfold cexp. rewrite fexp64_FLT. unfold FLT_exp.
    assert (-964 <= mag radix2 x)%Z.
    { apply mag_ge_bpow. rewrite Rabs_right by lra. exact Hx. }
    lia. }
  assert (Hs' : s < ulp radix2 fexp64 x / 2).
  { pose proof (bpow_gt_0 radix2 (-1022)).
    replace (bpow radix2 (-1017)) with (32 * bpow radix2 (-1022)) in Hulp
      by (change 32 with (bpow radix2 5); rewrite <- bpow_plus; reflexivity). lra. }
  apply Rle_antisym.
  - apply round_N_le_midp; auto with typeclass_instances.
    rewrite succ_eq_pos by lra. lra.
  - rewrite <- (round_generic radix2 fexp64 ZnearestE x Gx) at 1. apply rnd64_le. lra.
Qed.

Lemma ratio_exact_B64 (a b : B64) :
  is_finite b = true -> bpow radix2 (-965) <= Rabs (B2R b) ->
  ratio a b = ndiv a b.
Proof.
  intros Fb Hb. rewrite ratio_unfold. f_equal.
  destruct (guard_small b Fb) as [Eg Fg].
  destruct (sgnlit_spec b Fb) as [Fs Ss].
  pose proof (generic_format_B2R prec64 emax64 b) as Gb.
  pose proof (bpow_gt_0 radix2 (-1022)) as Hp.
  assert (E : rnd64 (B2R b + B2R (nmul (sgnlit b) SMALL)) = B2R b).
  { rewrite Eg. destruct Ss as [[S1 S2]|[S1 S2]]; rewrite S2.
    - rewrite Rabs_right in Hb by lra. apply guard_absorbed_R; [exact Gb|exact Hb|lra].
    - rewrite Rabs_left in Hb by lra.
      replace (B2R b + -1 * (10 * bpow radix2 (-1022)))
        with (- (- B2R b + 10 * bpow radix2 (-1022))) by ring.
      rewrite rnd64_opp. rewrite guard_absorbed_R; [ring| |exact Hb|lra].
      apply generic_format_opp. exact Gb. }
  generalize (Bplus_correct prec64 emax64 _ _ mode_NE b (nmul (sgnlit b) SMALL) Fb Fg);
  change (Bplus mode_NE b (nmul (sgnlit b) SMALL)) with (nadd b (nmul (sgnlit b) SMALL)).
  change (round radix2 fexp64 (round_mode mode_NE)) with rnd64.
  rewrite E. rewrite Rlt_bool_true by apply abs_B2R_lt_emax.
  intros (E1 & E2 & _).
  apply B2R_inj; [| |exact E1].
  - apply is_finite_strict_B2R. rewrite E1. intros Ez. rewrite Ez, Rabs_R0 in Hb.
    pose proof (bpow_gt_0 radix2 (-965)); lra.
  - apply is_finite_strict_B2R. intros Ez. rewrite Ez, Rabs_R0 in Hb.
    pose proof (bpow_gt_0 radix2 (-965)); lra.
Qed.

(** the guarded denominator is a finite double at least SMALL in magnitude *)
Lemma guard_denominator (b : B64) : is_finite b = true ->
  let d := nadd b (nmul (sgnlit b) SMALL) in
  is_finite d = true /\ 10 * bpow radix2 (-1022) <= Rabs (B2R d) /\ 0 <= B2R b * B2R d.
Proof.
  intros Fb d.
  destruct (guard_small b Fb) as [Eg Fg].
  destruct (sgnlit_spec b Fb) as [Fs Ss].
  pose proof (bpow_gt_0 radix2 (-1022)) as Hp.
  assert (Hsm : rnd64 (10 * bpow radix2 (-1022)) = 10 * bpow radix2 (-1022)).
  { rewrite <- B2R_SMALL. apply rnd64_B2R. }
  destruct (Rle_lt_dec (bpow radix2 (-965)) (Rabs (B2R b))) as [Hb|Hb].
  - (* absorbed *)
    assert (Ed : d = b).
    { (* same argument as ratio_exact_B64, through division by one *)
      pose proof (generic_format_B2R prec64 emax64 b) as Gb.
      assert (E : rnd64 (B2R b + B2R (nmul (sgnlit b) SMALL)) = B2R b).
      { rewrite Eg. destruct Ss as [[S1 S2]|[S1 S2]]; rewrite S2.
        - rewrite Rabs_right in Hb by lra. apply guard_absorbed_R; [exact Gb|exact Hb|lra].
        - rewrite Rabs_left in Hb by lra.
          replace (B2R b + -1 * (10 * bpow radix2 (-1022)))
            with (- (- B2R b + 10 * bpow radix2 (-1022))) by ring.
          rewrite rnd64_opp. rewrite guard_absorbed_R; [ring| |exact Hb|lra].
          apply generic_format_opp. exact Gb. }
      generalize (Bplus_correct prec64 emax64 _ _ mode_NE b (nmul (sgnlit b) SMALL) Fb Fg);
  change (Bplus mode_NE b (nmul (sgnlit b) SMALL)) with (nadd b (nmul (sgnlit b) SMALL)).
      change (round radix2 fexp64 (round_mode mode_NE)) with rnd64.
      rewrite E. rewrite Rlt_bool_true by apply abs_B2R_lt_emax.
      intros (E1 & E2 & _).
      apply B2R_inj; [| |exact E1]; apply is_finite_strict_B2R; unfold d; rewrite ?E1;
        intros Ez; rewrite Ez, Rabs_R0 in Hb; pose proof (bpow_gt_0 radix2 (-965)); lra. }
    rewrite Ed. split; [exact Fb|]. split; [|nra].
    apply Rle_trans with (2 := Hb). apply Rle_trans with (1 := bpow_small_le).
    apply bpow_le. lia.
  - destruct (add64 b (nmul (sgnlit b) SMALL) Fb Fg) as [E1 E2].
    + rewrite Eg. apply Rle_trans with (bpow radix2 (-964)); [|apply bpow_le; lia].
      assert (H2 : bpow radix2 (-964) = 2 * bpow radix2 (-965))
        by (change 2 with (bpow radix2 1); rewrite <- bpow_plus; reflexivity).
      assert (H3 : 10 * bpow radix2 (-1022) <= bpow radix2 (-965)).
      { apply Rle_trans with (1 := bpow_small_le). apply bpow_le. lia. }
      apply Rabs_def2 in Hb. apply Rabs_le.
      destruct Ss as [[S1 S2]|[S1 S2]]; rewrite S2; lra.
    + fold d in E1, E2. split; [exact E2|].
      rewrite Eg in E1.
      destruct Ss as [[S1 S2]|[S1 S2]]; rewrite S2 in E1.
      * assert (10 * bpow radix2 (-1022) <= B2R d).
        { rewrite E1, <- Hsm at 1. apply rnd64_le. lra. }
        rewrite Rabs_right by lra. split; [assumption|nra].
      * assert (B2R d <= - (10 * bpow radix2 (-1022))).
        { rewrite E1. rewrite <- Hsm at 2. rewrite <- rnd64_opp. apply rnd64_le. lra. }
        rewrite Rabs_left by lra. split; [lra|nra].
Qed.

Lemma div_not_nan (a d : B64) :
  is_finite a = true -> B2R d <> 0 -> is_nan (ndiv a d) = false.
Proof.
  intros Fa Hd.
  generalize (Bdiv_correct prec64 emax64 _ _ mode_NE a d Hd).
  change (Bdiv mode_NE a d) with (ndiv a d).
  destruct (Rlt_bool _ _).
  - intros (_ & E & _). rewrite Fa in E. destruct (ndiv a d); try reflexivity; discriminate.
  - intros E. destruct (ndiv a d); try reflexivity. destruct (xorb _ _); discriminate.
Qed.

Lemma ratio_not_nan_B64 (a b : B64) :
  is_finite a = true -> is_finite b = true -> is_nan (ratio a b) = false.
Proof.
  intros Fa Fb. rewrite ratio_unfold.
  destruct (guard_denominator b Fb) as (F & H & _).
  apply div_not_nan; [exact Fa|].
  intros E. rewrite E, Rabs_R0 in H. pose proof (bpow_gt_0 radix2 (-1022)). lra.
Qed.

Lemma ratio_finite_B64 (a b : B64) :
  is_finite a = true -> is_finite b = true -> Rabs (B2R a) <= 1 ->
  is_finite (ratio a b) = true.
Proof.
  intros Fa Fb Ha. rewrite ratio_unfold.
  destruct (guard_denominator b Fb) as (F & H & _).
  set (d := nadd b (nmul (sgnlit b) SMALL)) in *.
  pose proof (bpow_gt_0 radix2 (-1022)) as Hp.
  assert (Hd : B2R d <> 0).
  { intros E. rewrite E, Rabs_R0 in H. lra. }
  apply div64; [exact Fa|exact Hd|].
  unfold Rdiv. rewrite Rabs_mult, Rabs_inv.
  apply Rle_trans with (1 * / (bpow radix2 (-1022))).
  - apply Rmult_le_compat; [apply Rabs_pos| |exact Ha|].
    + left. apply Rinv_0_lt_compat. lra.
    + apply Rinv_le; lra.
  - rewrite Rmult_1_l, <- bpow_opp. apply bpow_le. lia.
Qed.
