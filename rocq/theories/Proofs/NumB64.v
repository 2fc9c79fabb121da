(** Reasoning about the IEEE binary64 instance of [Num]. *)
From Coq Require Import ZArith Reals Lra Lia Bool Psatz.
From Flocq Require Import Core BinarySingleNaN Ulp.
From Verif.Model Require Import Num.
Local Open Scope R_scope.

Notation fexp64 := (SpecFloat.fexp prec64 emax64).
Definition rnd64 (x : R) : R := round radix2 fexp64 ZnearestE x.

#[global] Instance valid_fexp64 : Valid_exp fexp64 := fexp_correct prec64 emax64 _.
#[global] Instance monotone_fexp64 : Monotone_exp fexp64 := fexp_monotone prec64 emax64.

Lemma fexp64_FLT e : fexp64 e = FLT_exp (-1074) 53 e.
Proof. unfold SpecFloat.fexp, FLT_exp, SpecFloat.emin, prec64, emax64. lia. Qed.

Lemma rnd64_le x y : x <= y -> rnd64 x <= rnd64 y.
Proof. apply round_le; auto with typeclass_instances. Qed.

Lemma rnd64_B2R (x : B64) : rnd64 (B2R x) = B2R x.
Proof. apply round_generic; auto with typeclass_instances. apply generic_format_B2R. Qed.

Lemma rnd64_bpow e : (-1074 <= e)%Z -> rnd64 (bpow radix2 e) = bpow radix2 e.
Proof.
  intros He. apply round_generic; auto with typeclass_instances.
  apply generic_format_bpow. rewrite fexp64_FLT. unfold FLT_exp. lia.
Qed.

Lemma rnd64_opp x : rnd64 (- x) = - rnd64 x.
Proof. apply round_NE_opp. Qed.

Lemma rnd64_abs_le x e : (-1074 <= e)%Z -> Rabs x <= bpow radix2 e -> Rabs (rnd64 x) <= bpow radix2 e.
Proof.
  intros He Hx. apply Rabs_le. apply Rabs_le_inv in Hx.
  rewrite <- (rnd64_bpow e) by exact He.
  rewrite <- rnd64_opp. split; apply rnd64_le; lra.
Qed.

Lemma rnd64_overflow_free x :
  Rabs x <= bpow radix2 1023 ->
  Rlt_bool (Rabs (rnd64 x)) (bpow radix2 emax64) = true.
Proof.
  intros H. apply Rlt_bool_true.
  apply Rle_lt_trans with (bpow radix2 1023).
  - apply rnd64_abs_le; [lia|exact H].
  - apply bpow_lt. reflexivity.
Qed.

Lemma add64 (x y : B64) :
  is_finite x = true -> is_finite y = true -> Rabs (B2R x + B2R y) <= bpow radix2 1023 ->
  B2R (nadd x y) = rnd64 (B2R x + B2R y) /\ is_finite (nadd x y) = true.
Proof.
  intros Fx Fy H.
  generalize (Bplus_correct prec64 emax64 _ _ mode_NE x y Fx Fy).
  change (round radix2 fexp64 (round_mode mode_NE)) with rnd64.
  rewrite rnd64_overflow_free by exact H.
  intros (E1 & E2 & _). split; assumption.
Qed.

Lemma mul64 (x y : B64) :
  is_finite x = true -> is_finite y = true -> Rabs (B2R x * B2R y) <= bpow radix2 1023 ->
  B2R (nmul x y) = rnd64 (B2R x * B2R y) /\ is_finite (nmul x y) = true.
Proof.
  intros Fx Fy H.
  generalize (Bmult_correct prec64 emax64 _ _ mode_NE x y).
  change (round radix2 fexp64 (round_mode mode_NE)) with rnd64.
  rewrite rnd64_overflow_free by exact H.
  intros (E1 & E2 & _). split; [assumption|]. cbn [nmul Num_B64]. rewrite E2, Fx, Fy. reflexivity.
Qed.

Lemma div64 (x y : B64) :
  is_finite x = true -> B2R y <> 0 -> Rabs (B2R x / B2R y) <= bpow radix2 1023 ->
  B2R (ndiv x y) = rnd64 (B2R x / B2R y) /\ is_finite (ndiv x y) = true.
Proof.
  intros Fx Fy H.
  generalize (Bdiv_correct prec64 emax64 _ _ mode_NE x y Fy).
  change (round radix2 fexp64 (round_mode mode_NE)) with rnd64.
  rewrite rnd64_overflow_free by exact H.
  intros (E1 & E2 & _). split; [assumption|]. cbn [ndiv Num_B64]. rewrite E2, Fx. reflexivity.
Qed.

Lemma lt64 (x y : B64) :
  is_finite x = true -> is_finite y = true -> nlt x y = Rlt_bool (B2R x) (B2R y).
Proof. apply Bltb_correct. Qed.
Lemma le64 (x y : B64) :
  is_finite x = true -> is_finite y = true -> nle x y = Rle_bool (B2R x) (B2R y).
Proof. apply Bleb_correct. Qed.

(** A double known by its exact value *)
Lemma B2R_lit_half : B2R (nlit 1 2 : B64) = / 2.
Proof.
  assert (E : B2SF (nlit 1 2 : B64) = SpecFloat.S754_finite false (2 ^ 52) (-53)) by (vm_compute; reflexivity).
  rewrite <- SF2R_B2SF, E. unfold SF2R, F2R; cbn -[Rmult Rinv]; lra.
Qed.
Lemma finite_lit_half : is_finite (nlit 1 2 : B64) = true.
Proof. vm_compute. reflexivity. Qed.

Lemma B2R_lit_one : B2R (nlit 1 1 : B64) = 1.
Proof.
  assert (E : B2SF (nlit 1 1 : B64) = SpecFloat.S754_finite false (2 ^ 52) (-52)) by (vm_compute; reflexivity).
  rewrite <- SF2R_B2SF, E. unfold SF2R, F2R; cbn -[Rmult Rinv]; lra.
Qed.
Lemma B2R_lit_mone : B2R (nlit (-1) 1 : B64) = -1.
Proof.
  assert (E : B2SF (nlit (-1) 1 : B64) = SpecFloat.S754_finite true (2 ^ 52) (-52)) by (vm_compute; reflexivity).
  rewrite <- SF2R_B2SF, E. unfold SF2R, F2R; cbn -[Rmult Rinv]; lra.
Qed.
Lemma B2R_zero : B2R (nzero : B64) = 0.
Proof. assert (E : B2SF (nzero : B64) = SpecFloat.S754_zero false) by (vm_compute; reflexivity).
  rewrite <- SF2R_B2SF, E. reflexivity. Qed.
Lemma zero_eq : (nzero : B64) = B754_zero false.
Proof. apply B2SF_inj. vm_compute. reflexivity. Qed.

(** multiplying by +1 or -1 is exact, for every double *)
Lemma mul64_sign (s y : B64) :
  (B2R s = 1 /\ is_finite s = true \/ B2R s = -1 /\ is_finite s = true) ->
  is_finite y = true ->
  B2R (nmul s y) = B2R s * B2R y /\ is_finite (nmul s y) = true.
Proof.
  intros Hs Fy.
  generalize (Bmult_correct prec64 emax64 _ _ mode_NE s y).
  change (round radix2 fexp64 (round_mode mode_NE)) with rnd64.
  assert (E : rnd64 (B2R s * B2R y) = B2R s * B2R y).
  { destruct Hs as [[-> _]|[-> _]].
    - rewrite Rmult_1_l. apply rnd64_B2R.
    - replace (-1 * B2R y) with (- B2R y) by ring. rewrite rnd64_opp, rnd64_B2R. reflexivity. }
  rewrite E.
  rewrite Rlt_bool_true.
  - intros (E1 & E2 & _). split; [exact E1|]. cbn [nmul Num_B64]. rewrite E2, Fy.
    destruct Hs as [[_ ->]|[_ ->]]; reflexivity.
  - destruct Hs as [[-> _]|[-> _]].
    + rewrite Rmult_1_l. apply abs_B2R_lt_emax.
    + replace (-1 * B2R y) with (- B2R y) by ring. rewrite Rabs_Ropp. apply abs_B2R_lt_emax.
Qed.

Lemma rnd64_double (c : B64) : rnd64 (2 * B2R c) = 2 * B2R c.
Proof.
  apply round_generic; auto with typeclass_instances.
  pose proof (generic_format_B2R prec64 emax64 c) as Gc.
  change fexp64 with (FLT_exp (-1074) 53) in *.
  apply FLT_format_generic in Gc; [|reflexivity].
  destruct Gc as [[n e] Ef Hn He]. cbn [Fnum Fexp] in *.
  apply generic_format_FLT.
  exists (Float radix2 n (e + 1)); cbn [Fnum Fexp]; [|exact Hn|lia].
  rewrite Ef. unfold F2R; cbn [Fnum Fexp]. rewrite bpow_plus. cbn. lra.
Qed.

(** the midpoint of two doubles stays between them *)
Lemma midpoint64 (a b : B64) :
  is_finite a = true -> is_finite b = true ->
  Rabs (B2R a) <= bpow radix2 1022 -> Rabs (B2R b) <= bpow radix2 1022 ->
  B2R a <= B2R b ->
  let m := nmul (nlit 1 2) (nadd a b) in
  is_finite m = true /\ B2R a <= B2R m <= B2R b /\ Rabs (B2R m) <= bpow radix2 1022.
Proof.
  intros Fa Fb Ha Hb Hab m.
  apply Rabs_le_inv in Ha. apply Rabs_le_inv in Hb.
  assert (Hd : 2 * bpow radix2 1022 = bpow radix2 1023) by reflexivity.
  assert (Hs : Rabs (B2R a + B2R b) <= bpow radix2 1023) by (apply Rabs_le; lra).
  destruct (add64 a b Fa Fb Hs) as [Es Fs].
  destruct (mul64 (nlit 1 2) (nadd a b)) as [Em Fm].
  - apply finite_lit_half.
  - exact Fs.
  - rewrite B2R_lit_half, Es, Rabs_mult, (Rabs_right (/ 2)) by lra.
    pose proof (rnd64_abs_le (B2R a + B2R b) 1023 ltac:(lia) Hs). lra.
  - assert (Hlo : 2 * B2R a <= B2R (nadd a b)).
    { rewrite Es, <- rnd64_double. apply rnd64_le. lra. }
    assert (Hhi : B2R (nadd a b) <= 2 * B2R b).
    { rewrite Es, <- (rnd64_double b). apply rnd64_le. lra. }
    assert (Hm : B2R a <= B2R m <= B2R b).
    { unfold m. rewrite Em, B2R_lit_half.
      split; [rewrite <- (rnd64_B2R a) at 1 | rewrite <- (rnd64_B2R b)];
        apply rnd64_le; lra. }
    split; [exact Fm|]. split; [exact Hm|]. apply Rabs_le; lra.
Qed.
