(** C51 continued: the classic inversion in IEEE double arithmetic. *)
From Coq Require Import Reals Arith ZArith Lia Lra Psatz Bool.
From Flocq Require Import Core BinarySingleNaN Ulp.
From Verif.Model Require Import Num Robust Con2PrimClassic.
From Verif.Proofs Require Import NumB64 ClassicProofs.
Local Open Scope R_scope.

Notation nan := (B754_nan : B64).

Lemma nan_addl (y : B64) : nadd nan y = nan. Proof. reflexivity. Qed.
Lemma nan_addr (y : B64) : nadd y nan = nan. Proof. destruct y; reflexivity. Qed.
Lemma nan_subl (y : B64) : nsub nan y = nan. Proof. reflexivity. Qed.
Lemma nan_subr (y : B64) : nsub y nan = nan. Proof. destruct y; reflexivity. Qed.
Lemma nan_mull (y : B64) : nmul nan y = nan. Proof. reflexivity. Qed.
Lemma nan_mulr (y : B64) : nmul y nan = nan. Proof. destruct y; reflexivity. Qed.
Lemma nan_divl (y : B64) : ndiv nan y = nan. Proof. reflexivity. Qed.
Lemma nan_divr (y : B64) : ndiv y nan = nan. Proof. destruct y; reflexivity. Qed.
Lemma nan_ltl (y : B64) : nlt nan y = false. Proof. reflexivity. Qed.
Lemma nan_ler (y : B64) : nle nan y = false. Proof. reflexivity. Qed.

Section NaN.
Variables (P E : B64 -> B64 -> B64) (D tau Bsq Ssq BdotS tol : B64) (mx : Z).
Lemma residual_nan Te : residual P E D tau Bsq Ssq BdotS nan Te = (nan, nan).
Proof. unfold residual, sfunc, taufunc. cbv zeta. rewrite !nan_divr, !nan_mulr. reflexivity. Qed.

Lemma pass_nan s : it_rho s = nan -> it_res s = (nan, nan) -> it_conv s = false ->
  let s' := pass P E D tau Bsq Ssq BdotS tol s in it_rho s' = nan /\ it_res s' = (nan, nan) /\ it_conv s' = false.
Proof.
  intros H1 H2 H3. unfold pass. rewrite H1, H2, H3.
  assert (EJ : jacobian P E D tau Bsq Ssq BdotS tol (it_fact s) nan (it_T s) (nan, nan) = ((nan, nan), (nan, nan))).
  { unfold jacobian. cbv zeta. cbn [fst snd]. rewrite !nan_subr, !nan_mull. reflexivity. }
  rewrite EJ. unfold jdet. cbn [fst snd]. rewrite !nan_mull, !nan_subl. change (nabs nan) with nan. rewrite nan_ltl.
  rewrite ?nan_subl, ?nan_mull, ?nan_divl, ?nan_ltl. cbn [andb].
  rewrite !nan_addl, residual_nan.
  assert (EN : norm_res (nan, nan) = nan) by reflexivity. cbn [line_search]. rewrite EN, nan_ler.
  cbn [it_rho it_res it_conv]. repeat split.
Qed.
End NaN.

(** A NaN density guess makes the solver run through all its passes and report failure,
    whatever the conserved state and the equation of state; the density stays NaN. *)
Theorem C51_nan : forall (P E : B64 -> B64 -> B64) (D tau Bsq Ssq BdotS tol Temp : B64) (mx : Z),
  let out := solve_classic P E D tau Bsq Ssq BdotS tol mx nan Temp in
  fst out = false /\ it_n (snd out) = Z.max 1 mx /\ it_rho (snd out) = nan.
Proof.
  intros P E D tau Bsq Ssq BdotS tol Temp mx out.
  set (s := mkIt nan Temp (residual P E D tau Bsq Ssq BdotS nan Temp) delta_fact_min 0 false).
  set (Q := fun s : It => it_rho s = nan /\ it_res s = (nan, nan) /\ it_conv s = false).
  assert (Qp : forall t, Q t -> Q (pass P E D tau Bsq Ssq BdotS tol t)).
  { intros t (A & B & C). apply pass_nan; assumption. }
  assert (Qs : Q s) by (repeat split; apply residual_nan).
  destruct (loop_pass P E D tau Bsq Ssq BdotS tol mx (Z.to_nat mx) s eq_refl) as (k & s1 & E1 & L & C & El & F & G).
  assert (Q1 : Q (pass P E D tau Bsq Ssq BdotS tol s1)) by (apply Qp; rewrite E1; apply iter_inv; assumption).
  change (snd out) with (loop P E D tau Bsq Ssq BdotS tol mx (Z.to_nat mx) s).
  change (fst out) with (it_conv (loop P E D tau Bsq Ssq BdotS tol mx (Z.to_nat mx) s)). rewrite El.
  destruct Q1 as (Q1 & _ & Q3). split; [exact Q3|]. split; [|exact Q1].
  rewrite pass_n. rewrite E1 in G |- *. rewrite iter_n in *. cbn [it_n s] in *.
  destruct (F Q3) as [K|K].
  - destruct k as [|k]; [lia|]. specialize (G ltac:(lia)). lia.
  - rewrite pass_n, E1, iter_n in K. cbn [it_n s] in K. destruct k as [|k]; [lia|]. specialize (G ltac:(lia)). lia.
Qed.
Print Assumptions C51_nan.

(** Setup's density guess uses sqrt(1 / (1 - v.v)) with the stored velocity, which is
    W times the velocity: as soon as (W v)^2 > 1, that is v > c / sqrt 2, the guess is NaN. *)
Theorem C51_guess_refuted : forall (D vv : B64), is_finite vv = true -> 1 < B2R vv <= bpow radix2 1000 ->
  initial_rho D vv = nan.
Proof.
  intros D vv Fv [L U].
  assert (L2 : 1 + bpow radix2 (-52) <= B2R vv).
  { assert (K : succ radix2 fexp64 (bpow radix2 0) <= B2R vv).
    { apply succ_le_lt; [auto with typeclass_instances| |apply generic_format_B2R|cbn; lra].
      apply generic_format_bpow. rewrite fexp64_FLT. unfold FLT_exp. lia. }
    rewrite succ_eq_pos in K by (cbn; lra). rewrite ulp_bpow in K.
    replace (fexp64 (0 + 1)) with (-52)%Z in K by reflexivity. cbn [bpow] in K |- *. lra. }
  set (d := nsub (nlit 1 1) vv : B64).
  assert (B52 : 0 < bpow radix2 (-52)) by apply bpow_gt_0.
  assert (Hd : B2R d = rnd64 (1 - B2R vv) /\ is_finite d = true).
  { generalize (Bminus_correct prec64 emax64 _ _ mode_NE (nlit 1 1 : B64) vv).
    change (round radix2 fexp64 (round_mode mode_NE)) with rnd64. rewrite B2R_lit_one.
    rewrite rnd64_overflow_free.
    - intros K. destruct K as (K1 & K2 & _); [vm_compute; reflexivity|exact Fv|]. split; assumption.
    - rewrite Rabs_left by lra. assert (bpow radix2 1000 <= bpow radix2 1023) by (apply bpow_le; lia). lra. }
  destruct Hd as [Ed Fd].
  assert (D1 : B2R d <= - bpow radix2 (-52)).
  { rewrite Ed. rewrite <- (rnd64_bpow (-52)) by lia. rewrite <- rnd64_opp. apply rnd64_le. lra. }
  assert (D2 : - bpow radix2 1000 <= B2R d).
  { rewrite Ed. rewrite <- (rnd64_bpow 1000) by lia. rewrite <- rnd64_opp. apply rnd64_le. lra. }
  assert (Iu : - bpow radix2 52 <= 1 / B2R d <= - bpow radix2 (-1000)).
  { assert (Hn : 0 < - B2R d) by lra.
    assert (I1 : / (- B2R d) <= / bpow radix2 (-52)) by (apply Rinv_le_contravar; lra).
    assert (I2 : / bpow radix2 1000 <= / (- B2R d)) by (apply Rinv_le_contravar; lra).
    rewrite <- bpow_opp in I1, I2. replace (1 / B2R d) with (- / (- B2R d)) by (field; lra).
    change (- -52)%Z with 52%Z in I1. change (- (1000))%Z with (-1000)%Z in I2. lra. }
  assert (B1000 : 0 < bpow radix2 (-1000)) by apply bpow_gt_0.
  assert (Hq : B2R (ndiv (nlit 1 1) d : B64) = rnd64 (1 / B2R d) /\ is_finite (ndiv (nlit 1 1) d : B64) = true).
  { pose proof (div64 (nlit 1 1) d) as K. rewrite B2R_lit_one in K. apply K; [vm_compute; reflexivity|lra|].
    rewrite Rabs_left by lra. assert (bpow radix2 52 <= bpow radix2 1023) by (apply bpow_le; lia). lra. }
  destruct Hq as [Eq Fq].
  assert (Qn : B2R (ndiv (nlit 1 1) d : B64) < 0).
  { rewrite Eq. apply Rle_lt_trans with (- bpow radix2 (-1000)); [|lra].
    rewrite <- (rnd64_bpow (-1000)) by lia. rewrite <- rnd64_opp. apply rnd64_le. lra. }
  unfold initial_rho. fold d. set (q := ndiv (nlit 1 1) d : B64) in *. clearbody q.
  destruct q as [b|b| |b m e He]; cbn in Fq; try discriminate.
  - cbn in Qn. lra.
  - destruct b.
    + change (nsqrt (B754_finite true m e He : B64)) with nan. apply nan_divr.
    + exfalso. cbn in Qn. assert (K := F2R_gt_0 radix2 (Float radix2 (Zpos m) e) eq_refl). cbn in K. lra.
Qed.
Print Assumptions C51_guess_refuted.
Example C51_guess_nonvacuous : is_finite (nlit 2 1 : B64) = true /\ 1 < B2R (nlit 2 1 : B64) <= bpow radix2 1000.
Proof.
  split; [vm_compute; reflexivity|].
  assert (E : B2SF (nlit 2 1 : B64) = SpecFloat.S754_finite false (2 ^ 52) (-51)) by (vm_compute; reflexivity).
  assert (E2 : B2R (nlit 2 1 : B64) = 2) by (rewrite <- SF2R_B2SF, E; unfold SF2R, F2R; cbn -[Rmult Rinv]; lra).
  rewrite E2. split; [lra|]. change 2 with (bpow radix2 1). apply bpow_le. lia.
Qed.
