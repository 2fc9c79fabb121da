(** C01: guarded arithmetic helpers.  Theorem statements only; proofs are in
    Proofs/RobustProofs.v. *)
From Coq Require Import ZArith Reals Lra.
From Flocq Require Import Core BinarySingleNaN.
From Verif.Model Require Import Num Robust.
From Verif.Proofs Require Import NumR RobustProofs.
Local Open Scope R_scope.

Theorem C01_make_positive : forall v : R,
  10 / 2 ^ 52 <= make_positive v /\
  (10 / 2 ^ 52 <= v -> make_positive v = v) /\
  (v < 10 / 2 ^ 52 -> make_positive v = 10 / 2 ^ 52).
Proof.
  intros v. rewrite <- EPS_R. destruct (make_positive_spec v) as (H1 & _ & H3 & H4).
  exact (conj H1 (conj H3 H4)).
Qed.
Print Assumptions C01_make_positive.

Theorem C01_make_bounded : forall v lo hi : R,
  let e := 10 / 2 ^ 52 in
  lo + e <= hi * (1 - e) ->
  (lo + e <= make_bounded v lo hi <= hi * (1 - e)) /\
  (lo + e <= v <= hi * (1 - e) -> make_bounded v lo hi = v) /\
  (v <= lo + e -> make_bounded v lo hi = lo + e) /\
  (hi * (1 - e) <= v -> make_bounded v lo hi = hi * (1 - e)).
Proof. intros v lo hi. cbv zeta. rewrite <- EPS_R. exact (make_bounded_spec v lo hi). Qed.
Print Assumptions C01_make_bounded.
Example C01_make_bounded_nonvacuous : 0 + 10 / 2 ^ 52 <= 1 * (1 - 10 / 2 ^ 52).
Proof. lra. Qed.

(** ratio(a,b) divides by a nonzero number of the sign of b whose magnitude is
    |b| + SMALL, so it is a/b up to the factor 1/(1 + SMALL/|b|). *)
Theorem C01_ratio_guard : forall a b : R,
  exists d, d <> 0 /\ ratio a b = a / d /\
    Rabs d = Rabs b + 10 * bpow radix2 (-1022) /\ 0 <= b * d.
Proof. intros a b. rewrite <- SMALL_R. exact (ratio_no_div_zero a b). Qed.
Print Assumptions C01_ratio_guard.

Theorem C01_sgn : forall v : R,
  (0 <= v -> sgn v = 1%Z) /\ (v < 0 -> sgn v = (-1)%Z).
Proof. intros v. rewrite sgn_R. destruct (Rle_dec 0 v); split; intros; lra || reflexivity. Qed.
Print Assumptions C01_sgn.

(** In double precision: every input that is not NaN, including infinities and
    subnormals, is mapped to at least EPS, and inputs already above EPS are
    returned unchanged. *)
Theorem C01_make_positive_b64 : forall v : B64, is_nan v = false ->
  is_nan (make_positive v) = false /\ Bleb EPS (make_positive v) = true /\
  (Bleb EPS v = true -> make_positive v = v).
Proof. exact make_positive_B64. Qed.
Print Assumptions C01_make_positive_b64.

(** ... but NaN is propagated: std::max(val, EPS) returns val when val is NaN. *)
Theorem C01_make_positive_nan_refuted : exists v : B64,
  Bleb EPS (make_positive v) = false.
Proof. exists B754_nan. vm_compute. reflexivity. Qed.
Print Assumptions C01_make_positive_nan_refuted.

(** ratio never produces NaN from finite inputs, never overflows for |a| <= 1,
    and is the correctly rounded quotient a/b whenever |b| >= 2^-965. *)
Theorem C01_ratio_not_nan_b64 : forall a b : B64,
  is_finite a = true -> is_finite b = true -> is_nan (ratio a b) = false.
Proof. exact ratio_not_nan_B64. Qed.
Print Assumptions C01_ratio_not_nan_b64.

Theorem C01_ratio_finite_b64 : forall a b : B64,
  is_finite a = true -> is_finite b = true -> Rabs (B2R a) <= 1 ->
  is_finite (ratio a b) = true.
Proof. exact ratio_finite_B64. Qed.
Print Assumptions C01_ratio_finite_b64.

Theorem C01_ratio_exact_b64 : forall a b : B64,
  is_finite b = true -> bpow radix2 (-965) <= Rabs (B2R b) ->
  ratio a b = Bdiv mode_NE a b.
Proof. exact ratio_exact_B64. Qed.
Print Assumptions C01_ratio_exact_b64.
Example C01_ratio_exact_nonvacuous :
  is_finite (nlit 1 2 : B64) = true /\ bpow radix2 (-965) <= Rabs (B2R (nlit 1 2 : B64)).
Proof.
  split; [vm_compute; reflexivity|]. rewrite NumB64.B2R_lit_half, Rabs_right by lra.
  change (/ 2) with (bpow radix2 (-1)). apply bpow_le. discriminate.
Qed.
