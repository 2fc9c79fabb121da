(** C05 in the arithmetic the code runs: IEEE binary64 with round to nearest even.
    Proofs are in Proofs/ReconB64.v. *)
From Coq Require Import ZArith Reals Lra Bool.
From Flocq Require Import Core BinarySingleNaN.
From Verif.Model Require Import Num Reconstruction ReconIEEE.
From Verif.Spec Require Import ReconSpec.
From Verif.Proofs Require Import NumR NumB64 ReconB64.
Local Open Scope R_scope.

(** the definitions read over R are those of Model/Reconstruction.v *)
Theorem C05_ieee_same_code : forall qm q0 qp : R,
  g_PiecewiseLinear (T := R) copysign qm q0 qp = PiecewiseLinear qm q0 qp.
Proof.
  intros. unfold g_PiecewiseLinear, PiecewiseLinear, g_mc, mc. num_R.
  replace (0 / 1) with 0 by field. replace (1 / 1) with 1 by field. reflexivity.
Qed.
Print Assumptions C05_ieee_same_code.

(** no overshoot survives the seven roundings: for all finite doubles up to 2^1020 the
    upper-face state lies between this cell and the next, the lower-face state between
    the previous cell and this one, exactly, and both are finite *)
Theorem C05_ieee_no_new_extrema : forall qm q0 qp ql qr : B64,
  is_finite qm = true -> is_finite q0 = true -> is_finite qp = true ->
  Rabs (B2R qm) <= bpow radix2 1020 -> Rabs (B2R q0) <= bpow radix2 1020 ->
  Rabs (B2R qp) <= bpow radix2 1020 ->
  PiecewiseLinear64 qm q0 qp = (ql, qr) ->
  is_finite ql = true /\ is_finite qr = true /\
  between (B2R q0) (B2R qp) (B2R ql) /\ between (B2R qm) (B2R q0) (B2R qr).
Proof. exact plm64_between. Qed.
Print Assumptions C05_ieee_no_new_extrema.

(** a quantity that is at least a floor in three cells is at least that floor on the
    faces: positive density stays positive, and a uniform state is reproduced exactly *)
Theorem C05_ieee_floor : forall (qm q0 qp ql qr : B64) (m : R),
  is_finite qm = true -> is_finite q0 = true -> is_finite qp = true ->
  Rabs (B2R qm) <= bpow radix2 1020 -> Rabs (B2R q0) <= bpow radix2 1020 ->
  Rabs (B2R qp) <= bpow radix2 1020 ->
  PiecewiseLinear64 qm q0 qp = (ql, qr) ->
  (m <= B2R qm -> m <= B2R q0 -> m <= B2R qp -> m <= B2R ql /\ m <= B2R qr) /\
  (B2R qp = B2R q0 -> B2R ql = B2R q0) /\ (B2R qm = B2R q0 -> B2R qr = B2R q0).
Proof.
  intros qm q0 qp ql qr m Fm F0 Fp Hm H0 Hp E.
  destruct (plm64_between qm q0 qp ql qr Fm F0 Fp Hm H0 Hp E) as (_ & _ & [L1 L2] & [R1 R2]).
  split; [|split].
  - intros A B C. split; (eapply Rle_trans; [|eassumption]); apply Rmin_glb; assumption.
  - intros Q. rewrite Q, Rmin_left in L1 by lra. rewrite Q, Rmax_left in L2 by lra. lra.
  - intros Q. rewrite Q, Rmin_left in R1 by lra. rewrite Q, Rmax_left in R2 by lra. lra.
Qed.
Print Assumptions C05_ieee_floor.

(** a NaN anywhere in the stencil is reported on both faces, never masked *)
Theorem C05_ieee_nan : forall qm q0 qp : B64,
  is_nan qm = true \/ is_nan q0 = true \/ is_nan qp = true ->
  is_nan (fst (PiecewiseLinear64 qm q0 qp)) = true /\ is_nan (snd (PiecewiseLinear64 qm q0 qp)) = true.
Proof. exact plm64_nan. Qed.
Print Assumptions C05_ieee_nan.

(** the magnitude bound cannot be dropped: with neighbours of opposite sign near the
    largest double the difference overflows and a finite stencil gives NaN faces *)
Theorem C05_ieee_overflow_refuted : exists qm q0 qp : B64,
  is_finite qm = true /\ is_finite q0 = true /\ is_finite qp = true /\
  is_nan (fst (PiecewiseLinear64 qm q0 qp)) = true.
Proof.
  exists (b64_of_Z (- 2 ^ 1023)), (b64_of_Z (2 ^ 1023)), (b64_of_Z (2 ^ 1023)).
  vm_compute. auto.
Qed.
Print Assumptions C05_ieee_overflow_refuted.

(** a limited slope: averages 1, 1.1, 3.1 give the face 1.1 + 0.5 * (1.5 * 0.1), rounded,
    strictly between the neighbours and not the cell value *)
Example C05_ieee_nonvacuous :
  let '(ql, qr) := PiecewiseLinear64 (nlit 1 1) (nlit 11 10) (nlit 31 10) in
  nlt (nlit 11 10) ql = true /\ nlt ql (nlit 31 10) = true /\
  nlt (nlit 1 1) qr = true /\ nlt qr (nlit 11 10) = true /\
  nlt ql (nlit 1176 1000) = true /\ nlt (nlit 1174 1000) ql = true.
Proof. vm_compute. repeat split. Qed.
Example C05_ieee_hypotheses_met :
  Rabs (B2R (nlit 1 1 : B64)) <= bpow radix2 1020 /\ is_finite (nlit 1 1 : B64) = true.
Proof.
  rewrite B2R_lit_one, Rabs_R1. split; [|vm_compute; reflexivity].
  apply (bpow_le radix2 0 1020). discriminate.
Qed.
