(** C06, C07 in the arithmetic the code runs: IEEE binary64.  Proofs are in
    Proofs/WenoB64b.v and Proofs/Mp5B64.v. *)
From Coq Require Import ZArith Reals Lra Lia Bool.
From Flocq Require Import Core BinarySingleNaN.
From Verif.Model Require Import Num Reconstruction ReconIEEE.
From Verif.Proofs Require Import NumR NumB64 ReconB64 WenoB64 WenoB64b Mp5B64.
Local Open Scope R_scope.

(** a finite double of magnitude at most 2^e *)
Definition small (x : B64) (e : Z) : Prop := is_finite x = true /\ Rabs (B2R x) <= bpow radix2 e.

(** the definitions read over R are those of Model/Reconstruction.v *)
Theorem C06_ieee_same_code : forall q0 q1 q2 q3 q4 : R,
  g_WENO5Z (T := R) copysign q0 q1 q2 q3 q4 = WENO5Z q0 q1 q2 q3 q4.
Proof.
  intros. unfold g_WENO5Z, WENO5Z, weno_betas, weno_alpha_lin, weno_alpha, weno_face, g_beta, weno_beta,
    g_face, g_alpha, g_mc, mc, g_eps, weno_eps. num_R.
  change (IZR (Z.pos (10 ^ 100))) with (IZR (10 ^ 100)). rewrite (pow_IZR 10 100).
  change (10 ^ Z.of_nat 100)%Z with (10 ^ 100)%Z.
  set (t := IZR (10 ^ 100)). clearbody t.
  replace (0 / 1) with 0 by field. replace (1 / 1) with 1 by field. replace (2 / 1) with 2 by field.
  replace (3 / 1) with 3 by field. replace (4 / 1) with 4 by field. unfold Rdiv. rewrite !(Rmult_1_l (/ t)).
  reflexivity.
Qed.
Print Assumptions C06_ieee_same_code.

Theorem C07_ieee_same_code : forall q0 q1 q2 q3 q4 : R,
  g_MP5 (T := R) q0 q1 q2 q3 q4 = MP5 q0 q1 q2 q3 q4.
Proof.
  intros.
  assert (Mn : forall a b : R, g_fmin a b = Rmin a b).
  { intros a b. unfold g_fmin. cbn [nlt Num_R]. destruct (Rlt_bool_spec b a); [rewrite Rmin_right|rewrite Rmin_left]; lra. }
  assert (Mx : forall a b : R, g_fmax a b = Rmax a b).
  { intros a b. unfold g_fmax. cbn [nlt Num_R]. destruct (Rlt_bool_spec a b); [rewrite Rmax_right|rewrite Rmax_left]; lra. }
  assert (Mm : forall a b : R, g_MINMOD a b = MINMOD a b).
  { intros a b. unfold g_MINMOD, MINMOD. num_R. replace (0 / 1) with 0 by field. reflexivity. }
  assert (S : forall a b c d e : R, g_mp5_subcalc a b c d e = mp5_subcalc a b c d e).
  { intros. unfold g_mp5_subcalc, mp5_subcalc, mp5_fMP, g_mp5_unlimited, mp5_unlimited, g_mp5_interval, mp5_interval, g_Median, Median.
    cbn [fst snd]. rewrite !Mn, !Mx, !Mm. num_R.
    change (IZR (Z.pos (10 ^ 12))) with (IZR (10 ^ 12)). rewrite (pow_IZR 10 12).
    change (10 ^ Z.of_nat 12)%Z with (10 ^ 12)%Z. set (t := IZR (10 ^ 12)). clearbody t.
    replace (2 / 1) with 2 by field. replace (13 / 1) with 13 by field. replace (47 / 1) with 47 by field.
    replace (27 / 1) with 27 by field. replace (3 / 1) with 3 by field. replace (60 / 1) with 60 by field.
    replace (4 / 1) with 4 by field. replace (1 / t) with (/ t) by (unfold Rdiv; ring). reflexivity. }
  unfold g_MP5, MP5. rewrite !S. reflexivity.
Qed.
Print Assumptions C07_ieee_same_code.

(** WENO5-Z never divides by zero, never overflows and never produces a NaN, however
    uneven the smoothness indicators, for all stencils of finite doubles up to 2^80
    (1.2e24): the ratios reach 2^506 there and their products still fit *)
Theorem C06_ieee_finite : forall q0 q1 q2 q3 q4 ql qr : B64,
  small q0 80 -> small q1 80 -> small q2 80 -> small q3 80 -> small q4 80 ->
  WENO5Z64 q0 q1 q2 q3 q4 = (ql, qr) ->
  is_finite ql = true /\ is_finite qr = true.
Proof.
  intros q0 q1 q2 q3 q4 ql qr H0 H1 H2 H3 H4 E.
  destruct (weno64_finite q0 q1 q2 q3 q4 H0 H1 H2 H3 H4) as [[A _] [B _]].
  rewrite E in A, B. split; assumption.
Qed.
Print Assumptions C06_ieee_finite.

(** a bound is needed: beyond 2^512 the squared differences overflow and a finite
    stencil gives a NaN face *)
Theorem C06_ieee_overflow_refuted : exists q0 q1 q2 q3 q4 : B64,
  is_finite q0 = true /\ is_finite q1 = true /\ is_finite q2 = true /\ is_finite q3 = true /\
  is_finite q4 = true /\ is_nan (fst (WENO5Z64 q0 q1 q2 q3 q4)) = true.
Proof.
  exists (b64_of_Z 0), (b64_of_Z 0), (b64_of_Z 0), (b64_of_Z 0), (b64_of_Z (2 ^ 600)).
  vm_compute. repeat split.
Qed.
Print Assumptions C06_ieee_overflow_refuted.

(** MP5 is finite for all stencils of finite doubles up to 2^1000 *)
Theorem C07_ieee_finite : forall q0 q1 q2 q3 q4 ql qr : B64,
  small q0 1000 -> small q1 1000 -> small q2 1000 -> small q3 1000 -> small q4 1000 ->
  MP564 q0 q1 q2 q3 q4 = (ql, qr) ->
  is_finite ql = true /\ is_finite qr = true.
Proof.
  intros q0 q1 q2 q3 q4 ql qr H0 H1 H2 H3 H4 E. unfold MP564, g_MP5 in E.
  pose proof (subcalc_fin q0 q1 q2 q3 q4 H0 H1 H2 H3 H4) as [A _].
  pose proof (subcalc_fin q4 q3 q2 q1 q0 H4 H3 H2 H1 H0) as [B _].
  assert (El := f_equal fst E). assert (Er := f_equal snd E). cbn [fst snd] in El, Er.
  rewrite El in A. rewrite Er in B. split; assumption.
Qed.
Print Assumptions C07_ieee_finite.

(** a step: the smoothness ratio is 1e100 and the face stays next to the data *)
Example C06_ieee_nonvacuous :
  small (nlit 0 1) 80 /\ small (nlit 1 1) 80 /\
  let '(ql, qr) := WENO5Z64 (nlit 0 1) (nlit 0 1) (nlit 0 1) (nlit 1 1) (nlit 1 1) in
  nlt (nabs ql) (nlit 1 1000) = true /\ nlt (nabs qr) (nlit 1 1000) = true /\
  let '(pl, pr) := WENO5Z64 (nlit 1 1) (nlit 2 1) (nlit 4 1) (nlit 6 1) (nlit 7 1) in
  nlt (nlit 4 1) pl = true /\ nlt pl (nlit 6 1) = true /\ nlt (nlit 2 1) pr = true /\ nlt pr (nlit 4 1) = true.
Proof.
  split; [change (fin (nlit 0 1) 80); lit|]. split; [change (fin (nlit 1 1) 80); lit|].
  vm_compute. repeat split.
Qed.
Example C07_ieee_nonvacuous :
  let '(ql, qr) := MP564 (nlit 1 1) (nlit 2 1) (nlit 4 1) (nlit 6 1) (nlit 7 1) in
  nlt (nlit 4 1) ql = true /\ nlt ql (nlit 6 1) = true /\ nlt (nlit 2 1) qr = true /\ nlt qr (nlit 4 1) = true.
Proof. vm_compute. repeat split. Qed.
