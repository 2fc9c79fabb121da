(** C60: the derived fields of an output file. *)
From Coq Require Import Reals List Arith Lia Lra Psatz String Machin Ratan FunctionalExtensionality.
From Coquelicot Require Import Coquelicot.
From Flocq Require Import Core.
From Verif.Model Require Import Num Robust Relativity Config OutputDiag.
From Verif.Spec Require Import Tensor ConfigSpec OutputSpec.
From Verif.Proofs Require Import NumR RobustProofs.
Import ListNotations.
Local Open Scope R_scope.

(** *** names for what the output contains *)
Section Fields.
Context (E : OutEos) (sigma : R) (ndim : nat) (junk : mat) (dx : vec) (rho T : nat -> nat -> nat -> R) (z : nat -> nat -> nat -> OutZone) (x3 : R) (k j i : nat).
Definition entropy_out : R := let '(s, _, _, _, _) := UserWorkBeforeOutput E sigma ndim junk dx rho T z x3 k j i in s.
Definition cs_out : R := let '(_, c, _, _, _) := UserWorkBeforeOutput E sigma ndim junk dx rho T z x3 k j i in c.
Definition divv_over_cs_out : R := let '(_, _, q, _, _) := UserWorkBeforeOutput E sigma ndim junk dx rho T z x3 k j i in q.
Definition entropy_z0_out : R := let '(_, _, _, s, _) := UserWorkBeforeOutput E sigma ndim junk dx rho T z x3 k j i in s.
Definition sie_out : R := let '(_, _, _, _, e) := UserWorkBeforeOutput E sigma ndim junk dx rho T z x3 k j i in e.
End Fields.
(** the zone's volume flux, and the neighbour below in direction d *)
Definition zflux (z : OutZone) (d : nat) : R := volume_flux (o_lapse z) (o_sdet z) (o_gamma z) (o_vp z) d.
Definition below (z : nat -> nat -> nat -> OutZone) (d k j i : nat) : OutZone :=
  match d with 0%nat => z k j (i - 1)%nat | 1%nat => z k (j - 1)%nat i | _ => z (k - 1)%nat j i end.
Fixpoint sum_to (n : nat) (f : nat -> R) : R := match n with O => 0 | S m => sum_to m f + f m end.

(** *** thermodynamics *)
Theorem C60_thermodynamics : forall E sigma ndim junk dx rho T z x3 k j i,
  let r := rho k j i in let t := T k j i in
  let h := enthalpy r (e_sie E r t) (e_pressure E r t) in
  0 < r -> 0 < h -> 0 <= e_bmod E r t ->
  entropy_out E sigma ndim junk dx rho T z x3 k j i = e_entropy E r t /\
  sie_out E sigma ndim junk dx rho T z x3 k j i = e_sie E r t /\
  is_sound_speed (cs_out E sigma ndim junk dx rho T z x3 k j i) r (e_sie E r t) (e_pressure E r t) (e_bmod E r t) /\
  (e_bmod E r t <= r * h -> cs_out E sigma ndim junk dx rho T z x3 k j i <= 1).
Proof.
  intros E sigma ndim junk dx rho T z x3 k j i r t h Hr Hh Hb. split; [reflexivity|]. split; [reflexivity|].
  change (cs_out E sigma ndim junk dx rho T z x3 k j i) with (sqrt (e_bmod E r t / r / (e_sie E r t + e_pressure E r t / r + 1))).
  replace (e_sie E r t + e_pressure E r t / r + 1) with h by (unfold h, enthalpy; ring).
  assert (Q : 0 <= e_bmod E r t / r / h). { apply Rmult_le_pos; [apply Rmult_le_pos; [exact Hb|]|]; left; apply Rinv_0_lt_compat; assumption. }
  split; [split; [apply sqrt_pos|]|].
  - fold h. rewrite sqrt_sqrt by exact Q. field. lra.
  - intros C. rewrite <- sqrt_1. apply sqrt_le_1_alt. apply (Rmult_le_reg_r (r * h)); [apply Rmult_lt_0_compat; assumption|].
    replace (e_bmod E r t / r / h * (r * h)) with (e_bmod E r t) by (field; lra). lra.
Qed.
Print Assumptions C60_thermodynamics.

(** *** divergence of the velocity *)
Lemma lorentz_dot u g : GetLorentzFactor u g = sqrt (1 + dot3 g u u).
Proof. reflexivity. Qed.
Lemma term_flux ig here b dx d : out_term ig here b (GetLorentzFactor (o_vp b) (o_gamma b)) dx d = ig * ((zflux here d - zflux b d) / dx d).
Proof. unfold out_term, zflux, volume_flux. rewrite !lorentz_dot. unfold Rdiv. ring. Qed.
Lemma divv_flux ndim junk dx z k j i : (1 <= ndim)%nat -> (ndim <= 2)%nat \/ ndim = 3%nat /\ junk = o_gamma (below z 2 k j i) ->
  out_divv ndim junk dx z k j i = ratio 1 (o_sdet (z k j i)) * sum_to ndim (fun d => (zflux (z k j i) d - zflux (below z d k j i) d) / dx d).
Proof.
  intros H1 H. unfold out_divv. rewrite !term_flux. destruct H as [H|[-> ->]].
  - assert (N : ndim = 1%nat \/ ndim = 2%nat) by lia. destruct N as [-> | ->]; cbn [Nat.leb sum_to below]; ring.
  - cbn [Nat.leb]. change (o_gamma (below z 2 k j i)) with (o_gamma (z (k - 1)%nat j i)). rewrite term_flux. cbn [sum_to below]. ring.
Qed.
(** In one and two dimensions the divergence is the sum of the one-sided differences of the
    volume flux, per volume element (the code divides by it with robust::ratio, hence SMALL).
    In three dimensions too if gam3 happens to hold the metric of the zone below *)
Theorem C60_divergence : forall E sigma ndim junk dx rho T z x3 k j i,
  (1 <= ndim)%nat -> (ndim <= 2)%nat \/ ndim = 3%nat /\ junk = o_gamma (below z 2 k j i) ->
  0 < o_sdet (z k j i) -> 0 < cs_out E sigma ndim junk dx rho T z x3 k j i ->
  (o_sdet (z k j i) + SMALL) * (divv_over_cs_out E sigma ndim junk dx rho T z x3 k j i * cs_out E sigma ndim junk dx rho T z x3 k j i) =
  sum_to ndim (fun d => (zflux (z k j i) d - zflux (below z d k j i) d) / dx d).
Proof.
  intros E sigma ndim junk dx rho T z x3 k j i H1 H Hs Hc. pose proof SMALL_pos as Sp.
  change (divv_over_cs_out E sigma ndim junk dx rho T z x3 k j i) with (out_divv ndim junk dx z k j i / cs_out E sigma ndim junk dx rho T z x3 k j i).
  rewrite divv_flux by assumption. rewrite ratio_R. destruct (Rle_dec 0 (o_sdet (z k j i))); [|lra]. field. split; lra.
Qed.
Print Assumptions C60_divergence.

(** Smooth flows: it approximates the divergence of alpha v to first order in the zone widths.  G d
    is the volume flux along the line through the zone centre in direction d, G' d its derivative *)
Lemma one_sided (g g' : R -> R) x h M : 0 < h -> (forall y, x - h <= y <= x -> derivable_pt_lim g y (g' y)) ->
  (forall y, x - h <= y <= x -> Rabs (g' y - g' x) <= M * (x - y)) -> Rabs ((g x - g (x - h)) / h - g' x) <= M * h.
Proof.
  intros Hh D L. destruct (MVT_cor2 g g' (x - h) x ltac:(lra) D) as (c & Ec & Hc). replace (x - (x - h)) with h in Ec by ring.
  rewrite Ec. replace (g' c * h / h) with (g' c) by (field; lra). apply Rle_trans with (1 := L c ltac:(lra)).
  destruct (Rle_or_lt 0 M) as [HM|HM]; [apply Rmult_le_compat_l; lra|]. exfalso. pose proof (L c ltac:(lra)). pose proof (Rabs_pos (g' c - g' x)). nra.
Qed.
Lemma sum_to_diff n f g e : (forall d, (d < n)%nat -> Rabs (f d - g d) <= e d) -> Rabs (sum_to n f - sum_to n g) <= sum_to n e.
Proof.
  induction n as [|n IH]; intros H; cbn [sum_to]; [rewrite Rminus_0_r, Rabs_R0; lra|].
  replace (sum_to n f + f n - (sum_to n g + g n)) with (sum_to n f - sum_to n g + (f n - g n)) by ring.
  pose proof (Rabs_triang (sum_to n f - sum_to n g) (f n - g n)). pose proof (H n ltac:(lia)). specialize (IH ltac:(intros; apply H; lia)). lra.
Qed.
Theorem C60_continuum : forall E sigma ndim junk dx rho T z x3 k j i (x : vec) (G G' : nat -> R -> R) (M : nat -> R),
  (1 <= ndim)%nat -> (ndim <= 2)%nat \/ ndim = 3%nat /\ junk = o_gamma (below z 2 k j i) ->
  0 < o_sdet (z k j i) -> 0 < cs_out E sigma ndim junk dx rho T z x3 k j i ->
  (forall d, (d < ndim)%nat -> 0 < dx d /\ zflux (z k j i) d = G d (x d) /\ zflux (below z d k j i) d = G d (x d - dx d) /\
    (forall y, x d - dx d <= y <= x d -> derivable_pt_lim (G d) y (G' d y)) /\ (forall y, x d - dx d <= y <= x d -> Rabs (G' d y - G' d (x d)) <= M d * (x d - y))) ->
  Rabs ((o_sdet (z k j i) + SMALL) * (divv_over_cs_out E sigma ndim junk dx rho T z x3 k j i * cs_out E sigma ndim junk dx rho T z x3 k j i)
        - sum_to ndim (fun d => G' d (x d))) <= sum_to ndim (fun d => M d * dx d).
Proof.
  intros E sigma ndim junk dx rho T z x3 k j i x G G' M H1 H Hs Hc HG. rewrite C60_divergence by assumption. apply sum_to_diff.
  intros d Hd. destruct (HG d Hd) as (A & -> & -> & D & L). apply one_sided; assumption.
Qed.
Print Assumptions C60_continuum.

(** Summed over a row of zones the divergence is what leaves minus what enters: the volume fluxes of
    the zones in between cancel (one dimension) *)
Theorem C60_telescopes : forall junk dx z k j i n, dx 0%nat <> 0 -> (forall m, 0 < o_sdet (z k j m)) ->
  sum_to n (fun m => (o_sdet (z k j (i + S m)%nat) + SMALL) * out_divv 1 junk dx z k j (i + S m) * dx 0%nat) =
  zflux (z k j (i + n)%nat) 0 - zflux (z k j i) 0.
Proof.
  intros junk dx z k j i n Hd Hs. pose proof SMALL_pos as Sp. induction n as [|n IH]; cbn [sum_to]; [rewrite Nat.add_0_r; ring|].
  rewrite IH. rewrite divv_flux by (try left; lia). cbn [sum_to below]. replace (i + S n - 1)%nat with (i + n)%nat by lia. rewrite ratio_R.
  pose proof (Hs (i + S n)%nat) as P. destruct (Rle_dec 0 (o_sdet (z k j (i + S n)%nat))); [|lra]. field. split; lra.
Qed.
Print Assumptions C60_telescopes.

(** *** three dimensions: gam3 is never filled, and the value written depends on that memory.  For any
    uniform flow with a third component, in flat space, whose divergence is zero, the value can be
    anything of either sign: beyond every bound M *)
Definition uniform (u : vec) (k j i : nat) : OutZone := mkOutZone u delta 1 1.
Theorem C60_memory_refuted : forall (u : vec) dx M, u 2%nat <> 0 -> 0 < dx 2%nat ->
  (forall d k j i, zflux (uniform u k j i) d - zflux (below (uniform u) d k j i) d = 0) /\
  exists junk, Rabs (out_divv 3 junk dx (uniform u) 1 1 1) > M.
Proof.
  intros u dx M Hu Hd. split. { intros d k j i. unfold below. destruct d as [|[|d]]; unfold uniform; ring. }
  pose proof SMALL_pos as Sp. set (W := GetLorentzFactor u delta). assert (W1 : 1 <= W).
  { unfold W. rewrite lorentz_dot. rewrite <- sqrt_1 at 1. apply sqrt_le_1_alt. unfold dot3, sum3, delta. cbn [Nat.eqb]. nra. }
  set (a := Rabs (u 2%nat)). assert (A0 : 0 < a) by (apply Rabs_pos_lt; exact Hu). set (B := (1 + SMALL) * dx 2%nat * (Rabs M + 1)).
  assert (B0 : 0 < B). { unfold B. apply Rmult_lt_0_compat; [apply Rmult_lt_0_compat; lra|]. pose proof (Rabs_pos M). lra. }
  set (w := a / (B + a)). assert (w0 : 0 < w) by (unfold w; apply Rdiv_lt_0_compat; lra).
  set (junk := fun p q : nat => if (Nat.eqb p 2 && Nat.eqb q 2)%bool then (w * w - 1) / (u 2%nat * u 2%nat) else 0).
  exists junk. assert (Wj : GetLorentzFactor u junk = w).
  { unfold GetLorentzFactor, sum3, junk. cbn [Nat.eqb andb]. match goal with |- sqrt ?x = _ => replace x with (w * w) by (field; exact Hu) end. apply sqrt_square. lra. }
  assert (F : out_divv 3 junk dx (uniform u) 1 1 1 = (u 2%nat / W - u 2%nat / w) / ((1 + SMALL) * dx 2%nat)).
  { unfold out_divv. rewrite !term_flux. cbn [Nat.leb]. unfold uniform at 3 6 8 9. unfold zflux. 
    unfold out_term. cbn [uniform o_vp o_gamma o_sdet o_lapse]. fold W. rewrite Wj. rewrite ratio_R. destruct (Rle_dec 0 1); [|lra].
    replace (volume_flux 1 1 delta u 0 - volume_flux 1 1 delta u 0) with 0 by ring. replace (volume_flux 1 1 delta u 1 - volume_flux 1 1 delta u 1) with 0 by ring. unfold Rdiv at 2 4. rewrite !Rmult_0_l, !Rmult_0_r. field. repeat split; lra. }
  rewrite F. replace ((u 2%nat / W - u 2%nat / w) / ((1 + SMALL) * dx 2%nat)) with (u 2%nat * ((/ W - / w) / ((1 + SMALL) * dx 2%nat))) by (field; repeat split; lra).
  rewrite Rabs_mult. fold a. assert (Iw : / w = B / a + 1) by (unfold w; field; split; lra). assert (IW : / W <= 1) by (rewrite <- Rinv_1; apply Rinv_le_contravar; lra).
  assert (D0 : 0 < (1 + SMALL) * dx 2%nat) by (apply Rmult_lt_0_compat; lra). assert (Ba : 0 < B / a) by (apply Rdiv_lt_0_compat; assumption).
  assert (N : (/ W - / w) / ((1 + SMALL) * dx 2%nat) <= - (B / a) / ((1 + SMALL) * dx 2%nat)) by (apply Rmult_le_compat_r; [left; apply Rinv_0_lt_compat; exact D0|lra]).
  assert (P : 0 < B / a / ((1 + SMALL) * dx 2%nat)) by (apply Rdiv_lt_0_compat; assumption).
  rewrite Rabs_left by (unfold Rdiv in N, P |- *; lra). apply Rlt_gt. apply Rlt_le_trans with (a * (B / a / ((1 + SMALL) * dx 2%nat))).
  - replace (a * (B / a / ((1 + SMALL) * dx 2%nat))) with (Rabs M + 1) by (unfold B; field; repeat split; lra). pose proof (Rle_abs M). lra.
  - apply Rmult_le_compat_l; [lra|]. unfold Rdiv in N |- *. lra.
Qed.
Print Assumptions C60_memory_refuted.

(** *** a shift: matter moves across the grid with alpha v - beta.  Full statement: the divergence is that of this
    velocity.  Violated: matter that does not move on the grid at all (alpha v = beta everywhere)
    is reported to diverge, since the shift is not read *)
Definition carried (k j i : nat) : OutZone := mkOutZone (fun d => if Nat.eqb d 0 then (if Nat.leb i 1 then 0 else 3 / 4) else 0) delta 1 1.
Definition carrying_shift (k j i : nat) : vec := fun d => if Nat.eqb d 0 then (if Nat.leb i 1 then 0 else 3 / 5) else 0.
Theorem C60_shift_refuted : forall dx junk, 0 < dx 0%nat ->
  (forall k j i d, o_lapse (carried k j i) * (o_vp (carried k j i) d / sqrt (1 + dot3 (o_gamma (carried k j i)) (o_vp (carried k j i)) (o_vp (carried k j i)))) - carrying_shift k j i d = 0) /\
  1 / 2 / dx 0%nat < out_divv 1 junk dx carried 0 0 2.
Proof.
  intros dx junk Hd. assert (W2 : sqrt (1 + 9 / 16) = 5 / 4) by (replace (1 + 9 / 16) with (5 / 4 * (5 / 4)) by field; apply sqrt_square; lra).
  assert (Q : forall k j i, sqrt (1 + dot3 (o_gamma (carried k j i)) (o_vp (carried k j i)) (o_vp (carried k j i))) = if Nat.leb i 1 then 1 else 5 / 4).
  { intros k j i. cbn [carried o_gamma o_vp]. unfold dot3, sum3, delta. cbn [Nat.eqb]. destruct (Nat.leb i 1).
    - match goal with |- sqrt ?e = _ => replace e with 1 by ring end. apply sqrt_1.
    - match goal with |- sqrt ?e = _ => replace e with (1 + 9 / 16) by field end. exact W2. }
  split.
  - intros k j i d. rewrite Q. cbn [carried o_lapse o_vp]. unfold carrying_shift. destruct (Nat.eqb d 0), (Nat.leb i 1); field.
  - rewrite divv_flux by (try left; lia). cbn [sum_to below Nat.sub]. unfold zflux, volume_flux. rewrite !Q. cbn [Nat.leb carried o_lapse o_sdet o_vp Nat.eqb].
    rewrite ratio_R. destruct (Rle_dec 0 1); [|lra]. assert (S1 : 0 < SMALL (T:=R) < 1 / 8).
    { rewrite SMALL_R. assert (Hb : bpow radix2 (-1022) <= bpow radix2 (-10)) by (apply bpow_le; lia). pose proof (bpow_gt_0 radix2 (-1022)) as H0. change (bpow radix2 (-10)) with (/ 1024) in Hb. set (b := bpow radix2 (-1022)) in *. clearbody b. split; lra. }
    match goal with |- _ < ?e => replace e with (3 / 5 / (1 + SMALL) / dx 0%nat) by (field; split; lra) end.
    unfold Rdiv at 2 4. apply Rmult_lt_compat_r; [apply Rinv_0_lt_compat; exact Hd|]. apply (Rmult_lt_reg_r (1 + SMALL)); [lra|].
    unfold Rdiv. rewrite (Rmult_assoc (3 * / 5)), Rinv_l by lra. lra.
Qed.
Print Assumptions C60_shift_refuted.

(** *** the slice around z = 0 *)
Lemma atan_bounds x : 0 <= x -> x - x ^ 3 / 3 <= atan x <= x - x ^ 3 / 3 + x ^ 5 / 5.
Proof.
  intros Hx. destruct (Req_dec x 0) as [->|N]; [rewrite atan_0; split; lra|].
  destruct (MVT_cor2 (fun y => atan y - (y - y ^ 3 / 3)) (fun y => / (1 + y ^ 2) - (1 - y ^ 2)) 0 x ltac:(lra)) as (c & Ec & Hc).
  { intros c _. apply is_derive_Reals. auto_derive; [exact I|]. field. nra. }
  destruct (MVT_cor2 (fun y => y - y ^ 3 / 3 + y ^ 5 / 5 - atan y) (fun y => 1 - y ^ 2 + y ^ 4 - / (1 + y ^ 2)) 0 x ltac:(lra)) as (c2 & Ec2 & Hc2).
  { intros c' _. apply is_derive_Reals. auto_derive; [exact I|]. field. nra. }
  rewrite atan_0 in Ec, Ec2. split.
  - assert (P : 0 <= / (1 + c ^ 2) - (1 - c ^ 2)).
    { assert (0 < 1 + c ^ 2) by nra. replace (/ (1 + c ^ 2) - (1 - c ^ 2)) with ((c ^ 2) ^ 2 / (1 + c ^ 2)) by (field; lra). apply Rmult_le_pos; [apply pow2_ge_0|left; apply Rinv_0_lt_compat; assumption]. }
    assert (0 <= (/ (1 + c ^ 2) - (1 - c ^ 2)) * (x - 0)) by (apply Rmult_le_pos; lra). lra.
  - assert (P : 0 <= 1 - c2 ^ 2 + c2 ^ 4 - / (1 + c2 ^ 2)).
    { assert (0 < 1 + c2 ^ 2) by nra. replace (1 - c2 ^ 2 + c2 ^ 4 - / (1 + c2 ^ 2)) with ((c2 ^ 3) ^ 2 / (1 + c2 ^ 2)) by (field; lra). apply Rmult_le_pos; [apply pow2_ge_0|left; apply Rinv_0_lt_compat; assumption]. }
    assert (0 <= (1 - c2 ^ 2 + c2 ^ 4 - / (1 + c2 ^ 2)) * (x - 0)) by (apply Rmult_le_pos; lra). lra.
Qed.
Lemma PI_bounds : 314 / 100 < PI < 31417 / 10000.
Proof. pose proof Machin_4_5_239 as M. pose proof (atan_bounds (/ 5) ltac:(lra)). pose proof (atan_bounds (/ 239) ltac:(lra)). lra. Qed.
(** pi is written 3.14: the slice is the entropy times the normalised Gaussian, too large by a
    factor between 1 and 1.0003 *)
Theorem C60_slice : forall E sigma ndim junk dx rho T z x3 k j i, 0 < sigma ->
  exists c, 1 < c <= 10003 / 10000 /\
  entropy_z0_out E sigma ndim junk dx rho T z x3 k j i = c * (entropy_out E sigma ndim junk dx rho T z x3 k j i * gauss sigma x3).
Proof.
  intros E sigma ndim junk dx rho T z x3 k j i Hs. pose proof PI_bounds as [P1 P2]. exists (sqrt (PI / (314 / 100))). split; [split|].
  - rewrite <- sqrt_1 at 1. apply sqrt_lt_1_alt. split; [lra|]. apply (Rmult_lt_reg_r (314 / 100)); [lra|]. replace (PI / (314 / 100) * (314 / 100)) with PI by field. lra.
  - rewrite <- (sqrt_square (10003 / 10000)) by lra. apply sqrt_le_1_alt. lra.
  - change (entropy_z0_out E sigma ndim junk dx rho T z x3 k j i) with (e_entropy E (rho k j i) (T k j i) * exp (- x3 * x3 / sigma / sigma) / sqrt (314 / 100) / sigma).
    change (entropy_out E sigma ndim junk dx rho T z x3 k j i) with (e_entropy E (rho k j i) (T k j i)).
    unfold gauss. replace (- x3 * x3 / sigma / sigma) with (- (x3 / sigma) ^ 2) by (field; lra). rewrite (sqrt_div_alt PI) by lra.
    assert (Q1 : 0 < sqrt PI) by (apply sqrt_lt_R0; lra). assert (Q2 : 0 < sqrt (314 / 100)) by (apply sqrt_lt_R0; lra). field. repeat split; lra.
Qed.
Print Assumptions C60_slice.
(** The width is the deck's (default 2e-3) and negative widths are rejected; a zero width is
    accepted although the comment at the division says it cannot occur *)
Theorem C60_width : forall d s d', run analysis_Initialize d = Some (s, d') -> s = number d "analysis" "sigma" (2 / 1000) /\ 0 <= s.
Proof.
  intros d s d'. unfold analysis_Initialize, GetOrAddReal, number. cbn [bind run]. destruct (d ("analysis", "sigma")%string) as [[b|r|q|w]|]; cbn [bind as_real run]; try discriminate.
  - unfold Rlt_bool. destruct (Rcompare_spec r 0); cbn [run]; intros Q; try discriminate; assert (s = r) by congruence; subst; lra.
  - rewrite Rlt_bool_false by lra. cbn [run]. intros Q. assert (s = 2 / 1000) by congruence. lra.
Qed.
Print Assumptions C60_width.
Theorem C60_width_refuted : exists d d', run analysis_Initialize d = Some (0, d').
Proof.
  exists (put (fun _ => None) ("analysis", "sigma")%string (VReal 0)). eexists. unfold analysis_Initialize, GetOrAddReal. cbn [bind run put key_eqb fst snd String.eqb Ascii.eqb Bool.eqb andb as_real].
  rewrite Rlt_bool_false by lra. reflexivity.
Qed.
Print Assumptions C60_width_refuted.

(** concrete instances *)
Definition gas : OutEos := mkOutEos (fun r t => t) (fun r t => 2 / 5 * r * t) (fun r t => 7 / 5 * (2 / 5) * r * t) (fun r t => t).
Example C60_thermodynamics_nonvacuous : 0 < enthalpy 2 (e_sie gas 2 1) (e_pressure gas 2 1) /\ 0 <= e_bmod gas 2 1 <= 2 * enthalpy 2 (e_sie gas 2 1) (e_pressure gas 2 1).
Proof. unfold enthalpy, gas. cbn [e_sie e_pressure e_bmod]. lra. Qed.
(** a one-dimensional flow with W v = x at the centres: hypotheses of C60_continuum with G x = x / sqrt(1 + x^2) *)
Definition ramp (k j i : nat) : OutZone := mkOutZone (fun d => if Nat.eqb d 0 then INR i / 10 else 0) delta 1 1.
Example C60_continuum_nonvacuous : zflux (ramp 0 0 5) 0 = 5 / 10 / sqrt (1 + (5 / 10) ^ 2) /\ zflux (below ramp 0 0 0 5) 0 = (5 / 10 - 1 / 10) / sqrt (1 + (5 / 10 - 1 / 10) ^ 2).
Proof.
  unfold zflux, volume_flux, below. cbn [Nat.sub ramp o_lapse o_sdet o_gamma o_vp Nat.eqb]. unfold dot3, sum3, delta. cbn [Nat.eqb]. rewrite !INR_IZR_INZ. cbn [Z.of_nat Pos.of_succ_nat Pos.succ].
  split; rewrite !Rmult_1_l; f_equal; try lra; do 2 f_equal; lra.
Qed.
