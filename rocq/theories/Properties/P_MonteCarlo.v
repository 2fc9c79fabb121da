(** C44: Monte Carlo radiation. *)
From Coq Require Import Reals ZArith List Bool Lra Lia Permutation.
From Flocq Require Import Core BinarySingleNaN.
From Coquelicot Require Import Coquelicot.
From Verif.Model Require Import Num Robust Geometry Tetrads Geodesics Prim2Con RadSource MonteCarlo.
From Verif.Spec Require Import Tensor GeomSpec SystemSpec Relativity GeodesicSpec MonteCarloSpec.
From Verif.Proofs Require Import NumR RobustProofs TetradProofs.
From Verif.Properties Require Import P_Robust P_Tetrads P_Geodesics.
Import ListNotations.
Local Open Scope R_scope.

(** *** expected number of packets *)
Lemma expected_step p a b : 0 <= p <= 1 -> expected (fun r => if Rlt_bool r p then a else b) (p * a + (1 - p) * b).
Proof.
  intros Hp. unfold expected. change (p * a + (1 - p) * b) with (@plus R_NormedModule (p * a) ((1 - p) * b)).
  apply (is_RInt_Chasles (V := R_NormedModule) _ 0 p 1).
  - apply (is_RInt_ext (fun _ => a)). { intros x [_ Hx]. rewrite Rmax_right in Hx by lra. rewrite (Rlt_bool_true x p) by lra. reflexivity. }
    replace (p * a) with (scal (p - 0) a) by (cbn; unfold mult; cbn; ring). apply (is_RInt_const (V := R_NormedModule)).
  - apply (is_RInt_ext (fun _ => b)). { intros x [Hx _]. rewrite Rmin_left in Hx by lra. rewrite (Rlt_bool_false x p) by lra. reflexivity. }
    replace ((1 - p) * b) with (scal (1 - p) b) by (cbn; unfold mult; cbn; ring). apply (is_RInt_const (V := R_NormedModule)).
Qed.
Lemma frac_bounds x : 0 <= x -> 0 <= x - IZR (Ztrunc x) < 1.
Proof. intros H. rewrite Ztrunc_floor by exact H. pose proof (Zfloor_lb x). pose proof (Zfloor_ub x). lra. Qed.

(** Every expected number x >= 0: the number of packets created has mean x exactly, and is one
    of the two integers next to x. *)
Theorem C44_unbiased : forall x, 0 <= x -> expected (fun r => IZR (packets x r)) x /\ forall r, 0 <= r -> x - 1 < IZR (packets x r) < x + 1.
Proof.
  intros x Hx. pose proof (frac_bounds x Hx) as F. split.
  - pose proof (expected_step (x - IZR (Ztrunc x)) (IZR (Ztrunc x + 1)) (IZR (Ztrunc x)) ltac:(lra)) as E.
    replace ((x - IZR (Ztrunc x)) * IZR (Ztrunc x + 1) + (1 - (x - IZR (Ztrunc x))) * IZR (Ztrunc x)) with x in E by (rewrite plus_IZR; ring).
    unfold expected in *. eapply is_RInt_ext; [|exact E]. intros r _. unfold packets. destruct (Rlt_bool r (x - IZR (Ztrunc x))); reflexivity.
  - intros r Hr. unfold packets. destruct (Rlt_bool_spec r (x - IZR (Ztrunc x))); rewrite ?plus_IZR; lra.
Qed.
Print Assumptions C44_unbiased.
Example C44_unbiased_nonvacuous : packets (5 / 2) (1 / 4) = 3%Z /\ packets (5 / 2) (3 / 4) = 2%Z.
Proof.
  assert (T : Ztrunc (5 / 2) = 2%Z). { rewrite Ztrunc_floor by lra. apply Zfloor_imp. cbn. lra. }
  unfold packets. rewrite T. rewrite (Rlt_bool_true (1 / 4)) by lra. rewrite (Rlt_bool_false (3 / 4)) by lra. split; reflexivity.
Qed.

(** *** energy *)
Lemma dN_loop_sum h wgtC nu_min nu_max nb Jnu k : dN_loop h wgtC nu_min nu_max nb Jnu k =
  sum_first k (fun n => Jnu (nusamp nu_min nu_max nb n) / (h * nusamp nu_min nu_max nb n * GetWeight wgtC (nusamp nu_min nu_max nb n)) * (nusamp nu_min nu_max nb n * dlnu_of nu_min nu_max nb)).
Proof. induction k as [|k IH]; [reflexivity|]. cbn [dN_loop sum_first]. rewrite IH. reflexivity. Qed.
Lemma sum_first_ext n f g : (forall i, (i < n)%nat -> f i = g i) -> sum_first n f = sum_first n g.
Proof. intros H. induction n as [|n IH]; [reflexivity|]. cbn [sum_first]. rewrite IH by (intros; apply H; lia). rewrite H by lia. reflexivity. Qed.
Lemma sum_first_scal c n f : sum_first n (fun i => c * f i) = c * sum_first n f.
Proof. induction n as [|n IH]; cbn [sum_first]; [ring|rewrite IH; ring]. Qed.
Lemma sum_shift c f n : sum_first n (fun i => c * (f i + f (S i)) / 2) = c * (sum_first (S n) f - f 0%nat / 2 - f n / 2).
Proof. induction n as [|n IH]; [cbn [sum_first]; field|]. cbn [sum_first] in *. rewrite IH. field. Qed.
Lemma nusamp_pos a b n k : 0 < nusamp a b n k. Proof. apply exp_pos. Qed.

(** mean number of packets: h wgtC dN = sqrt(-g) d3x dt times the trapezoidal rule in ln nu for
    the integral of J_nu dnu = J_nu nu dln nu *)
Lemma dN_value h wgtC nu_min nu_max nb d3x detG dt Jnu : h <> 0 -> wgtC <> 0 ->
  h * wgtC * dN h wgtC nu_min nu_max nb d3x detG dt Jnu = d3x * detG * dt * trapezoidal (fun l => Jnu (exp l) * exp l) (ln nu_min) (ln nu_max) nb.
Proof.
  intros Hh Hw. unfold dN. rewrite dN_loop_sum. unfold trapezoidal. fold (dlnu_of nu_min nu_max nb).
  pose proof (sum_shift (dlnu_of nu_min nu_max nb) (fun i => Jnu (nusamp nu_min nu_max nb i) * nusamp nu_min nu_max nb i) nb) as E.
  unfold nusamp at 1 2 3 4 in E. rewrite E. clear E.
  rewrite (sum_first_ext (S nb) _ (fun i => dlnu_of nu_min nu_max nb / (h * wgtC) * (Jnu (nusamp nu_min nu_max nb i) * nusamp nu_min nu_max nb i))).
  - rewrite sum_first_scal. unfold GetWeight. pose proof (nusamp_pos nu_min nu_max nb 0). pose proof (nusamp_pos nu_min nu_max nb nb). field. repeat split; lra.
  - intros i _. unfold GetWeight. pose proof (nusamp_pos nu_min nu_max nb i). field. repeat split; lra.
Qed.

(** For every zone, emissivity, packet weight constant and tuning factor: each packet carries
    the same comoving energy, and the mean energy of the packets created in a step is
    sqrt(-g) d^3x dt times the trapezoidal rule for the integral of J_nu, whatever the weights. *)
Theorem C44_energy : forall h wgtC wgtCfac t0 nu_min nu_max nu_bins d3x detG dt Jnu z s,
  0 < h -> 0 < wgtC -> 0 < wgtCfac -> 0 <= dN h wgtC nu_min nu_max nu_bins d3x detG dt Jnu ->
  (forall lnu r1 r2, pk_w (emit_packet h wgtC wgtCfac t0 z s lnu r1 r2) * (h * exp lnu) = h * wgtC / wgtCfac) /\
  expected (fun r => IZR (packets (wgtCfac * dN h wgtC nu_min nu_max nu_bins d3x detG dt Jnu) r) * (h * wgtC / wgtCfac))
    (d3x * detG * dt * trapezoidal (fun l => Jnu (exp l) * exp l) (ln nu_min) (ln nu_max) nu_bins).
Proof.
  intros h wgtC fac t0 nu_min nu_max nb d3x detG dt Jnu z s Hh Hw Hf Hd. split.
  - intros lnu r1 r2. unfold emit_packet, GetWeight. cbn [pk_w]. pose proof (exp_pos lnu). field. split; lra.
  - rewrite <- dN_value with (h := h) (wgtC := wgtC) by lra. set (x := dN _ _ _ _ _ _ _ _ _) in *.
    destruct (C44_unbiased (fac * x) ltac:(nra)) as [E _]. unfold expected in *.
    replace (h * wgtC * x) with (scal (h * wgtC / fac) (fac * x)) by (cbn; unfold mult; cbn; field; lra).
    eapply is_RInt_ext; [|apply (is_RInt_scal (V := R_NormedModule)); exact E]. intros r _. cbn. unfold mult. cbn. ring.
Qed.
Print Assumptions C44_energy.

Lemma is_derive_shift (f : R -> R) c t d : is_derive f (c + t) d -> is_derive (fun s => f (c + s)) t d.
Proof.
  intros H. replace d with (scal 1 d) by (cbn; unfold mult; cbn; ring).
  apply (is_derive_comp (K := R_AbsRing) (V := R_NormedModule) f (fun s => c + s)); [exact H|].
  replace 1 with (plus 0 1) by (cbn; ring). apply (is_derive_plus (K := R_AbsRing) (V := R_NormedModule)); [apply (is_derive_const (K := R_AbsRing) (V := R_NormedModule))|apply (is_derive_id (K := R_AbsRing))].
Qed.
Lemma sum_first_diff (F : nat -> R) n : sum_first n (fun i => F (S i) - F i) = F n - F 0%nat.
Proof. induction n as [|n IH]; cbn [sum_first]; [ring|rewrite IH; ring]. Qed.
Lemma sum_first_abs n f g c : (forall i, (i < n)%nat -> Rabs (f i - g i) <= c) -> Rabs (sum_first n f - sum_first n g) <= INR n * c.
Proof.
  intros H. induction n as [|n IH]. { cbn. rewrite Rminus_0_r, Rabs_R0. lra. }
  rewrite S_INR. cbn [sum_first]. assert (A := IH ltac:(intros; apply H; lia)). assert (B := H n ltac:(lia)).
  replace (sum_first n f + f n - (sum_first n g + g n)) with (sum_first n f - sum_first n g + (f n - g n)) by ring.
  eapply Rle_trans; [apply Rabs_triang|]. lra.
Qed.
Lemma trapezoidal_error (F f f1 f2 : R -> R) a b n M : a <= b -> (0 < n)%nat ->
  (forall l, a <= l <= b -> is_derive F l (f l) /\ is_derive f l (f1 l) /\ is_derive f1 l (f2 l) /\ Rabs (f2 l) <= M) ->
  Rabs (F b - F a - trapezoidal f a b n) <= M * (b - a) ^ 3 / (12 * INR n ^ 2).
Proof.
  intros Hab Hn H. assert (Hn' : 1 <= INR n) by (apply (le_INR 1); lia). unfold trapezoidal. set (h := (b - a) / INR n).
  assert (Hh : 0 <= h) by (unfold h; apply Rdiv_le_0_compat; lra). assert (Hb : a + INR n * h = b) by (unfold h; field; lra).
  pose proof (sum_first_diff (fun i => F (a + INR i * h)) n) as E. cbv beta in E. change (INR 0) with 0 in E. rewrite Hb, Rmult_0_l, Rplus_0_r in E. rewrite <- E. clear E.
  replace (M * (b - a) ^ 3 / (12 * INR n ^ 2)) with (INR n * (M * h ^ 3 / 12)) by (unfold h; field; lra).
  apply sum_first_abs. intros i Hi.
  assert (Hin : forall t, 0 <= t <= h -> a <= a + INR i * h + t <= b).
  { intros t Ht. pose proof (pos_INR i). assert (INR i + 1 <= INR n) by (rewrite <- S_INR; apply le_INR; lia).
    assert (0 <= INR i * h) by nra. assert ((INR i + 1) * h <= INR n * h) by nra. lra. }
  pose proof (trapezoid (fun t => F (a + INR i * h + t)) (fun t => f (a + INR i * h + t)) (fun t => f1 (a + INR i * h + t)) (fun t => f2 (a + INR i * h + t)) h M) as T. cbv beta in T.
  assert (T' := T ltac:(intros t Ht; destruct (H _ (Hin t Ht)) as (A & B & C & D); exact (conj (is_derive_shift _ _ _ _ A) (conj (is_derive_shift _ _ _ _ B) (conj (is_derive_shift _ _ _ _ C) D)))) h ltac:(lra)).
  rewrite Rplus_0_r in T'. replace (a + INR (S i) * h) with (a + INR i * h + h) by (rewrite S_INR; ring).
  replace (h * (f (a + INR i * h) + f (a + INR i * h + h)) / 2) with (h / 2 * (f (a + INR i * h) + f (a + INR i * h + h))) by field. exact T'.
Qed.

(** The mean emitted energy differs from sqrt(-g) d^3x dt times the integral of the emissivity
    over the frequency band by at most M (ln nu_max/nu_min)^3 / (12 bins^2), for every emissivity
    whose nu J_nu has its second derivative in ln nu bounded by M; G is an antiderivative of
    J_nu. *)
Theorem C44_quadrature : forall h wgtC nu_min nu_max nu_bins d3x detG dt (Jnu G f1 f2 : R -> R) M,
  0 < h -> 0 < wgtC -> 0 < nu_min < nu_max -> (0 < nu_bins)%nat -> 0 <= d3x * detG * dt ->
  (forall nu, nu_min <= nu <= nu_max -> is_derive G nu (Jnu nu)) ->
  (forall l, ln nu_min <= l <= ln nu_max -> is_derive (fun l => Jnu (exp l) * exp l) l (f1 l) /\ is_derive f1 l (f2 l) /\ Rabs (f2 l) <= M) ->
  Rabs (h * wgtC * dN h wgtC nu_min nu_max nu_bins d3x detG dt Jnu - d3x * detG * dt * (G nu_max - G nu_min))
    <= d3x * detG * dt * (M * (ln nu_max - ln nu_min) ^ 3 / (12 * INR nu_bins ^ 2)).
Proof.
  intros h wgtC nu_min nu_max nb d3x detG dt Jnu G f1 f2 M Hh Hw Hnu Hn HV HG Hf. rewrite dN_value by lra.
  pose proof (ln_increasing nu_min nu_max ltac:(lra) ltac:(lra)) as Hl.
  pose proof (trapezoidal_error (fun l => G (exp l)) (fun l => Jnu (exp l) * exp l) f1 f2 (ln nu_min) (ln nu_max) nb M ltac:(lra) Hn) as T. cbv beta in T.
  rewrite !exp_ln in T by lra.
  rewrite <- Rmult_minus_distr_l, Rabs_mult, (Rabs_right (d3x * detG * dt)) by lra. apply Rmult_le_compat_l; [exact HV|]. rewrite Rabs_minus_sym. apply T.
  intros l Hlr. destruct (Hf l Hlr) as (A & B & C). split; [|auto].
  assert (Hr : nu_min <= exp l <= nu_max).
  { split; [rewrite <- (exp_ln nu_min) by lra|rewrite <- (exp_ln nu_max) by lra]; (destruct (Req_dec (ln nu_min) l); destruct (Req_dec (ln nu_max) l); try (subst l); try lra; try (left; apply exp_increasing; lra); try (right; reflexivity)). }
  replace (Jnu (exp l) * exp l) with (scal (exp l) (Jnu (exp l))) by (cbn; unfold mult; cbn; ring).
  apply (is_derive_comp (K := R_AbsRing) (V := R_NormedModule) G exp); [exact (HG _ Hr)|apply is_derive_exp].
Qed.
Print Assumptions C44_quadrature.

(** *** frequencies *)
Lemma max_loop_spec h wgtC a b nb d3x detG Jnu k : (0 < k)%nat -> (forall n, (n < k)%nat -> 0 <= dNdlnu h wgtC a b nb d3x detG Jnu n) ->
  exists m, (m < k)%nat /\ max_loop h wgtC a b nb d3x detG Jnu k = dNdlnu h wgtC a b nb d3x detG Jnu m /\ forall n, (n < k)%nat -> dNdlnu h wgtC a b nb d3x detG Jnu n <= dNdlnu h wgtC a b nb d3x detG Jnu m.
Proof.
  intros Hk H. induction k as [|k IH]; [lia|]. cbn [max_loop].
  destruct (Nat.eq_dec k 0) as [->|Hk0].
  - exists 0%nat. split; [lia|]. cbn [max_loop]. specialize (H 0%nat ltac:(lia)). split; [|intros n Hn; replace n with 0%nat by lia; lra].
    destruct (Rlt_bool_spec 0 (dNdlnu h wgtC a b nb d3x detG Jnu 0)); lra.
  - destruct (IH ltac:(lia) ltac:(intros; apply H; lia)) as (m & Hm & E & U). rewrite E.
    destruct (Rlt_bool_spec (dNdlnu h wgtC a b nb d3x detG Jnu m) (dNdlnu h wgtC a b nb d3x detG Jnu k)) as [L|L].
    + exists k. split; [lia|]. split; [reflexivity|]. intros n Hn. destruct (Nat.eq_dec n k); [subst; lra|]. specialize (U n ltac:(lia)). lra.
    + exists m. split; [lia|]. split; [reflexivity|]. intros n Hn. destruct (Nat.eq_dec n k); [subst; lra|]. apply U. lia.
Qed.
Lemma dNdlnu_value h wgtC a b nb d3x detG Jnu n : h <> 0 -> wgtC <> 0 ->
  dNdlnu h wgtC a b nb d3x detG Jnu n = d3x * detG / (h * wgtC) * (Jnu (nusamp a b nb n) * nusamp a b nb n).
Proof. intros. unfold dNdlnu, GetWeight. pose proof (nusamp_pos a b nb n). field. repeat split; lra. Qed.
Lemma prob_grid h wgtC a b nb d3x detG Jnu i s : 0 < a < b -> (i < nb)%nat -> 0 <= s < 1 ->
  prob h wgtC a b nb d3x detG Jnu (ln a + (INR i + s) * dlnu_of a b nb) =
  (1 - s) * table h wgtC a b nb d3x detG Jnu i + s * table h wgtC a b nb d3x detG Jnu (i + 1).
Proof.
  intros Hab Hi Hs. pose proof (ln_increasing a b ltac:(lra) ltac:(lra)) as Hl.
  assert (Hn : 1 <= INR nb) by (apply (le_INR 1); lia).
  assert (Hd : 0 < dlnu_of a b nb) by (unfold dlnu_of; apply Rdiv_lt_0_compat; lra).
  unfold prob. replace ((ln a + (INR i + s) * dlnu_of a b nb - ln a) / dlnu_of a b nb) with (INR i + s) by (field; lra).
  pose proof (pos_INR i). assert (T : Ztrunc (INR i + s) = Z.of_nat i). { rewrite Ztrunc_floor by lra. apply Zfloor_imp. rewrite plus_IZR, <- INR_IZR_INZ. lra. }
  rewrite T, Nat2Z.id, <- INR_IZR_INZ. replace (INR i + s - INR i) with s by ring. reflexivity.
Qed.

Lemma expected_accept p : 0 <= p <= 1 -> expected (fun r => indicator (negb (Rlt_bool p r))) p.
Proof.
  intros B. unfold expected. cut (is_RInt (fun r => indicator (negb (Rlt_bool p r))) 0 1 (@plus R_NormedModule ((p - 0) * 1) ((1 - p) * 0))).
  { intros H. assert (E : @plus R_NormedModule ((p - 0) * 1) ((1 - p) * 0) = p) by (cbn; unfold plus; cbn; ring). rewrite E in H. exact H. }
  apply (is_RInt_Chasles (V := R_NormedModule) _ 0 p 1).
  - apply (is_RInt_ext (fun _ => 1)). { intros x [_ Hx]. rewrite Rmax_right in Hx by lra. rewrite (Rlt_bool_false p x) by lra. reflexivity. }
    apply (is_RInt_const (V := R_NormedModule)).
  - apply (is_RInt_ext (fun _ => 0)). { intros x [Hx _]. rewrite Rmin_left in Hx by lra. rewrite (Rlt_bool_true p x) by lra. reflexivity. }
    apply (is_RInt_const (V := R_NormedModule)).
Qed.

(** Every zone with non-negative, not everywhere vanishing emissivity: the acceptance
    probability at a log-frequency is the linear interpolant of nu J_nu between the neighbouring
    grid frequencies divided by the largest grid value, it lies in [0,1], and a try is accepted
    with exactly that probability. *)
Theorem C44_frequency : forall h wgtC nu_min nu_max nu_bins d3x detG Jnu,
  0 < h -> 0 < wgtC -> 0 < nu_min < nu_max -> (0 < nu_bins)%nat -> 0 < d3x * detG ->
  let nu n := nusamp nu_min nu_max nu_bins n in let f n := nu n * Jnu (nu n) in
  (forall n, (n <= nu_bins)%nat -> 0 <= Jnu (nu n)) -> (exists n, (n <= nu_bins)%nat /\ 0 < Jnu (nu n)) ->
  nu 0%nat = nu_min /\ nu nu_bins = nu_max /\ exists peak, (peak <= nu_bins)%nat /\ 0 < f peak /\ (forall n, (n <= nu_bins)%nat -> f n <= f peak) /\
  forall i s, (i < nu_bins)%nat -> 0 <= s < 1 ->
    let lnu := (1 - s) * ln (nu i) + s * ln (nu (S i)) in
    let p := prob h wgtC nu_min nu_max nu_bins d3x detG Jnu lnu in
    p = ((1 - s) * f i + s * f (S i)) / f peak /\ 0 <= p <= 1 /\
    expected (fun r => indicator (negb (Rlt_bool p r))) p.
Proof.
  intros h wgtC a b nb d3x detG Jnu Hh Hw Hab Hn HV nu f HJ [n0 [Hn0 HJ0]].
  split. { unfold nu, nusamp. cbn [INR]. rewrite Rmult_0_l, Rplus_0_r. apply exp_ln. lra. }
  split. { unfold nu, nusamp, dlnu_of. assert (1 <= INR nb) by (apply (le_INR 1); lia). rewrite <- (exp_ln b) at 2 by lra. f_equal. field. lra. }
  assert (Hc : 0 < d3x * detG / (h * wgtC)) by (apply Rdiv_lt_0_compat; nra).
  assert (Hv : forall n, dNdlnu h wgtC a b nb d3x detG Jnu n = d3x * detG / (h * wgtC) * f n).
  { intros n. rewrite dNdlnu_value by lra. unfold f, nu. ring. }
  assert (Hf : forall n, (n <= nb)%nat -> 0 <= f n) by (intros n Hnn; unfold f; pose proof (nusamp_pos a b nb n) as P; fold (nu n) in P; apply Rmult_le_pos; [lra|auto]).
  destruct (max_loop_spec h wgtC a b nb d3x detG Jnu (S nb) ltac:(lia)) as (pk & Hpk & E & U).
  { intros n Hnn. rewrite Hv. specialize (Hf n ltac:(lia)). apply Rmult_le_pos; lra. }
  assert (U' : forall n, (n <= nb)%nat -> f n <= f pk). { intros n Hnn. specialize (U n ltac:(lia)). rewrite !Hv in U. apply Rmult_le_reg_l in U; assumption. }
  assert (Hpos : 0 < f pk). { eapply Rlt_le_trans; [|apply (U' n0 Hn0)]. unfold f. pose proof (nusamp_pos a b nb n0) as P; fold (nu n0) in P. nra. }
  exists pk. split; [lia|]. split; [exact Hpos|]. split; [exact U'|].
  intros i s Hi Hs lnu p.
  assert (Hl : lnu = ln a + (INR i + s) * dlnu_of a b nb). { unfold lnu, nu, nusamp. rewrite !ln_exp, S_INR. ring. }
  assert (Ht : forall n, table h wgtC a b nb d3x detG Jnu n = f n / f pk). { intros n. unfold table, dNdlnu_max. rewrite E, !Hv. field. repeat split; nra. }
  assert (Hp : p = ((1 - s) * f i + s * f (S i)) / f pk). { unfold p. rewrite Hl, prob_grid, !Ht by assumption. replace (i + 1)%nat with (S i) by lia. field. lra. }
  assert (B : 0 <= p <= 1).
  { rewrite Hp. pose proof (Hf i ltac:(lia)). pose proof (Hf (S i) ltac:(lia)). pose proof (U' i ltac:(lia)). pose proof (U' (S i) ltac:(lia)).
    assert (0 <= (1 - s) * f i + s * f (S i)) by nra. assert ((1 - s) * f i + s * f (S i) <= f pk) by nra. split; [apply Rdiv_le_0_compat; lra|]. apply (Rmult_le_reg_r (f pk)); [lra|]. unfold Rdiv. rewrite Rmult_assoc, Rinv_l by lra. lra. }
  split; [exact Hp|]. split; [exact B|]. clearbody p.
  apply expected_accept. exact B.
Qed.
Print Assumptions C44_frequency.

(** Every random stream: the sampler returns the log-frequency of its first accepted try, which
    lies in the band, and stops with an error only if all its tries are rejected. *)
Theorem C44_sampler : forall h wgtC nu_min nu_max nu_bins d3x detG Jnu tries rng p, 0 < nu_min < nu_max -> (forall k, 0 <= rng k < 1) ->
  let lnu j := ln nu_min + rng (p + 2 * j)%nat * (ln nu_max - ln nu_min) in
  let accepted j := rng (p + 2 * j + 1)%nat <= prob h wgtC nu_min nu_max nu_bins d3x detG Jnu (lnu j) in
  match sample_lnu h wgtC nu_min nu_max nu_bins d3x detG Jnu tries rng p with
  | Some (l, q) => exists j, (j < tries)%nat /\ l = lnu j /\ q = (p + 2 * (j + 1))%nat /\ accepted j /\ (forall i, (i < j)%nat -> ~ accepted i) /\ nu_min <= exp l < nu_max
  | None => forall j, (j < tries)%nat -> ~ accepted j
  end.
Proof.
  intros h wgtC a b nb d3x detG Jnu tries rng p Hab Hr. cbv zeta. revert p. induction tries as [|t IH]; intros p; cbn [sample_lnu]. { intros j Hj. lia. }
  pose proof (ln_increasing a b ltac:(lra) ltac:(lra)) as Hl. pose proof (Hr p) as Hp.
  destruct (Rlt_bool_spec (prob h wgtC a b nb d3x detG Jnu (rng p * (ln b - ln a) + ln a)) (rng (S p))) as [L|L].
  - assert (R0 : ~ rng (p + 2 * 0 + 1)%nat <= prob h wgtC a b nb d3x detG Jnu (ln a + rng (p + 2 * 0)%nat * (ln b - ln a))).
    { replace (p + 2 * 0)%nat with p by lia. replace (p + 1)%nat with (S p) by lia. rewrite (Rplus_comm (ln a)). lra. }
    specialize (IH (S (S p))). destruct (sample_lnu h wgtC a b nb d3x detG Jnu t rng (S (S p))) as [[l q]|].
    + destruct IH as (j & Hj & El & Eq & A & B & C). exists (S j). split; [lia|].
      replace (p + 2 * S j)%nat with (S (S p) + 2 * j)%nat by lia. split; [exact El|]. split; [lia|]. split; [exact A|]. split; [|exact C].
      intros i Hi. destruct i as [|i]; [exact R0|]. replace (p + 2 * S i)%nat with (S (S p) + 2 * i)%nat by lia. apply B. lia.
    + intros j Hj. destruct j as [|j]; [exact R0|]. replace (p + 2 * S j)%nat with (S (S p) + 2 * j)%nat by lia. apply IH. lia.
  - exists 0%nat. split; [lia|]. replace (p + 2 * 0)%nat with p by lia. replace (p + 1)%nat with (S p) by lia.
    rewrite (Rplus_comm (ln a)). split; [reflexivity|]. split; [lia|]. split; [exact L|]. split; [intros; lia|].
    assert (0 <= rng p * (ln b - ln a) < ln b - ln a) by nra. split.
    + rewrite <- (exp_ln a) at 1 by lra. destruct (Req_dec (rng p * (ln b - ln a)) 0) as [E|E]; [rewrite E, Rplus_0_l; lra|left; apply exp_increasing; lra].
    + rewrite <- (exp_ln b) at 2 by lra. apply exp_increasing. lra.
Qed.
Print Assumptions C44_sampler.

(** *** directions *)
Lemma int_by (F f : R -> R) : (forall x, is_derive F x (f x)) -> (forall x, ex_derive f x) -> expected f (F 1 - F 0).
Proof.
  intros H C. unfold expected. apply (is_RInt_derive (V := R_CompleteNormedModule) F f 0 1); intros x _; [apply H|].
  apply (ex_derive_continuous (K := R_AbsRing) (V := R_NormedModule)). apply C.
Qed.
Lemma expected_eq f m m' : m = m' -> expected f m -> expected f m'. Proof. intros ->. auto. Qed.
Lemma expected_cst c : expected (fun _ => c) c.
Proof. eapply expected_eq; [|apply (int_by (fun x => c * x))]; [ring|intros x; auto_derive; [trivial|ring]|intros x; auto_derive; trivial]. Qed.
Lemma expected_ext f g m : (forall r, 0 < r < 1 -> f r = g r) -> expected f m -> expected g m.
Proof. intros H E. unfold expected in *. eapply is_RInt_ext; [|exact E]. intros x. rewrite Rmin_left, Rmax_right by lra. apply H. Qed.
Lemma E_cos c : expected (fun r => c * cos (2 * PI * r)) 0.
Proof.
  pose proof PI_RGT_0. eapply expected_eq; [|apply (int_by (fun x => c / (2 * PI) * sin (2 * PI * x)))].
  - rewrite Rmult_1_r, Rmult_0_r, sin_2PI, sin_0. ring.
  - intros x. auto_derive; [trivial|field; lra].
  - intros x. auto_derive. trivial.
Qed.
Lemma E_sin c : expected (fun r => c * sin (2 * PI * r)) 0.
Proof.
  pose proof PI_RGT_0. eapply expected_eq; [|apply (int_by (fun x => - c / (2 * PI) * cos (2 * PI * x)))].
  - rewrite Rmult_1_r, Rmult_0_r, cos_2PI, cos_0. ring.
  - intros x. auto_derive; [trivial|field; lra].
  - intros x. auto_derive. trivial.
Qed.
Lemma E_cos2 c : expected (fun r => c * cos (2 * PI * r) ^ 2) (c / 2).
Proof.
  pose proof PI_RGT_0. eapply expected_eq; [|apply (int_by (fun x => c / 2 * (x + sin (2 * PI * x) * cos (2 * PI * x) / (2 * PI))))].
  - rewrite !Rmult_1_r, !Rmult_0_r, sin_2PI, sin_0. field. lra.
  - intros x. auto_derive; [trivial|]. pose proof (sin2_cos2 (2 * PI * x)) as E. unfold Rsqr in E. set (sn := sin _) in *. set (cs := cos _) in *.
    replace (1 + (1 * (2 * PI) * cs * cs + sn * (1 * (2 * PI) * - sn)) / (2 * PI)) with (1 + cs * cs - sn * sn) by (field; lra). replace 1 with (sn * sn + cs * cs) at 1. field_simplify. 
    all: try (apply Rgt_not_eq; lra). field; lra.
  - intros x. auto_derive. trivial.
Qed.
Lemma E_sin2 c : expected (fun r => c * sin (2 * PI * r) ^ 2) (c / 2).
Proof.
  pose proof PI_RGT_0. eapply expected_eq; [|apply (int_by (fun x => c / 2 * (x - sin (2 * PI * x) * cos (2 * PI * x) / (2 * PI))))].
  - rewrite !Rmult_1_r, !Rmult_0_r, sin_2PI, sin_0. field. lra.
  - intros x. auto_derive; [trivial|]. pose proof (sin2_cos2 (2 * PI * x)) as E. unfold Rsqr in E. set (sn := sin _) in *. set (cs := cos _) in *.
    replace (c * sn ^ 2) with (c / 2 * (sn * sn + cs * cs + sn * sn - cs * cs)) by field. rewrite E. field. lra.
  - intros x. auto_derive. trivial.
Qed.
Lemma E_cossin c : expected (fun r => c * (cos (2 * PI * r) * sin (2 * PI * r))) 0.
Proof.
  pose proof PI_RGT_0. eapply expected_eq; [|apply (int_by (fun x => c / (4 * PI) * sin (2 * PI * x) ^ 2))].
  - rewrite !Rmult_1_r, !Rmult_0_r, sin_2PI, sin_0. ring.
  - intros x. auto_derive; [trivial|]. field. lra.
  - intros x. auto_derive. trivial.
Qed.
Lemma K_comp E r1 r2 : 0 < r1 < 1 ->
  K_tetrad E r1 r2 1%nat = E * (2 * r1 - 1) /\ K_tetrad E r1 r2 2%nat = E * sqrt (1 - (2 * r1 - 1)²) * cos (2 * PI * r2) /\ K_tetrad E r1 r2 3%nat = E * sqrt (1 - (2 * r1 - 1)²) * sin (2 * PI * r2).
Proof. intros H. unfold K_tetrad, row4. rewrite cos_acos, sin_acos by lra. repeat split; ring. Qed.
Lemma s2 r : 0 < r < 1 -> sqrt (1 - (2 * r - 1)²) * sqrt (1 - (2 * r - 1)²) = 1 - (2 * r - 1) ^ 2.
Proof. intros H. rewrite sqrt_sqrt; unfold Rsqr; nra. Qed.

(** The directions are isotropic to second order for every energy: the mean momentum in the
    frame of the fluid is zero and the mean of k_i k_j is E^2/3 delta_ij. *)
Theorem C44_isotropic : forall E,
  (forall i, (i < 3)%nat -> expected2 (fun r1 r2 => K_tetrad E r1 r2 (S i)) 0) /\
  (forall i j, (i < 3)%nat -> (j < 3)%nat -> expected2 (fun r1 r2 => K_tetrad E r1 r2 (S i) * K_tetrad E r1 r2 (S j)) (E ^ 2 / 3 * delta i j)).
Proof.
  intros E.
  assert (P1 : expected (fun r => E * (2 * r - 1)) 0).
  { eapply expected_eq; [|apply (int_by (fun r => E * (r ^ 2 - r)))]; [ring|intros x; auto_derive; [trivial|ring]|intros x; auto_derive; trivial]. }
  assert (P2 : expected (fun r => E ^ 2 * (2 * r - 1) ^ 2) (E ^ 2 / 3)).
  { eapply expected_eq; [|apply (int_by (fun r => E ^ 2 * ((2 * r - 1) ^ 3 / 6)))]; [field|intros x; auto_derive; [trivial|field]|intros x; auto_derive; trivial]. }
  assert (P3 : expected (fun r => E ^ 2 * (1 - (2 * r - 1) ^ 2) / 2) (E ^ 2 / 3)).
  { eapply expected_eq; [|apply (int_by (fun r => E ^ 2 * (r - (2 * r - 1) ^ 3 / 6) / 2))]; [field|intros x; auto_derive; [trivial|field]|intros x; auto_derive; trivial]. }
  assert (Z : expected (fun _ : R => 0) 0) by apply expected_cst.
  set (s := fun r => sqrt (1 - (2 * r - 1)²)).
  split.
  - intros i Hi. destruct i as [|[|[|]]]; [| | |lia].
    + exists (fun r => E * (2 * r - 1)). split; [|exact P1]. intros r Hr. eapply expected_ext; [|apply expected_cst]. intros r2 _. destruct (K_comp E r r2 Hr) as (A & _). rewrite A. reflexivity.
    + exists (fun _ => 0). split; [|exact Z]. intros r Hr. eapply expected_ext; [|apply (E_cos (E * s r))]. intros r2 _. destruct (K_comp E r r2 Hr) as (_ & A & _). rewrite A. reflexivity.
    + exists (fun _ => 0). split; [|exact Z]. intros r Hr. eapply expected_ext; [|apply (E_sin (E * s r))]. intros r2 _. destruct (K_comp E r r2 Hr) as (_ & _ & A). rewrite A. reflexivity.
  - assert (W : forall i j f g, (forall r, 0 < r < 1 -> expected (fun r2 => K_tetrad E r r2 (S i) * K_tetrad E r r2 (S j)) (f r)) -> expected f g -> expected2 (fun r1 r2 => K_tetrad E r1 r2 (S i) * K_tetrad E r1 r2 (S j)) g).
    { intros i j f g A B. exists f. split; assumption. }
    assert (W' : forall i j g, expected2 (fun r1 r2 => K_tetrad E r1 r2 (S i) * K_tetrad E r1 r2 (S j)) g -> expected2 (fun r1 r2 => K_tetrad E r1 r2 (S j) * K_tetrad E r1 r2 (S i)) g).
    { intros i j g (f & A & B). exists f. split; [|exact B]. intros r Hr. eapply expected_ext; [|apply A; exact Hr]. intros r2 _. cbv beta. ring. }
    assert (C01' : expected2 (fun r1 r2 => K_tetrad E r1 r2 1%nat * K_tetrad E r1 r2 2%nat) 0).
    { apply (W 0%nat 1%nat (fun _ => 0)); [|exact Z]. intros r Hr. eapply expected_ext; [|apply (E_cos (E ^ 2 * (2 * r - 1) * s r))]. intros r2 _. destruct (K_comp E r r2 Hr) as (A & B & _). rewrite A, B. unfold s. ring. }
    assert (C02' : expected2 (fun r1 r2 => K_tetrad E r1 r2 1%nat * K_tetrad E r1 r2 3%nat) 0).
    { apply (W 0%nat 2%nat (fun _ => 0)); [|exact Z]. intros r Hr. eapply expected_ext; [|apply (E_sin (E ^ 2 * (2 * r - 1) * s r))]. intros r2 _. destruct (K_comp E r r2 Hr) as (A & _ & B). rewrite A, B. unfold s. ring. }
    assert (C12' : expected2 (fun r1 r2 => K_tetrad E r1 r2 2%nat * K_tetrad E r1 r2 3%nat) 0).
    { apply (W 1%nat 2%nat (fun _ => 0)); [|exact Z]. intros r Hr. eapply expected_ext; [|apply (E_cossin (E ^ 2 * (s r * s r)))]. intros r2 _. destruct (K_comp E r r2 Hr) as (_ & A & B). rewrite A, B. unfold s. ring. }
    intros i j Hi Hj. destruct i as [|[|[|]]]; [| | |lia]; (destruct j as [|[|[|]]]; [| | |lia]); unfold delta; cbn [Nat.eqb]; rewrite ?Rmult_0_r, ?Rmult_1_r; auto.
    + apply (W 0%nat 0%nat (fun r => E ^ 2 * (2 * r - 1) ^ 2)); [|exact P2]. intros r Hr. eapply expected_ext; [|apply expected_cst]. intros r2 _. destruct (K_comp E r r2 Hr) as (A & _). rewrite A. ring.
    + apply (W 1%nat 1%nat (fun r => E ^ 2 * (1 - (2 * r - 1) ^ 2) / 2)); [|exact P3]. intros r Hr. eapply expected_ext; [|apply (E_cos2 (E ^ 2 * (1 - (2 * r - 1) ^ 2)))]. intros r2 _. destruct (K_comp E r r2 Hr) as (_ & A & _). rewrite A, <- s2 by exact Hr. ring.
    + apply (W 2%nat 2%nat (fun r => E ^ 2 * (1 - (2 * r - 1) ^ 2) / 2)); [|exact P3]. intros r Hr. eapply expected_ext; [|apply (E_sin2 (E ^ 2 * (1 - (2 * r - 1) ^ 2)))]. intros r2 _. destruct (K_comp E r r2 Hr) as (_ & _ & A). rewrite A, <- s2 by exact Hr. ring.
Qed.
Print Assumptions C44_isotropic.

(** *** emitted packets *)
(** Every metric, fluid velocity, frequency and pair of random numbers: the packet is created
    at the given time at the centre of the zone on the light cone, and its energy measured by
    the fluid is h nu. *)
Theorem C44_packet : forall h wgtC wgtCfac t0 g ginv U x s lnu r1 r2,
  lorentzian g -> dot4 g U U = -1 -> inverse4 g ginv -> 0 < r1 < 1 ->
  let q := emit_packet h wgtC wgtCfac t0 (mkEmZone g U x) s lnu r1 r2 in
  null ginv (pk_K q) /\ - sum4 (fun mu => pk_K q mu * U mu) = h * exp lnu /\
  pk_X q 0%nat = t0 /\ (forall i, pk_X q (S i) = x i) /\ pk_s q = s.
Proof.
  intros h wgtC fac t0 g ginv U x s lnu r1 r2 HL HU HI Hr q. unfold q, emit_packet. cbn [pk_K pk_X pk_s ez_U ez_gcov ez_x].
  assert (Ht : timelike g U) by (unfold timelike; lra).
  pose proof (C15_default_trial g U HL Ht) as HO. assert (Hs : symmetric4 g) by (destruct HL as (al & be & ga & T); exact (tpo_sym _ _ _ _ T)).
  set (Kt := K_tetrad (exp lnu * h) r1 r2). set (K := TetradToCoordCov U default_trial g Kt).
  destruct (C15_roundtrip g U default_trial Kt Hs HO) as (_ & _ & _ & RT). fold K in RT.
  destruct (C15_observer_at_rest g U HL HU) as (RU & _).
  assert (Ksq : - Kt 0%nat ^ 2 + Kt 1%nat ^ 2 + Kt 2%nat ^ 2 + Kt 3%nat ^ 2 = 0).
  { unfold Kt. destruct (K_comp (exp lnu * h) r1 r2 Hr) as (A & B & C). rewrite A, B, C. unfold K_tetrad, row4.
    pose proof (s2 r1 Hr) as S2. pose proof (sin2_cos2 (2 * PI * r2)) as SC. unfold Rsqr in SC. set (sq := sqrt _) in *. set (sn := sin _) in *. set (cs := cos _) in *. set (e := exp lnu * h).
    replace (- (- e) ^ 2 + (e * (2 * r1 - 1)) ^ 2 + (e * sq * cs) ^ 2 + (e * sq * sn) ^ 2) with (e ^ 2 * (- 1 + (2 * r1 - 1) ^ 2 + sq * sq * (sn * sn + cs * cs))) by ring. rewrite SC, S2. ring. }
  split; [|split; [|split; [reflexivity|split; [intros i; reflexivity|reflexivity]]]].
  - set (V := raised ginv K).
    assert (LV : eq4 (lower4 g V) K).
    { intros mu Hmu. unfold lower4, V, raised. transitivity (sum4 (fun b => mul4 g ginv mu b * K b)).
      - unfold mul4, sum4. ring.
      - unfold sum4. rewrite (proj1 (HI mu 0%nat Hmu ltac:(lia))), (proj1 (HI mu 1%nat Hmu ltac:(lia))), (proj1 (HI mu 2%nat Hmu ltac:(lia))), (proj1 (HI mu 3%nat Hmu ltac:(lia))).
        unfold delta. destruct mu as [|[|[|[|]]]]; try lia; cbn [Nat.eqb]; ring. }
    destruct (C15_inner_products g U default_trial V V Hs HO) as (IP & _ & IL).
    assert (CT : forall a, (a < 4)%nat -> CoordToTetradCov U default_trial g (lower4 g V) a = Kt a).
    { intros a Ha. rewrite <- (RT a Ha). unfold CoordToTetradCov, sum4. rewrite !LV by lia. reflexivity. }
    set (T := CoordToTetradCon U default_trial g V) in *.
    assert (T0 : T 0%nat = - Kt 0%nat) by (rewrite <- (CT 0%nat) by lia; rewrite (IL 0%nat) by lia; unfold lower4, eta, sum4; cbn [Nat.eqb]; ring).
    assert (T1 : T 1%nat = Kt 1%nat) by (rewrite <- (CT 1%nat) by lia; rewrite (IL 1%nat) by lia; unfold lower4, eta, sum4; cbn [Nat.eqb]; ring).
    assert (T2 : T 2%nat = Kt 2%nat) by (rewrite <- (CT 2%nat) by lia; rewrite (IL 2%nat) by lia; unfold lower4, eta, sum4; cbn [Nat.eqb]; ring).
    assert (T3 : T 3%nat = Kt 3%nat) by (rewrite <- (CT 3%nat) by lia; rewrite (IL 3%nat) by lia; unfold lower4, eta, sum4; cbn [Nat.eqb]; ring).
    unfold null. transitivity (dot4 g V V).
    + transitivity (sum4 (fun mu => V mu * K mu)). { unfold V, raised, sum4. ring. }
      transitivity (sum4 (fun mu => V mu * lower4 g V mu)). { unfold sum4. rewrite !LV by lia. reflexivity. } unfold dot4, lower4, sum4. ring.
    + rewrite <- IP. unfold dot4, eta, sum4. cbn [Nat.eqb]. rewrite T0, T1, T2, T3. etransitivity; [|exact Ksq]. ring.
  - destruct (C15_inner_products g U default_trial K U Hs HO) as (_ & IP & _). rewrite <- IP.
    unfold sum4. rewrite !RT, !RU by lia. unfold axis, delta. cbn [Nat.eqb]. unfold Kt, K_tetrad, row4. ring.
Qed.
Print Assumptions C44_packet.
Example C44_packet_nonvacuous : let U := row4 (5 / 3) (4 / 3) 0 0 in lorentzian eta /\ dot4 eta U U = -1 /\ inverse4 eta eta.
Proof.
  split; [|split].
  - exists 1, (fun _ => 0), delta. constructor.
    + lra.
    + intros i j Hi Hj. unfold delta. rewrite Nat.eqb_sym. reflexivity.
    + intros v [i [Hi Hv]]. unfold dot3, sum3, delta. cbn [Nat.eqb].
      assert (0 < v 0%nat * v 0%nat \/ 0 < v 1%nat * v 1%nat \/ 0 < v 2%nat * v 2%nat).
      { destruct i as [|[|[|]]]; try lia; [left|right; left|right; right]; destruct (Rtotal_order (v 0%nat) 0) as [?|[?|?]]; destruct (Rtotal_order (v 1%nat) 0) as [?|[?|?]]; destruct (Rtotal_order (v 2%nat) 0) as [?|[?|?]]; try contradiction; nra. }
      nra.
    + intros i j Hi Hj. unfold eta. rewrite Nat.eqb_sym. destruct (Nat.eqb_spec j i); [subst; reflexivity|reflexivity].
    + unfold eta, dot3, sum3. cbn [Nat.eqb]. ring.
    + intros i Hi. unfold eta, lower3, sum3, delta. destruct i as [|[|[|]]]; try lia; cbn [Nat.eqb]; ring.
    + intros i j Hi Hj. unfold eta, delta. destruct i as [|[|[|]]]; try lia; destruct j as [|[|[|]]]; try lia; reflexivity.
  - unfold dot4, eta, sum4, row4. cbn [Nat.eqb]. field.
  - intros i j Hi Hj. unfold mul4, eta, sum4, delta. destruct i as [|[|[|[|]]]]; try lia; destruct j as [|[|[|[|]]]]; try lia; cbn [Nat.eqb]; split; ring.
Qed.

(** *** slots *)
Definition total_count (counts : list nat) : nat := fold_right Nat.add 0%nat counts.
Lemma starting_index_shift counts : forall index z, (z < length counts)%nat -> nth z (starting_index index counts) 0%nat = (index + total_count (firstn z counts))%nat.
Proof.
  induction counts as [|c r IH]; intros index z Hz; [cbn in Hz; lia|]. destruct z as [|z]; cbn [starting_index nth firstn total_count fold_right]; [lia|].
  rewrite IH by (cbn in Hz; lia). unfold total_count. lia.
Qed.
(** Every list of packet counts: the starting indices give every new slot to exactly one packet
    of one zone, and no packet a slot outside the allocated ones. *)
Theorem C44_slots : forall counts, let start z := nth z (starting_index 0 counts) 0%nat in
  (forall z n, (z < length counts)%nat -> (n < nth z counts 0)%nat -> (start z + n < total_count counts)%nat) /\
  (forall slot, (slot < total_count counts)%nat -> exists z n, (z < length counts)%nat /\ (n < nth z counts 0)%nat /\ slot = (start z + n)%nat) /\
  (forall z n z' n', (z < length counts)%nat -> (n < nth z counts 0)%nat -> (z' < length counts)%nat -> (n' < nth z' counts 0)%nat ->
     (start z + n = start z' + n')%nat -> z = z' /\ n = n').
Proof.
  intros counts start. assert (S0 : forall z, (z < length counts)%nat -> start z = total_count (firstn z counts)) by (intros z Hz; unfold start; rewrite starting_index_shift by exact Hz; lia).
  assert (SS : forall z, (z < length counts)%nat -> total_count (firstn (S z) counts) = (total_count (firstn z counts) + nth z counts 0)%nat).
  { clear. induction counts as [|c r IH]; intros z Hz; [cbn in Hz; lia|]. destruct z as [|z]; [cbn; lia|]. specialize (IH z ltac:(cbn in Hz; lia)). cbn [firstn total_count fold_right nth] in *. unfold total_count in IH. lia. }
  assert (Mono : forall a b, (a <= b <= length counts)%nat -> (total_count (firstn a counts) <= total_count (firstn b counts))%nat).
  { intros a b [Hab Hb]. induction b as [|b IHb]; [replace a with 0%nat by lia; lia|]. destruct (Nat.eq_dec a (S b)); [subst; lia|]. rewrite SS by lia. specialize (IHb ltac:(lia) ltac:(lia)). lia. }
  assert (All : total_count (firstn (length counts) counts) = total_count counts) by (rewrite firstn_all; reflexivity).
  assert (End : forall z n, (z < length counts)%nat -> (n < nth z counts 0)%nat -> (start z <= start z + n < total_count (firstn (S z) counts))%nat) by (intros z n Hz Hn; rewrite S0, SS by exact Hz; lia).
  split; [|split].
  - intros z n Hz Hn. specialize (End z n Hz Hn). pose proof (Mono (S z) (length counts) ltac:(lia)). lia.
  - assert (G : forall k, (k <= length counts)%nat -> forall slot, (slot < total_count (firstn k counts))%nat -> exists z n, (z < length counts)%nat /\ (n < nth z counts 0)%nat /\ slot = (start z + n)%nat).
    { induction k as [|k IH]; intros Hk slot Hs; [cbn in Hs; lia|]. rewrite SS in Hs by lia. destruct (Nat.lt_ge_cases slot (total_count (firstn k counts))) as [L|L]; [apply IH; [lia|exact L]|].
      exists k, (slot - total_count (firstn k counts))%nat. rewrite S0 by lia. lia. }
    intros slot Hs. apply (G (length counts)); [lia|lia].
  - intros z n z' n' Hz Hn Hz' Hn' E. pose proof (End z n Hz Hn) as A. pose proof (End z' n' Hz' Hn') as B.
    assert (z = z'). { destruct (Nat.lt_trichotomy z z') as [L|[L|L]]; [|exact L|].
      - pose proof (Mono (S z) z' ltac:(lia)). rewrite (S0 z') in B by lia. rewrite (S0 z') in E by lia. lia.
      - pose proof (Mono (S z') z ltac:(lia)). rewrite (S0 z) in A by lia. rewrite (S0 z) in E by lia. lia. }
    subst z'. lia.
Qed.
Print Assumptions C44_slots.
Example C44_slots_nonvacuous : starting_index 0 [2; 0; 3]%nat = [0; 2; 2]%nat /\ total_count [2; 0; 3]%nat = 5%nat. Proof. split; reflexivity. Qed.

(** *** exchange of momentum, energy and lepton number *)
Lemma sum_first_add n f g : sum_first n (fun i => f i + g i) = sum_first n f + sum_first n g.
Proof. induction n as [|n IH]; cbn [sum_first]; [ring|rewrite IH; ring]. Qed.
Lemma sum_first_at n z c : (z < n)%nat -> sum_first n (fun i => if Nat.eqb i z then c else 0) = c.
Proof.
  induction n as [|n IH]; intros H; [lia|]. cbn [sum_first]. destruct (Nat.eqb_spec n z) as [E|E].
  - subst z. rewrite (sum_first_ext n _ (fun _ => 0)); [|intros i Hi; destruct (Nat.eqb_spec i n); [lia|reflexivity]].
    rewrite (sum_first_ext n (fun _ => 0) (fun i => 0 * 0)) by (intros; ring). rewrite sum_first_scal. ring.
  - rewrite IH by lia. ring.
Qed.
Lemma add_force_total nz F z g y mu : (z < nz)%nat -> sum_first nz (fun c => fst (add_force F z g y c) mu) = sum_first nz (fun c => fst (F c) mu) + g mu.
Proof.
  intros Hz. rewrite <- (sum_first_at nz z (g mu) Hz), <- sum_first_add. apply sum_first_ext. intros i _. unfold add_force. destruct (Nat.eqb i z); cbn [fst]; ring.
Qed.
Lemma add_force_ye nz F z g y : (z < nz)%nat -> sum_first nz (fun c => snd (add_force F z g y c)) = sum_first nz (fun c => snd (F c)) + y.
Proof.
  intros Hz. rewrite (sum_first_ext nz _ (fun c => snd (F c) + (if Nat.eqb c z then y else 0))). { rewrite sum_first_add, sum_first_at by exact Hz. reflexivity. }
  intros i _. unfold add_force. destruct (Nat.eqb i z); cbn [snd]; ring.
Qed.
Lemma emit_total nz d3x dt mp u0 em : forall F, (forall e, In e em -> (fst e < nz)%nat) ->
  let F' := fold_left (fun F e => emission_force d3x dt mp u0 F (fst e) (snd e)) em F in
  (forall mu, sum_first nz (fun c => fst (F' c) mu) = sum_first nz (fun c => fst (F c) mu) - 1 / (d3x * dt) * sum_list (map (fun e => pk_w (snd e) * pk_K (snd e) mu) em)) /\
  sum_first nz (fun c => snd (F' c)) = sum_first nz (fun c => snd (F c)) - mp / (d3x * dt) * sum_list (map (fun e => LeptonSign (pk_s (snd e)) * pk_w (snd e) * u0 (fst e)) em).
Proof.
  induction em as [|e em IH]; intros F H; cbn [fold_left map sum_list fold_right].
  - split; [intros mu|]; ring.
  - destruct (IH (emission_force d3x dt mp u0 F (fst e) (snd e)) ltac:(intros; apply H; right; assumption)) as (A & B). cbv zeta in A, B. split.
    + intros mu. rewrite A. unfold emission_force. rewrite add_force_total by (apply H; left; reflexivity). unfold sum_list, Rdiv. cbv beta. ring.
    + rewrite B. unfold emission_force. rewrite add_force_ye by (apply H; left; reflexivity). unfold sum_list, Rdiv. cbv beta. ring.
Qed.
Definition hits (order : list (nat * bool * Packet)) := filter (fun e => snd (fst e)) order.
Definition misses (order : list (nat * bool * Packet)) := filter (fun e => negb (snd (fst e))) order.
Lemma absorb_total nz d4x mp u0 order : forall F, (forall e, In e order -> (fst (fst e) < nz)%nat) ->
  let F' := transport_force d4x mp u0 order F in
  (forall mu, sum_first nz (fun c => fst (F' c) mu) = sum_first nz (fun c => fst (F c) mu) + 1 / d4x * sum_list (map (fun e => pk_w (snd e) * pk_K (snd e) mu) (hits order))) /\
  sum_first nz (fun c => snd (F' c)) = sum_first nz (fun c => snd (F c)) + mp / d4x * sum_list (map (fun e => LeptonSign (pk_s (snd e)) * pk_w (snd e) * u0 (fst (fst e))) (hits order)).
Proof.
  unfold transport_force, hits. induction order as [|e order IH]; intros F H; cbn [fold_left filter map sum_list fold_right].
  - split; [intros mu|]; ring.
  - destruct e as [[z hit] q]. cbn [fst snd]. destruct hit; cbn [map sum_list fold_right fst snd].
    + destruct (IH (absorption_force d4x mp u0 F z q) ltac:(intros; apply H; right; assumption)) as (A & B). cbv zeta in A, B.
      assert (Hz : (z < nz)%nat) by (apply (H (z, true, q)); left; reflexivity). split.
      * intros mu. rewrite A. unfold absorption_force. rewrite add_force_total by exact Hz. unfold sum_list, Rdiv. cbv beta. ring.
      * rewrite B. unfold absorption_force. rewrite add_force_ye by exact Hz. unfold sum_list, Rdiv. cbv beta. ring.
    + apply (IH F). intros; apply H; right; assumption.
Qed.
Lemma hits_misses (f : nat * bool * Packet -> R) order : sum_list (map f (hits order)) + sum_list (map f (misses order)) = sum_list (map f order).
Proof. unfold hits, misses. induction order as [|[[z hit] q] order IH]; cbn [filter map sum_list fold_right fst snd]; [ring|]. destruct hit; cbn [negb map sum_list fold_right]; unfold sum_list in *; lra. Qed.
Lemma sum_list_perm l l' : Permutation l l' -> sum_list l = sum_list l'.
Proof. intros P. induction P; cbn [sum_list fold_right]; unfold sum_list in *; lra. Qed.
Lemma sum_list_app l l' : sum_list (l ++ l') = sum_list l + sum_list l'.
Proof. induction l as [|x l IH]; cbn [app sum_list fold_right]; unfold sum_list in *; [ring|rewrite IH; ring]. Qed.
Lemma transported_K flat geom dt q mu : (mu < 4)%nat -> symmetry (SpacetimeMetricInverse geom) mu -> forall q', transport_packet flat geom dt false q = Some q' -> pk_K q' mu = pk_K q mu /\ pk_w q' = pk_w q /\ pk_s q' = pk_s q.
Proof.
  intros Hm Sy q' E. unfold transport_packet in E. cbn [negb] in E. destruct (PushParticle flat geom dt (pk_X q, pk_K q)) as [X' K'] eqn:P. injection E as <-. cbn [pk_K pk_w pk_s]. split; [|split; reflexivity].
  pose proof (C43_conserved_momentum flat geom mu (dt :: nil) (pk_X q) (pk_K q) Hm Sy) as C. cbn [push_all] in C. rewrite P in C. exact C.
Qed.
Lemma survivors_total flat geom dt order mu : (mu < 4)%nat -> symmetry (SpacetimeMetricInverse geom) mu ->
  sum_list (map (fun q => pk_w q * pk_K q mu) (survivors flat geom dt order)) = sum_list (map (fun e => pk_w (snd e) * pk_K (snd e) mu) (misses order)).
Proof.
  intros Hm Sy. unfold survivors, misses. induction order as [|[[z hit] q] order IH]; [reflexivity|]. cbn [flat_map filter fst snd]. destruct hit; cbn [negb].
  - exact IH.
  - destruct (transport_packet flat geom dt false q) as [q'|] eqn:E.
    + destruct (transported_K flat geom dt q mu Hm Sy q' E) as (A & B & _). cbn [app map sum_list fold_right snd]. rewrite A, B. f_equal. exact IH.
    + exfalso. unfold transport_packet in E. destruct (PushParticle flat geom dt (pk_X q, pk_K q)). discriminate.
Qed.
Lemma survivors_leptons flat geom dt order :
  sum_list (map (fun q => LeptonSign (pk_s q) * pk_w q) (survivors flat geom dt order)) = sum_list (map (fun e => LeptonSign (pk_s (snd e)) * pk_w (snd e)) (misses order)).
Proof.
  unfold survivors, misses. induction order as [|[[z hit] q] order IH]; [reflexivity|]. cbn [flat_map filter fst snd]. destruct hit; cbn [negb].
  - exact IH.
  - unfold transport_packet at 1. destruct (PushParticle flat geom dt (pk_X q, pk_K q)) as [X' K']. cbn [app map sum_list fold_right snd pk_s pk_w]. f_equal. exact IH.
Qed.
Lemma emit_all_zero nz d3x dt mp u0 em : (forall e, In e em -> (fst e < nz)%nat) ->
  (forall mu, sum_first nz (fun c => fst (emit_all d3x dt mp u0 em c) mu) = - (1 / (d3x * dt) * sum_list (map (fun e => pk_w (snd e) * pk_K (snd e) mu) em))) /\
  sum_first nz (fun c => snd (emit_all d3x dt mp u0 em c)) = - (mp / (d3x * dt) * sum_list (map (fun e => LeptonSign (pk_s (snd e)) * pk_w (snd e) * u0 (fst e)) em)).
Proof.
  intros H. destruct (emit_total nz d3x dt mp u0 em zero_force H) as (A & B). cbv zeta in A, B. fold (emit_all d3x dt mp u0 em) in A, B.
  assert (Z : sum_first nz (fun _ => 0) = 0) by (rewrite (sum_first_ext nz _ (fun i => 0 * 0)) by (intros; ring); rewrite sum_first_scal; ring).
  split; [intros mu; rewrite A|rewrite B]; unfold zero_force; cbn [fst snd]; rewrite Z; ring.
Qed.

(** a run of any number of radiation steps: arbitrary time steps, emitted packets, absorption
    decisions and orders in which the packets are handled; P restricts the fluid's u^0 *)
Inductive mc_run (flat : bool) (geom : System) (d3x mp : R) (nz : nat) (P : (nat -> R) -> Prop) : (nat -> Cons) * list Packet -> (nat -> Cons) * list Packet -> Prop :=
| run_done : forall s, mc_run flat geom d3x mp nz P s s
| run_step : forall c old dt u0 em order s', dt <> 0 -> P u0 -> (forall e, In e em -> (fst e < nz)%nat) -> (forall e, In e order -> (fst (fst e) < nz)%nat) ->
    Permutation (map snd order) (old ++ map snd em) ->
    mc_run flat geom d3x mp nz P (mc_step true flat geom d3x dt mp u0 em order c) s' -> mc_run flat geom d3x mp nz P (c, old) s'.

(** Every geometry: the momentum and energy the matter gains in a step are exactly those of the
    packets it absorbed minus those of the packets it emitted, for every emission, absorption
    decisions and order of the concurrent deposits. *)
Theorem C44_exchange : forall hasye flat geom d3x dt mp u0 nz em order c, d3x <> 0 -> dt <> 0 ->
  (forall e, In e em -> (fst e < nz)%nat) -> (forall e, In e order -> (fst (fst e) < nz)%nat) ->
  let c' := fst (mc_step hasye flat geom d3x dt mp u0 em order c) in
  let absorbed mu := sum_list (map (fun e => pk_w (snd e) * pk_K (snd e) mu) (filter (fun e => snd (fst e)) order)) in
  let emitted mu := sum_list (map (fun e => pk_w (snd e) * pk_K (snd e) mu) em) in
  (forall i, zone_total nz d3x (fun z => cS (c' z) i) = zone_total nz d3x (fun z => cS (c z) i) + (absorbed (S i) - emitted (S i))) /\
  zone_total nz d3x (fun z => ctau (c' z)) = zone_total nz d3x (fun z => ctau (c z)) - (absorbed 0%nat - emitted 0%nat).
Proof.
  intros hasye flat geom d3x dt mp u0 nz em order c Hd Ht He Ho. cbv zeta. unfold mc_step, apply_force. cbn [fst].
  destruct (absorb_total nz (d3x * dt) mp u0 order (emit_all d3x dt mp u0 em) Ho) as (A & _). cbv zeta in A. fold (hits order).
  destruct (emit_all_zero nz d3x dt mp u0 em He) as (B & _). set (F := transport_force (d3x * dt) mp u0 order (emit_all d3x dt mp u0 em)) in *.
  split; [intros i|]; unfold zone_total, ApplyRadiationFourForce; cbn [cS ctau].
  - rewrite (sum_first_ext nz _ (fun z => d3x * cS (c z) i + (d3x * dt) * fst (F z) (S i))) by (intros; ring). rewrite sum_first_add, (sum_first_scal (d3x * dt)), A, B. field. split; assumption.
  - rewrite (sum_first_ext nz _ (fun z => d3x * ctau (c z) + - (d3x * dt) * fst (F z) 0%nat)) by (intros; ring). rewrite sum_first_add, (sum_first_scal (- (d3x * dt))), A, B. field. split; assumption.
Qed.
Print Assumptions C44_exchange.

(** Every geometry with a symmetry and every run: the matter's momentum plus that of the packets
    along the symmetric direction is conserved exactly; likewise tau plus -k_0 of the packets
    when the geometry is stationary. *)
Theorem C44_conserved : forall flat geom d3x mp nz P s s', d3x <> 0 -> mc_run flat geom d3x mp nz P s s' ->
  (forall i, (i < 3)%nat -> symmetry (SpacetimeMetricInverse geom) (S i) ->
     zone_total nz d3x (fun z => cS (fst s' z) i) + sum_list (map (fun q => pk_w q * pk_K q (S i)) (snd s')) =
     zone_total nz d3x (fun z => cS (fst s z) i) + sum_list (map (fun q => pk_w q * pk_K q (S i)) (snd s))) /\
  (symmetry (SpacetimeMetricInverse geom) 0 ->
     zone_total nz d3x (fun z => ctau (fst s' z)) - sum_list (map (fun q => pk_w q * pk_K q 0%nat) (snd s')) =
     zone_total nz d3x (fun z => ctau (fst s z)) - sum_list (map (fun q => pk_w q * pk_K q 0%nat) (snd s))).
Proof.
  intros flat geom d3x mp nz P s s' Hd Hrun. induction Hrun as [s|c old dt u0 em order s' Ht _ He Ho Pm Hrun IH]; [split; reflexivity|].
  destruct (C44_exchange true flat geom d3x dt mp u0 nz em order c Hd Ht He Ho) as (X & Y). cbv zeta in X, Y. fold (hits order) in X, Y.
  assert (T : forall mu, sum_list (map (fun e : nat * bool * Packet => pk_w (snd e) * pk_K (snd e) mu) order) = sum_list (map (fun q => pk_w q * pk_K q mu) old) + sum_list (map (fun e : nat * Packet => pk_w (snd e) * pk_K (snd e) mu) em)).
  { intros mu. rewrite <- (map_map snd (fun q => pk_w q * pk_K q mu) order), (sum_list_perm _ _ (Permutation_map _ Pm)), map_app, sum_list_app, map_map. reflexivity. }
  assert (Sv : snd (mc_step true flat geom d3x dt mp u0 em order c) = survivors flat geom dt order) by reflexivity.
  destruct IH as (I1 & I2). rewrite Sv in I1, I2. cbn [fst snd]. set (c' := fst (mc_step true flat geom d3x dt mp u0 em order c)) in *. clearbody c'. split.
  - intros i Hi Sy. rewrite (I1 i Hi Sy), (X i), survivors_total by (auto; lia). specialize (T (S i)). rewrite <- hits_misses in T. lra.
  - intros Sy. rewrite (I2 Sy), Y, survivors_total by (auto; lia). specialize (T 0%nat). rewrite <- hits_misses in T. lra.
Qed.
Print Assumptions C44_conserved.
Lemma flat_symmetry mu : symmetry (SpacetimeMetricInverse Minkowski) mu. Proof. intros X h a b _ _. reflexivity. Qed.

(** Lepton number: +1 for an electron neutrino (0), -1 for its antiparticle (1), 0 for the heavy ones (2);
    conserved over every run in which the fluid has u^0 = 1 *)
Theorem C44_lepton : (LeptonSign 0 = 1 /\ LeptonSign 1 = -1 /\ LeptonSign 2 = 0) /\ forall flat geom d3x mp nz s s', d3x <> 0 -> mp <> 0 -> mc_run flat geom d3x mp nz (fun u0 => forall z, u0 z = 1) s s' ->
  zone_total nz d3x (fun z => cye (fst s' z)) / mp + sum_list (map (fun q => LeptonSign (pk_s q) * pk_w q) (snd s')) =
  zone_total nz d3x (fun z => cye (fst s z)) / mp + sum_list (map (fun q => LeptonSign (pk_s q) * pk_w q) (snd s)).
Proof.
  split; [repeat split|].
  intros flat geom d3x mp nz s s' Hd Hmp Hrun. induction Hrun as [s|c old dt u0 em order s' Ht Hu He Ho Pm Hrun IH]; [reflexivity|].
  rewrite IH. clear IH. unfold mc_step at 1. cbn [fst snd]. change (snd (mc_step true flat geom d3x dt mp u0 em order c)) with (survivors flat geom dt order).
  destruct (absorb_total nz (d3x * dt) mp u0 order (emit_all d3x dt mp u0 em) Ho) as (_ & A). cbv zeta in A.
  destruct (emit_all_zero nz d3x dt mp u0 em He) as (_ & B). unfold apply_force. set (F := transport_force (d3x * dt) mp u0 order (emit_all d3x dt mp u0 em)) in *.
  unfold zone_total, ApplyRadiationFourForce. cbn [cye].
  rewrite (sum_first_ext nz _ (fun z => d3x * cye (c z) + (d3x * dt) * snd (F z))) by (intros; ring). rewrite sum_first_add, (sum_first_scal (d3x * dt)), A, B, survivors_leptons.
  rewrite (map_ext (fun e : nat * Packet => LeptonSign (pk_s (snd e)) * pk_w (snd e) * u0 (fst e)) (fun e => LeptonSign (pk_s (snd e)) * pk_w (snd e))) by (intros; rewrite Hu; ring).
  rewrite (map_ext (fun e : nat * bool * Packet => LeptonSign (pk_s (snd e)) * pk_w (snd e) * u0 (fst (fst e))) (fun e => LeptonSign (pk_s (snd e)) * pk_w (snd e))) by (intros; rewrite Hu; ring).
  assert (T : sum_list (map (fun e : nat * bool * Packet => LeptonSign (pk_s (snd e)) * pk_w (snd e)) order) = sum_list (map (fun q => LeptonSign (pk_s q) * pk_w q) old) + sum_list (map (fun e : nat * Packet => LeptonSign (pk_s (snd e)) * pk_w (snd e)) em)).
  { rewrite <- (map_map snd (fun q => LeptonSign (pk_s q) * pk_w q) order), (sum_list_perm _ _ (Permutation_map _ Pm)), map_app, sum_list_app, map_map. reflexivity. }
  rewrite <- hits_misses in T. clear A B F.
  set (a := sum_list (map _ (hits order))) in *. set (b := sum_list (map _ (misses order))) in *. set (e := sum_list (map _ em)) in *. set (o := sum_list (map _ old)) in *.
  replace (((sum_first nz (fun i => d3x * cye (c i)) + d3x * dt * (- (mp / (d3x * dt) * e) + mp / (d3x * dt) * a))) / mp + b) with (sum_first nz (fun i => d3x * cye (c i)) / mp + (a + b - e)) by (field; repeat split; assumption).
  rewrite T. ring.
Qed.
Print Assumptions C44_lepton.

(** VIOLATION: the electron source carries an extra factor u^0.  Emitting one electron neutrino
    packet from a zone where u^0 differs from 1 changes the total lepton number. *)
Theorem C44_lepton_refuted : forall flat geom d3x dt mp u0 c q, d3x <> 0 -> mp <> 0 -> dt <> 0 -> pk_s q = 0%Z -> pk_w q <> 0 -> u0 0%nat <> 1 ->
  exists s', mc_run flat geom d3x mp 1 (fun u => u = u0) (c, nil) s' /\
  zone_total 1 d3x (fun z => cye (fst s' z)) / mp + sum_list (map (fun q => LeptonSign (pk_s q) * pk_w q) (snd s')) =
  zone_total 1 d3x (fun z => cye (c z)) / mp + pk_w q * (1 - u0 0%nat) /\ pk_w q * (1 - u0 0%nat) <> 0.
Proof.
  intros flat geom d3x dt mp u0 c q Hd Hmp Ht Hs Hw Hu. exists (mc_step true flat geom d3x dt mp u0 [(0%nat, q)] [(0%nat, false, q)] c). split; [|split].
  - apply (run_step flat geom d3x mp 1 (fun u => u = u0) c nil dt u0 [(0%nat, q)] [(0%nat, false, q)]); auto.
    + intros e [<-|[]]. cbn. lia.
    + intros e [<-|[]]. cbn. lia.
    + apply run_done.
  - unfold mc_step, survivors, transport_packet. cbn [fst snd flat_map]. destruct (PushParticle flat geom dt (pk_X q, pk_K q)) as [X' K']. cbn [app map sum_list fold_right pk_s pk_w].
    unfold zone_total, sum_first, apply_force, transport_force, emit_all, ApplyRadiationFourForce, emission_force, add_force, zero_force. cbn [fold_left fst snd Nat.eqb cye]. rewrite Hs.
    change (LeptonSign 0) with 1. field. auto.
  - intros E. apply Rmult_integral in E. destruct E; lra.
Qed.
Print Assumptions C44_lepton_refuted.
Example C44_conserved_nonvacuous : forall c, let q := mkPacket (fun _ => 0) (row4 (-1) 1 0 0) 2 0%Z in
  mc_run true Minkowski 1 1 2 (fun _ => True) (c, [q]) (mc_step true true Minkowski 1 (1 / 2) 1 (fun _ => 1) [(0%nat, q)] [(1%nat, true, q); (0%nat, false, q)] c) /\
  cS (fst (mc_step true true Minkowski 1 (1 / 2) 1 (fun _ => 1) [(0%nat, q)] [(1%nat, true, q); (0%nat, false, q)] c) 1%nat) 0%nat = cS (c 1%nat) 0%nat + 2.
Proof.
  intros c q. split.
  - eapply (run_step true Minkowski 1 1 2 (fun _ => True) c [q] (1 / 2) (fun _ => 1) [(0%nat, q)] [(1%nat, true, q); (0%nat, false, q)]); [lra|trivial| | | |apply run_done].
    + intros e [<-|[]]. cbn. lia.
    + intros e [<-|[<-|[]]]; cbn; lia.
    + cbn. apply Permutation_refl.
  - unfold mc_step, apply_force, transport_force, emit_all, absorption_force, emission_force, add_force, zero_force, ApplyRadiationFourForce. cbn [fold_left fst snd Nat.eqb cS pk_w pk_K q row4]. field.
Qed.

(** VIOLATION: tau, the energy density of the Eulerian observer, is charged with -k_0 instead of
    the packet's energy for that observer, -n.k = (-k_0 + beta^i k_i) / alpha: they differ
    whenever the lapse is not 1 and the shift vanishes. *)
Theorem C44_eulerian_energy_refuted : forall flat geom d3x dt mp u0 c q alpha, d3x <> 0 -> dt <> 0 -> 0 < alpha -> alpha <> 1 -> pk_w q <> 0 -> pk_K q 0%nat <> 0 ->
  zone_total 1 d3x (fun z => ctau (fst (mc_step true flat geom d3x dt mp u0 nil [(0%nat, true, q)] c) z)) - zone_total 1 d3x (fun z => ctau (c z))
    = pk_w q * - pk_K q 0%nat /\
  pk_w q * - pk_K q 0%nat <> pk_w q * - sum4 (fun mu => normal_con alpha (fun _ => 0) mu * pk_K q mu).
Proof.
  intros flat geom d3x dt mp u0 c q alpha Hd Ht Ha Ha1 Hw Hk. split.
  - destruct (C44_exchange true flat geom d3x dt mp u0 1 nil [(0%nat, true, q)] c Hd Ht ltac:(intros e []) ltac:(intros e [<-|[]]; cbn; lia)) as (_ & E). cbv zeta in E. rewrite E. cbn [filter fst snd map sum_list fold_right]. ring.
  - unfold sum4, normal_con. intros E. apply Ha1. assert (E' : pk_K q 0%nat = pk_K q 0%nat / alpha).
    { apply (Rmult_eq_reg_l (pk_w q)); [|exact Hw]. replace (pk_w q * (pk_K q 0%nat / alpha)) with (- (pk_w q * - (1 / alpha * pk_K q 0%nat + - (0 / alpha) * pk_K q 1%nat + - (0 / alpha) * pk_K q 2%nat + - (0 / alpha) * pk_K q 3%nat))) by (field; lra). rewrite <- E. ring. }
    apply (Rmult_eq_reg_l (pk_K q 0%nat)); [|exact Hk]. rewrite E' at 1. field. lra.
Qed.
Print Assumptions C44_eulerian_energy_refuted.

(** *** absorption *)
Lemma expected_tail p : 0 < p <= 1 -> expected (fun r => indicator (Rle_bool p r)) (1 - p).
Proof.
  intros B. unfold expected. cut (is_RInt (fun r => indicator (Rle_bool p r)) 0 1 (@plus R_NormedModule ((p - 0) * 0) ((1 - p) * 1))).
  { intros H. assert (E : @plus R_NormedModule ((p - 0) * 0) ((1 - p) * 1) = 1 - p) by (cbn; unfold plus; cbn; ring). rewrite E in H. exact H. }
  apply (is_RInt_Chasles (V := R_NormedModule) _ 0 p 1).
  - apply (is_RInt_ext (fun _ => 0)). { intros x [_ Hx]. rewrite Rmax_right in Hx by lra. rewrite (Rle_bool_false p x) by lra. reflexivity. }
    apply (is_RInt_const (V := R_NormedModule)).
  - apply (is_RInt_ext (fun _ => 1)). { intros x [Hx _]. rewrite Rmin_left in Hx by lra. rewrite (Rle_bool_true p x) by lra. reflexivity. }
    apply (is_RInt_const (V := R_NormedModule)).
Qed.
(** A packet crossing optical depth tau is absorbed with probability 1 - exp(-tau), for every
    tau >= 0; never with absorption switched off. *)
Theorem C44_absorption : forall tau, 0 <= tau ->
  expected (fun r => indicator (absorbed true r tau)) (1 - exp (- tau)) /\ (forall r, absorbed false r tau = false).
Proof.
  intros tau Ht. split; [|reflexivity].
  assert (B : 0 < exp (- tau) <= 1). { split; [apply exp_pos|]. rewrite <- exp_0. destruct (Req_dec tau 0) as [->|N]; [rewrite Ropp_0; lra|left; apply exp_increasing; lra]. }
  eapply expected_ext; [|apply expected_tail; exact B]. intros r Hr. unfold absorbed. cbn [andb]. rewrite (Req_bool_false r 0) by lra. cbn [negb andb]. f_equal.
  destruct (Rle_bool_spec (exp (- tau)) r) as [L|L]; symmetry.
  - apply Rle_bool_true. assert (- tau <= ln r); [|lra]. rewrite <- (ln_exp (- tau)). destruct (Req_dec (exp (- tau)) r) as [->|N]; [lra|left; apply ln_increasing; lra].
  - apply Rle_bool_false. assert (ln r < - tau); [|lra]. rewrite <- (ln_exp (- tau)). apply ln_increasing; lra.
Qed.
Print Assumptions C44_absorption.

(** For matter at rest in flat space the optical depth used is the physical one, for every
    packet, opacity and step. *)
Theorem C44_optical_depth : forall h dt alpha q, h <> 0 -> pk_K q 0%nat < 0 ->
  dtau_abs h dt alpha q = optical_depth h alpha eta (row4 1 0 0 0) (pk_K q) dt.
Proof.
  intros h dt alpha q Hh Hk. unfold dtau_abs, packet_nu, optical_depth. unfold sum4, row4, eta. cbn [Nat.eqb].
  replace (- (pk_K q 0%nat * 1 + pk_K q 1%nat * 0 + pk_K q 2%nat * 0 + pk_K q 3%nat * 0)) with (- pk_K q 0%nat) by ring.
  set (a := alpha _). field. lra.
Qed.
Print Assumptions C44_optical_depth.

(** VIOLATION: for moving matter it is not (line 447 uses -k_0 for the energy in the rest frame
    and the path length of the lab frame): a packet running along with matter moving at 4/5 of
    the speed of light should see a third of the optical depth it is given. *)
Theorem C44_optical_depth_refuted : forall h dt e w s, 0 < h -> 0 < dt -> 0 < e ->
  let u := row4 (5 / 3) (4 / 3) 0 0 in let q := mkPacket (fun _ => 0) (row4 (- e) e 0 0) w s in
  dot4 eta u u = -1 /\ null eta (pk_K q) /\ dtau_abs h dt (fun _ => 1) q = 3 * optical_depth h (fun _ => 1) eta u (pk_K q) dt /\ dtau_abs h dt (fun _ => 1) q = dt.
Proof.
  intros h dt e w s Hh Hdt He u q. split; [|split; [|split]].
  - unfold dot4, eta, sum4, u, row4. cbn [Nat.eqb]. field.
  - unfold null, eta, sum4, q, row4. cbn [Nat.eqb pk_K]. ring.
  - unfold dtau_abs, optical_depth, sum4, eta, u, q, row4. cbn [Nat.eqb pk_K]. field. lra.
  - unfold dtau_abs. ring.
Qed.
Print Assumptions C44_optical_depth_refuted.

(** *** resolution control *)
Lemma correction_value dt np em ab : @emission_correction R Num_R dt np em ab = make_bounded (if Rlt_bool (em - ab) 0 then 4 / 3 else dt * np / (em - ab)) (3 / 4) (4 / 3).
Proof. unfold emission_correction. cbn [nlit nsub nmul ndiv nlt Num_R]. replace (0 / 1) with 0 by field. replace (dt * np / (1 / 1)) with (dt * np) by field. reflexivity. Qed.
Lemma correction_bounds dt np em ab : 3 / 4 < @emission_correction R Num_R dt np em ab < 4 / 3.
Proof.
  rewrite correction_value. destruct (C01_make_bounded (if Rlt_bool (em - ab) 0 then 4 / 3 else dt * np / (em - ab)) (3 / 4) (4 / 3) ltac:(lra)) as (A & _). lra.
Qed.
Lemma correction_exact dt np em : 4 / 5 * em <= dt * np <= 5 / 4 * em -> 0 < em -> @emission_correction R Num_R dt np em 0 = dt * np / em.
Proof.
  intros H He. rewrite correction_value, Rminus_0_r, (Rlt_bool_false em 0) by lra.
  apply (C01_make_bounded (dt * np / em) (3 / 4) (4 / 3)); [lra|].
  assert (4 / 5 <= dt * np / em <= 5 / 4); [|lra]. split; [apply (Rmult_le_reg_r em); [lra|]; replace (dt * np / em * em) with (dt * np) by (field; lra); lra|apply (Rmult_le_reg_r em); [lra|]; replace (dt * np / em * em) with (dt * np) by (field; lra); lra].
Qed.
(** Every history of calls with any packet counts: the emission factor stays positive and one
    call changes it by a factor between 3/4 and 4/3. *)
Theorem C44_tuning_bounded : forall dt_em dt_sc np (calls : list (R * R * R * R)) s, 0 < tune_em s ->
  let run := fold_left (fun s x => let '(t1, em, ab, sc) := x in UpdateTuning dt_em dt_sc np t1 (mkTuning (t_em s) (tune_em s) em ab (t_sc s) (tune_sc s) sc)) in
  0 < tune_em (run calls s) /\
  forall t1 s, 0 < tune_em s -> 3 / 4 * tune_em s <= tune_em (UpdateTuning dt_em dt_sc np t1 s) <= 4 / 3 * tune_em s.
Proof.
  intros dt_em dt_sc np calls s Hs run.
  assert (One : forall t1 s, 0 < tune_em s -> 3 / 4 * tune_em s <= tune_em (UpdateTuning dt_em dt_sc np t1 s) <= 4 / 3 * tune_em s).
  { intros t1 x Hx. unfold UpdateTuning. pose proof (correction_bounds dt_em np (num_em x) (num_abs x)) as B.
    destruct (Rlt_bool (t_em x) t1); cbn [t_sc tune_em]; destruct (Rlt_bool (t_sc x) t1); cbn [tune_em]; nra. }
  split; [|exact One]. revert s Hs. induction calls as [|[[[t1 em] ab] sc] r IH]; intros s Hs; cbn; [exact Hs|]. apply IH.
  pose proof (One t1 (mkTuning (t_em s) (tune_em s) em ab (t_sc s) (tune_sc s) sc) Hs) as B. cbn [tune_em] in B. lra.
Qed.
Print Assumptions C44_tuning_bounded.
Example C44_tuning_bounded_nonvacuous : tune_em (UpdateTuning 1 1 100 2 (mkTuning 1 1 100 0 1 1 5)) = 1.
Proof.
  unfold UpdateTuning. cbn [t_em tune_em num_em num_abs t_sc tune_sc num_sc]. rewrite (Rlt_bool_true 1 2) by lra. cbn [t_em tune_em num_em num_abs t_sc tune_sc num_sc]. rewrite (Rlt_bool_true 1 2) by lra. cbn [tune_em].
  rewrite correction_exact by lra. field.
Qed.

Lemma dN_scale h w a b nb d3x detG dt J : h <> 0 -> w <> 0 -> dN h w a b nb d3x detG dt J = d3x * detG * dt * trapezoidal (fun l => J (exp l) * exp l) (ln a) (ln b) nb / (h * w).
Proof. intros Hh Hw. rewrite <- (dN_value h w) by assumption. field. split; assumption. Qed.
Lemma dNtot_scale h w w' a b nb dt zones : h <> 0 -> w <> 0 -> w' <> 0 -> dNtot h w a b nb dt zones * w = dNtot h w' a b nb dt zones * w'.
Proof.
  intros Hh Hw Hw'. unfold dNtot. induction zones as [|[[d g] J] r IH]; cbn [fold_right]; [ring|].
  rewrite !Rmult_plus_distr_r, IH. f_equal. rewrite !dN_scale by assumption. field. repeat split; assumption.
Qed.

(** VIOLATION: the correction is meant to bring the number of packets to its target in one
    interval.  SetWeight divides wgtC by the new factor while the emission multiplies by it, so
    the number changes by the square of the correction: in a steady state without absorption,
    starting within 25% of the target I, the number alternates between N and I^2/N for ever. *)
Theorem C44_tuning_oscillates_refuted : forall Jtot h L3 np nu_min nu_max nu_bins dt zones tune0,
  0 < h -> 0 < Jtot -> 0 < L3 -> 0 < nu_min -> 0 < tune0 -> 0 < dt * np ->
  let s0 := (tune0, SetWeight Jtot h L3 tune0 nu_min) in
  let I := dt * np in let N := mean_emitted h nu_min nu_max nu_bins dt zones in let N0 := N s0 in
  let state := fun n => tuning_history Jtot h L3 np nu_min nu_max nu_bins dt zones n s0 in
  4 / 5 * I <= N0 <= 5 / 4 * I -> forall n, N (state (2 * n)%nat) = N0 /\ N (state (2 * n + 1)%nat) = I ^ 2 / N0.
Proof.
  intros Jtot h L3 np a b nb dt zones tune0 Hh HJ HL Ha Ht0 HI s0 I N N0 state HN0.
  (* all reachable states carry the weight of their factor, and N goes with its square *)
  assert (W : forall t, 0 < t -> 0 < SetWeight Jtot h L3 t a).
  { intros t Ht. unfold SetWeight. apply Rmult_lt_0_compat; [|exact Ha]. apply Rdiv_lt_0_compat; [exact HJ|]. apply Rmult_lt_0_compat; [exact Hh|]. apply Rdiv_lt_0_compat; lra. }
  assert (Sq : forall t t', 0 < t -> 0 < t' -> N (t', SetWeight Jtot h L3 t' a) = (t' / t) ^ 2 * N (t, SetWeight Jtot h L3 t a)).
  { intros t t' Ht Ht'. unfold N, mean_emitted. cbn [fst snd]. pose proof (W t Ht) as Wt. pose proof (W t' Ht') as Wt'.
    pose proof (dNtot_scale h (SetWeight Jtot h L3 t a) (SetWeight Jtot h L3 t' a) a b nb dt zones ltac:(lra) ltac:(lra) ltac:(lra)) as E.
    assert (R0 : SetWeight Jtot h L3 t a = t' / t * SetWeight Jtot h L3 t' a) by (unfold SetWeight; field; repeat split; lra).
    set (d := dNtot h (SetWeight Jtot h L3 t a) a b nb dt zones) in *. set (d' := dNtot h (SetWeight Jtot h L3 t' a) a b nb dt zones) in *.
    assert (E' : d' = d * (t' / t)). { apply (Rmult_eq_reg_r (SetWeight Jtot h L3 t' a)); [|lra]. rewrite <- E, R0. ring. }
    rewrite E'. field. lra. }
  assert (Step : forall t, 0 < t -> let m := N (t, SetWeight Jtot h L3 t a) in 4 / 5 * I <= m <= 5 / 4 * I ->
     exists t', 0 < t' /\ tuning_interval Jtot h L3 np a b nb dt zones (t, SetWeight Jtot h L3 t a) = (t', SetWeight Jtot h L3 t' a) /\ N (t', SetWeight Jtot h L3 t' a) = I ^ 2 / m).
  { intros t Ht m Hm. exists (dt * np / m * t). assert (0 < m) by (fold I in HI; lra). assert (0 < dt * np / m * t) by (apply Rmult_lt_0_compat; [apply Rdiv_lt_0_compat; lra|exact Ht]).
    split; [assumption|]. split.
    - unfold tuning_interval. fold N. fold m. cbn [fst]. rewrite correction_exact; [reflexivity|fold I; lra|lra].
    - rewrite (Sq t) by assumption. fold m. unfold I. field. lra. }
  assert (Inv : forall n, exists t, 0 < t /\ state (2 * n)%nat = (t, SetWeight Jtot h L3 t a) /\ N (state (2 * n)%nat) = N0).
  { induction n as [|n (t & Ht & Es & EN)]; [exists tune0; split; [exact Ht0|split; reflexivity]|].
    destruct (Step t Ht) as (t' & Ht' & E1 & N1). { rewrite <- Es, EN. exact HN0. } rewrite <- Es in E1, N1. rewrite EN in N1.
    fold I in HI. assert (P0 : 0 < N0) by lra.
    assert (R1 : 4 / 5 * I <= I ^ 2 / N0 <= 5 / 4 * I).
    { assert (Hx : I ^ 2 / N0 * N0 = I ^ 2) by (field; lra). split; apply (Rmult_le_reg_r N0); try lra; rewrite Hx; nra. }
    destruct (Step t' Ht') as (t2 & Ht2 & E2 & N2). { rewrite N1. exact R1. }
    assert (S2 : state (2 * S n)%nat = (t2, SetWeight Jtot h L3 t2 a)).
    { unfold state in *. replace (2 * S n)%nat with (S (S (2 * n))) by lia. cbn [tuning_history]. rewrite E1. exact E2. }
    exists t2. split; [exact Ht2|]. split; [exact S2|]. rewrite S2, N2, N1. field. lra. }
  intros n. destruct (Inv n) as (t & Ht & Es & EN). split; [exact EN|].
  destruct (Step t Ht) as (t' & Ht' & E1 & N1). { rewrite <- Es, EN. exact HN0. } rewrite <- Es in E1, N1. rewrite EN in N1.
  replace (2 * n + 1)%nat with (S (2 * n)) by lia. unfold state in *. cbn [tuning_history]. rewrite E1. exact N1.
Qed.
Print Assumptions C44_tuning_oscillates_refuted.

Example C44_tuning_oscillates_nonvacuous : let zones := [(1, 1, fun nu => / nu)] in
  mean_emitted 1 1 (exp 1) 1 1 zones (1, SetWeight 1 1 1 1 1) = 1 /\ 4 / 5 * (1 * (9 / 10)) <= 1 <= 5 / 4 * (1 * (9 / 10)).
Proof.
  cbv zeta. split; [|lra]. unfold mean_emitted, SetWeight. cbn [fst snd]. replace (1 / (1 * (1 / (1 * 1))) * 1) with 1 by field. unfold dNtot. cbn [fold_right].
  rewrite dN_scale by lra. unfold trapezoidal, sum_first. rewrite ln_1, ln_exp. cbn [INR].
  rewrite !Rinv_l by (apply Rgt_not_eq; apply exp_pos). field.
Qed.

(** VIOLATION: the scattering factor is meant to change by at most a factor 2, but the bounded
    value is discarded (line 652): with no scattering event, which is always so (the transport
    never scatters), the double precision correction is +infinity. *)
Theorem C44_scattering_refuted :
  (forall dt np : B64, BinarySingleNaN.is_finite (Bmult mode_NE dt np) = true -> 0 < B2R (Bmult mode_NE dt np) -> scattering_correction dt np (B754_zero false) = B754_infinity false) /\
  (forall B, exists sc, 0 < sc /\ B < @scattering_correction R Num_R 1 1 sc).
Proof.
  split.
  - intros dt np Hf Hp. unfold scattering_correction. cbn [ndiv nmul Num_B64]. destruct (Bmult mode_NE dt np) as [sx|sx| |sx m e He]; try discriminate; cbn in Hp; [lra|].
    destruct sx; [|reflexivity]. exfalso. unfold F2R in Hp. cbn in Hp. pose proof (bpow_gt_0 radix2 e). assert (IZR (Z.neg m) <= -1) by (apply IZR_le; lia). nra.
  - intros B. exists (1 / (Rabs B + 1)). pose proof (Rabs_pos B). pose proof (Rle_abs B). split; [apply Rdiv_lt_0_compat; lra|]. unfold scattering_correction. cbn [ndiv nmul Num_R].
    replace (1 * 1 / (1 / (Rabs B + 1))) with (Rabs B + 1) by (field; lra). lra.
Qed.
Print Assumptions C44_scattering_refuted.

(** a zone radiating J_nu = 1/nu between 1 and e meets the hypotheses of the emission theorems *)
Example C44_emission_nonvacuous :
  dN 1 1 1 (exp 1) 4 1 1 1 (fun nu => / nu) = 1 /\
  (forall nu, 1 <= nu <= exp 1 -> is_derive ln nu (/ nu)) /\
  (forall l, is_derive (fun l => / exp l * exp l) l 0) /\ (0 < 1 < exp 1) /\ (forall n, 0 < / nusamp 1 (exp 1) 4 n).
Proof.
  assert (E1 : 1 < exp 1) by (rewrite <- exp_0 at 1; apply exp_increasing; lra).
  split; [|split; [|split; [|split]]].
  - rewrite dN_scale by lra. unfold trapezoidal, sum_first. rewrite ln_1, ln_exp. cbn [INR]. rewrite !Rinv_l by (apply Rgt_not_eq; apply exp_pos). field.
  - intros nu Hnu. apply is_derive_Reals. apply derivable_pt_lim_ln. lra.
  - intros l. apply (is_derive_ext (fun _ => 1)). { intros t. rewrite Rinv_l by (apply Rgt_not_eq, exp_pos). reflexivity. } apply (is_derive_const (K := R_AbsRing) (V := R_NormedModule)).
  - lra.
  - intros n. apply Rinv_0_lt_compat. apply nusamp_pos.
Qed.
