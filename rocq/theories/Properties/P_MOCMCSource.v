(** C50: the MOCMC samples, part 2: frequencies, opacities, exchange with the fluid, initial samples, boundaries, time step. *)
From Coq Require Import Reals Arith ZArith Lia Lra Psatz List.
From Flocq Require Import Core.
From Verif.Model Require Import Num Robust Geometry Modified Interpolation RadClosure Geodesics Driver MOCMC.
From Verif.Spec Require Import Tensor SphereSpec StepSpec RadExchange.
From Verif.Proofs Require Import NumR RobustProofs MOCMCProofs MOCMCGrid.
From Verif.Spec Require Import GeomSpec RadSpec RadSource.
From Verif.Properties Require P_Geodesics P_RadImplicit.
Import ListNotations.
Local Open Scope R_scope.

(** ** Frequencies *)
Lemma c_round_near x : Rabs (IZR (c_round x) - x) <= / 2.
Proof.
  unfold c_round. destruct (Rle_bool_spec 0 x).
  - pose proof (Zfloor_lb (x + / 2)). pose proof (Zfloor_ub (x + / 2)). apply Rabs_le. lra.
  - pose proof (Zceil_ub (x - / 2)). pose proof (Zceil_lb (x - / 2)). apply Rabs_le. lra.
Qed.
Lemma c_round_unique x z : Rabs (IZR z - x) < / 2 -> c_round x = z.
Proof.
  intros H. apply Rabs_lt_inv in H. unfold c_round. destruct (Rle_bool_spec 0 x).
  - apply Zfloor_imp. rewrite plus_IZR. lra.
  - apply Zceil_imp. rewrite minus_IZR. lra.
Qed.
(** the grid covers [nu_min, nu_max] with bins of equal width in ln nu; the samples are the centres *)
Theorem C50_grid (nu_min nu_max : R) (nbins n : nat) : 0 < nu_min < nu_max -> (n < nbins)%nat ->
  let d := mocmc_dlnu nu_min nu_max nbins in
  0 < d /\ ln nu_min + INR nbins * d = ln nu_max /\ ln (mocmc_nusamp nu_min d n) = ln nu_min + (INR n + / 2) * d /\
  nu_min < mocmc_nusamp nu_min d n < nu_max.
Proof.
  intros H Hn d. assert (B : 0 < INR nbins) by (apply lt_0_INR; lia).
  assert (L : ln nu_min < ln nu_max) by (apply ln_increasing; lra).
  assert (D : 0 < d) by (apply Rdiv_lt_0_compat; lra).
  assert (E : ln nu_min + INR nbins * d = ln nu_max) by (unfold d, mocmc_dlnu; field; lra).
  assert (N : INR n + 1 <= INR nbins) by (rewrite <- S_INR; apply le_INR; lia). pose proof (pos_INR n) as N0.
  split; [exact D|]. split; [exact E|]. split; [apply ln_exp|].
  unfold mocmc_nusamp. split.
  - rewrite <- (exp_ln nu_min) at 1 by lra. apply exp_increasing. assert (0 < (INR n + / 2) * d) by (apply Rmult_lt_0_compat; lra). lra.
  - rewrite <- (exp_ln nu_max) by lra. apply exp_increasing. rewrite <- E. apply Rplus_lt_compat_l. apply Rmult_lt_compat_r; lra.
Qed.
Print Assumptions C50_grid.

Lemma sum_ext' f g n : (forall k, (k < n)%nat -> f k = g k) -> sum_to f n = sum_to g n.
Proof. apply sum_ext. Qed.
(** The intensity seen by the fluid: bin b of the fluid frame takes the stored bin whose frequency, seen by the fluid (multiplied by
    ndu = -n.u), falls in bin b to within half a bin width; zero if that bin is not stored. *)
Theorem C50_doppler (nu_min dlnu ndu : R) (nbins : nat) (Inuinv : Z -> R) : 0 < nu_min -> 0 < dlnu -> 0 < ndu ->
  let nu := mocmc_nusamp nu_min dlnu in
  exists pick : nat -> option nat,
    sample_intensity nbins nu dlnu ndu Inuinv = sum_to (fun b => match pick b with Some a => Inuinv (Z.of_nat a) * nu b ^ 4 | None => 0 end) nbins /\
    forall b, (b < nbins)%nat ->
      match pick b with
      | Some a => (a < nbins)%nat /\ Rabs (ln (nu a * ndu) - ln (nu b)) <= dlnu / 2
      | None => forall a, (a < nbins)%nat -> dlnu / 2 <= Rabs (ln (nu a * ndu) - ln (nu b))
      end.
Proof.
  intros Hm Hd Hu nu. set (sh := eddington_shift (nu 0%nat) ndu dlnu). set (z := c_round sh).
  assert (Hnu : forall k, 0 < nu k) by (intros; apply exp_pos).
  assert (Esh : sh = - ln ndu / dlnu).
  { unfold sh, eddington_shift. rewrite ln_mult by auto. field. lra. }
  assert (Diff : forall a b, ln (nu a * ndu) - ln (nu b) = dlnu * (INR a - INR b - sh)).
  { intros a b. rewrite ln_mult by auto. unfold nu, mocmc_nusamp. rewrite !ln_exp, Esh. field. lra. }
  set (pick := fun b => let i := (Z.of_nat b + z)%Z in if (orb (i <? 0) (Z.of_nat nbins <=? i))%Z then None else Some (Z.to_nat i)).
  exists pick. split.
  - unfold sample_intensity. apply sum_ext'. intros b Hb. fold sh. fold z. unfold pc_indices, pick. cbv zeta.
    destruct (orb (Z.of_nat b + z <? 0) (Z.of_nat nbins <=? Z.of_nat b + z))%Z eqn:E; [ring|].
    apply Bool.orb_false_iff in E as (E1 & E2). rewrite Z2Nat.id by lia. ring.
  - intros b Hb. pose proof (c_round_near sh) as N. fold z in N. unfold pick. cbv zeta.
    destruct (orb (Z.of_nat b + z <? 0) (Z.of_nat nbins <=? Z.of_nat b + z))%Z eqn:E.
    + intros a Ha. rewrite Diff, Rabs_mult, (Rabs_right dlnu) by lra.
      assert (Q : / 2 <= Rabs (INR a - INR b - sh)).
      { destruct (Rle_dec (/ 2) (Rabs (INR a - INR b - sh))) as [|C]; [assumption|]. exfalso.
        assert (z = Z.of_nat a - Z.of_nat b)%Z. { apply c_round_unique. rewrite minus_IZR, <- !INR_IZR_INZ. lra. }
        apply Bool.orb_true_iff in E as [E|E]; lia. }
      nra.
    + apply Bool.orb_false_iff in E as (E1 & E2). split; [lia|].
      rewrite Diff, Rabs_mult, (Rabs_right dlnu) by lra.
      replace (INR (Z.to_nat (Z.of_nat b + z)) - INR b - sh) with (IZR z - sh).
      * nra.
      * rewrite (INR_IZR_INZ (Z.to_nat _)), Z2Nat.id by lia. rewrite plus_IZR, <- INR_IZR_INZ. ring.
Qed.
Print Assumptions C50_doppler.
Lemma sum_sub f g n : sum_to f n - sum_to g n = sum_to (fun k => f k - g k) n.
Proof. induction n as [|n IH]; cbn [sum_to]; [ring|]. rewrite <- IH. ring. Qed.
(** a fluid at rest with respect to the samples reads the stored intensities *)
Theorem C50_doppler_rest (nu_min dlnu : R) (nbins : nat) (Inuinv : Z -> R) : 0 < nu_min -> 0 < dlnu ->
  let nu := mocmc_nusamp nu_min dlnu in
  sample_intensity nbins nu dlnu 1 Inuinv = sum_to (fun b => Inuinv (Z.of_nat b) * nu b ^ 4) nbins.
Proof.
  intros Hm Hd nu. unfold sample_intensity. unfold eddington_shift. replace ((ln (nu 0%nat) - ln (1 * nu 0%nat)) / dlnu) with 0 by (rewrite Rmult_1_l; field; lra).
  assert (E : c_round 0 = 0%Z) by (apply c_round_unique; rewrite Rminus_0_r, Rabs_R0; lra). rewrite E.
  apply sum_ext'. intros b Hb. unfold pc_indices. cbv zeta. rewrite Z.add_0_r.
  rewrite (proj2 (Z.ltb_ge _ _)) by lia. rewrite (proj2 (Z.leb_gt _ _)) by lia. cbn [orb]. ring.
Qed.
Print Assumptions C50_doppler_rest.

(** ** Opacities *)
Lemma trapezoid_weights nbins f : (2 <= nbins)%nat ->
  freq_trapezoid nbins f = / 2 * f 0%nat + sum_to (fun k => f (S k)) (nbins - 2) + / 2 * f (nbins - 1)%nat.
Proof.
  intros H. destruct nbins as [|[|m]]; [lia|lia|]. replace (S (S m) - 2)%nat with m by lia. replace (S (S m) - 1)%nat with (S m) by lia.
  unfold freq_trapezoid. change (sum_to f (S (S m))) with (sum_to f (S m) + f (S m)). replace (S (S m) - 1)%nat with (S m) by lia.
  assert (Q : forall k, sum_to f (S k) = f 0%nat + sum_to (fun k => f (S k)) k).
  { induction k as [|k IH]; [cbn; ring|]. change (sum_to f (S (S k))) with (sum_to f (S k) + f (S k)). rewrite IH. cbn [sum_to]. ring. }
  rewrite Q. field.
Qed.
Lemma trapezoid_le nbins f g : (2 <= nbins)%nat -> (forall k, (k < nbins)%nat -> f k <= g k) -> freq_trapezoid nbins f <= freq_trapezoid nbins g.
Proof.
  intros H L. rewrite !trapezoid_weights by exact H. pose proof (L 0%nat ltac:(lia)). pose proof (L (nbins - 1)%nat ltac:(lia)).
  assert (0 <= sum_to (fun k => g (S k)) (nbins - 2) - sum_to (fun k => f (S k)) (nbins - 2)).
  { rewrite sum_sub. apply sum_nonneg. intros k Hk. pose proof (L (S k) ltac:(lia)). lra. }
  lra.
Qed.
Lemma trapezoid_scal nbins c f : freq_trapezoid nbins (fun k => c * f k) = c * freq_trapezoid nbins f.
Proof.
  unfold freq_trapezoid. replace (sum_to (fun k => c * f k) nbins) with (c * sum_to f nbins); [ring|].
  rewrite Rmult_comm, <- sum_scal. apply sum_ext'. intros. ring.
Qed.
(** With two or more bins and a non-negative intensity the frequency averages lie between the bounds of the opacity: never above, and below
    only by the guard of the division. *)
Theorem C50_opacity (nbins : nat) (nu Inu0 f : nat -> R) (lo hi : R) : (2 <= nbins)%nat ->
  (forall k, (k < nbins)%nat -> 0 < nu k /\ 0 <= Inu0 k /\ lo <= f k <= hi) -> 0 <= lo ->
  let Itot := freq_trapezoid nbins (fun k => Inu0 k * nu k) in
  0 <= Itot /\ lo * (Itot / (Itot + SMALL)) <= mean_opacity nbins nu Inu0 f <= hi.
Proof.
  intros Hn H Hlo Itot. pose proof SMALL_pos as SP.
  assert (W : forall k, (k < nbins)%nat -> 0 <= Inu0 k * nu k) by (intros k Hk; destruct (H k Hk) as (A & B & _); apply Rmult_le_pos; lra).
  assert (I0 : 0 <= Itot).
  { unfold Itot. replace 0 with (freq_trapezoid nbins (fun _ => 0 * 0)) by (rewrite (trapezoid_scal nbins 0 (fun _ => 0)); ring). apply trapezoid_le; [exact Hn|].
    intros k Hk. pose proof (W k Hk). lra. }
  split; [exact I0|]. unfold mean_opacity. fold Itot. rewrite ratio_R. destruct (Rle_dec 0 Itot); [|lra].
  set (T := freq_trapezoid nbins (fun bin => f bin * Inu0 bin * nu bin)).
  assert (L : lo * Itot <= T).
  { unfold Itot, T. rewrite <- trapezoid_scal. apply trapezoid_le; [exact Hn|]. intros k Hk. destruct (H k Hk) as (A & B & C). pose proof (W k Hk).
    replace (f k * Inu0 k * nu k) with (f k * (Inu0 k * nu k)) by ring. apply Rmult_le_compat_r; lra. }
  assert (U : T <= hi * Itot).
  { unfold Itot, T. rewrite <- trapezoid_scal. apply trapezoid_le; [exact Hn|]. intros k Hk. destruct (H k Hk) as (A & B & C). pose proof (W k Hk).
    replace (f k * Inu0 k * nu k) with (f k * (Inu0 k * nu k)) by ring. apply Rmult_le_compat_r; lra. }
  assert (Hh : 0 <= hi) by (destruct (H 0%nat ltac:(lia)) as (_ & _ & C); lra).
  assert (D : 0 < Itot + SMALL) by lra. split.
  - apply Rmult_le_reg_r with (Itot + SMALL); [exact D|]. unfold Rdiv. rewrite !Rmult_assoc, Rinv_l by lra. lra.
  - apply Rmult_le_reg_r with (Itot + SMALL); [exact D|]. unfold Rdiv. rewrite !Rmult_assoc, Rinv_l by lra.
    assert (0 <= hi * SMALL) by (apply Rmult_le_pos; lra). lra.
Qed.
Print Assumptions C50_opacity.
Example C50_opacity_nonvacuous : exists nu Inu0 f : nat -> R, (forall k, (k < 2)%nat -> 0 < nu k /\ 0 <= Inu0 k /\ 1 <= f k <= 2) /\
  freq_trapezoid 2 (fun k => Inu0 k * nu k) = 1 /\ mean_opacity 2 nu Inu0 f = (3 / 2) / (1 + SMALL).
Proof.
  exists (fun _ => 1), (fun _ => 1), (fun k => match k with O => 1 | _ => 2 end). split; [|split].
  - intros [|k] _; lra.
  - unfold freq_trapezoid. cbn. field.
  - unfold mean_opacity, freq_trapezoid. cbn [sum_to Nat.sub]. rewrite ratio_R. match goal with |- context [Rle_dec 0 ?x] => destruct (Rle_dec 0 x) as [H|H] end; [f_equal; field|exfalso; lra].
Qed.
(** kappaH, stored for the asymptotic fluxes and used for the momentum exchange, is the sum of both averages *)
Theorem C50_kappa (nbins : nat) (nu Inu0 absorb scatter : nat -> R) :
  fst (mocmc_kappa nbins nu Inu0 absorb scatter) = mean_opacity nbins nu Inu0 absorb /\
  snd (mocmc_kappa nbins nu Inu0 absorb scatter) = mean_opacity nbins nu Inu0 absorb + mean_opacity nbins nu Inu0 scatter.
Proof. unfold mocmc_kappa. cbn. split; [reflexivity|ring]. Qed.
Print Assumptions C50_kappa.
(** With one frequency bin the trapezoidal rule removes the only bin: matter is transparent whatever its opacity. *)
Theorem C50_one_bin_refuted (nu Inu0 absorb scatter : nat -> R) : mocmc_kappa 1 nu Inu0 absorb scatter = (0, 0).
Proof.
  unfold mocmc_kappa, mean_opacity.
  assert (Z : forall f, freq_trapezoid 1 f = 0) by (intros f; unfold freq_trapezoid; cbn; field).
  rewrite !Z. rewrite ratio_R. pose proof SMALL_pos. destruct (Rle_dec 0 0); [|lra]. f_equal; field; lra.
Qed.
Print Assumptions C50_one_bin_refuted.
(** The mean intensity of a zone lies between the extremes of its samples when the solid angles are positive and add up to 4 pi; *)
Theorem C50_mean_intensity (nsamp : nat) (g : nat -> Rect) (nu : nat -> R) (Inuinv : nat -> nat -> R) (bin : nat) (lo hi : R) :
  0 < nu bin -> (forall n, (n < nsamp)%nat -> 0 <= rect_omega (g n) /\ lo <= Inuinv n bin <= hi) ->
  sum_to (fun n => rect_omega (g n)) nsamp = 4 * PI ->
  lo * nu bin ^ 3 <= mean_intensity nsamp g nu Inuinv bin <= hi * nu bin ^ 3.
Proof.
  intros Hnu H S4. pose proof PI_RGT_0 as HP. assert (N3 : 0 < nu bin ^ 3) by (apply pow_lt; exact Hnu).
  assert (C : forall c, c * nu bin ^ 3 = sum_to (fun n => c * nu bin ^ 3 * (rect_omega (g n) / (4 * PI))) nsamp).
  { intros c. rewrite (sum_ext' _ (fun n => rect_omega (g n) * (c * nu bin ^ 3 / (4 * PI)))) by (intros; field; lra). rewrite sum_scal, S4. field. lra. }
  unfold mean_intensity. rewrite (C lo), (C hi).
  assert (W : forall n, (n < nsamp)%nat -> 0 <= rect_omega (g n) / (4 * PI)).
  { intros n Hn. apply Rmult_le_pos; [apply H; exact Hn|]. left. apply Rinv_0_lt_compat. lra. }
  split.
  - apply Rminus_le. rewrite sum_sub. match goal with |- ?x <= 0 => enough (Q : 0 <= - x) by lra end.
    match goal with |- 0 <= - sum_to ?f _ => replace (- sum_to f nsamp) with (sum_to (fun k => f k * -1) nsamp) by (rewrite sum_scal; ring) end.
    apply sum_nonneg. intros k Hk. destruct (H k Hk) as (_ & A & B). specialize (W k Hk).
    replace ((lo * nu bin ^ 3 * (rect_omega (g k) / (4 * PI)) - Inuinv k bin * nu bin ^ 3 * (rect_omega (g k) / (4 * PI))) * -1)
      with ((Inuinv k bin - lo) * (nu bin ^ 3 * (rect_omega (g k) / (4 * PI)))) by ring.
    apply Rmult_le_pos; [lra|]. apply Rmult_le_pos; lra.
  - apply Rminus_le. rewrite sum_sub. match goal with |- ?x <= 0 => enough (Q : 0 <= - x) by lra end.
    match goal with |- 0 <= - sum_to ?f _ => replace (- sum_to f nsamp) with (sum_to (fun k => f k * -1) nsamp) by (rewrite sum_scal; ring) end.
    apply sum_nonneg. intros k Hk. destruct (H k Hk) as (_ & A & B). specialize (W k Hk).
    replace ((Inuinv k bin * nu bin ^ 3 * (rect_omega (g k) / (4 * PI)) - hi * nu bin ^ 3 * (rect_omega (g k) / (4 * PI))) * -1)
      with ((hi - Inuinv k bin) * (nu bin ^ 3 * (rect_omega (g k) / (4 * PI)))) by ring.
    apply Rmult_le_pos; [lra|]. apply Rmult_le_pos; lra.
Qed.
Print Assumptions C50_mean_intensity.

(** ** Exchange with the fluid *)
(** Energy and momentum lost by the radiation of all species are gained by the fluid, for every source; the lepton number of the fluid
    does not change. *)
Theorem C50_exchange (upd : nat -> R -> vec -> R * vec) (sdetgam : R) (nspec : nat) (z : Zone) :
  let z' := mocmc_species upd sdetgam true nspec z in
  total nspec (z_eng z') (z_E z') = total nspec (z_eng z) (z_E z) /\
  (forall i, total nspec (z_mom z' i) (fun s => z_F z' s i) = total nspec (z_mom z i) (fun s => z_F z s i)) /\
  z_ye z' = z_ye z.
Proof.
  assert (G : forall n, (n <= nspec)%nat -> let z' := mocmc_species upd sdetgam true n z in
     (forall s, (n <= s)%nat -> z_E z' s = z_E z s /\ forall i, z_F z' s i = z_F z s i) /\
     (forall m, (n <= m)%nat -> total m (z_eng z') (z_E z') = total m (z_eng z) (z_E z)) /\
     (forall m i, (n <= m)%nat -> total m (z_mom z' i) (fun s => z_F z' s i) = total m (z_mom z i) (fun s => z_F z s i)) /\
     z_ye z' = z_ye z).
  { induction n as [|n IH]; intros Hn; cbv zeta.
    - cbn [mocmc_species]. auto.
    - destruct (IH ltac:(lia)) as (A & B & C & D). cbn [mocmc_species]. set (y := mocmc_species upd sdetgam true n z) in *. cbv zeta in A, B, C, D.
      unfold mocmc_exchange. destruct (upd n (z_E y n / sdetgam) (fun i => z_F y n i / sdetgam)) as [dE dF]. cbn [z_E z_F z_eng z_mom z_ye].
      assert (SS : forall (f : nat -> R) c m, (S n <= m)%nat -> species_sum m (fun t => if Nat.eqb t n then f t + c else f t) = species_sum m f + c).
      { intros f c. induction m as [|m IHm]; intros Hm; [lia|]. cbn [species_sum]. destruct (Nat.eqb_spec m n) as [->|Q].
        - assert (E : forall k, (k <= n)%nat -> species_sum k (fun t => if Nat.eqb t n then f t + c else f t) = species_sum k f).
          { induction k as [|k IHk]; intros Hk; [reflexivity|]. cbn [species_sum]. rewrite IHk by lia. destruct (Nat.eqb_spec k n); [lia|reflexivity]. }
          rewrite E by lia. ring.
        - rewrite IHm by lia. ring. }
      split; [|split; [|split]].
      + intros s Hs. destruct (Nat.eqb_spec s n); [lia|]. apply A. lia.
      + intros m Hm. pose proof (B m ltac:(lia)) as Q. unfold total in *. rewrite SS by exact Hm. lra.
      + intros m i Hm. pose proof (C m i ltac:(lia)) as Q. unfold total in *. rewrite (SS (fun s => z_F y s i)) by exact Hm. lra.
      + rewrite <- D. ring. }
  destruct (G nspec (le_n _)) as (A & B & C & D). cbv zeta in *. split; [apply B; lia|]. split; [intros i; apply C; lia|exact D].
Qed.
Print Assumptions C50_exchange.
(** with update_fluid false, as in MOCMCInitSamples, the fluid is left alone, *)
Theorem C50_no_fluid (upd : nat -> R -> vec -> R * vec) (sdetgam : R) (nspec : nat) (z : Zone) :
  let z' := mocmc_species upd sdetgam false nspec z in z_eng z' = z_eng z /\ (forall i, z_mom z' i = z_mom z i) /\ z_ye z' = z_ye z.
Proof.
  induction nspec as [|n IH]; cbv zeta in *; cbn [mocmc_species]; [auto|]. unfold mocmc_exchange.
  destruct (upd n _ _) as [dE dF]. cbn [z_eng z_mom z_ye]. exact IH.
Qed.
Print Assumptions C50_no_fluid.
(** and its step of length zero changes no moment of any species, whatever the opacities, the stored tensors and the metric. *)
Theorem C50_first_call (alpha : R) (gamma : mat) (v : vec) (W : R) (rs : Strategy) (Pi : nat -> mat) (JBB : nat -> R) (kappa : nat -> R * R) (sdetgam : R) (fluid : bool) (nspec : nat) (z : Zone) :
  lorentz_of gamma v W -> dot3 gamma v v <= 9999 / 10000 ->
  (forall s, (s < nspec)%nat -> (2 * (W * W) + 1) / (3 * W) <> W * vvTilPi (mkClosure v gamma alpha rs) (Pi s)) ->
  let z' := mocmc_species (mocmc_upd (mkClosure v gamma alpha rs) energy_conserve alpha 0 Pi JBB kappa) sdetgam fluid nspec z in
  (forall s, z_E z' s = z_E z s /\ forall i, z_F z' s i = z_F z s i) /\ z_eng z' = z_eng z /\ (forall i, z_mom z' i = z_mom z i) /\ z_ye z' = z_ye z.
Proof.
  intros L V. induction nspec as [|n IH]; intros Hn; cbv zeta in *; cbn [mocmc_species]; [auto|].
  specialize (IH ltac:(intros s Hs; apply Hn; lia)). set (y := mocmc_species _ sdetgam fluid n z) in *.
  unfold mocmc_exchange, mocmc_upd. destruct (kappa n) as [kJ kH].
  replace (alpha * 0 * kJ) with 0 by ring. replace (alpha * 0 * kH) with 0 by ring.
  pose proof (P_RadImplicit.C31_transparent alpha gamma v W rs (Pi n) (z_E y n / sdetgam) (fun i => z_F y n i / sdetgam) (JBB n) L V (Hn n ltac:(lia))) as T.
  destruct (LinearSourceUpdate _ _ _ _ _ _ 0 0) as [dE dF]. destruct T as (T1 & T2). destruct IH as (A & B & C & D). cbn [z_E z_F z_eng z_mom z_ye].
  split; [|split; [|split]].
  - intros s. destruct (A s) as (A1 & A2). destruct (Nat.eqb s n); (split; [|intros i]); rewrite ?T1, ?T2, ?A1, ?A2; ring.
  - destruct fluid; rewrite ?T1, B; ring.
  - intros i. destruct fluid; rewrite ?T2, C; ring.
  - destruct fluid; rewrite D; ring.
Qed.
Print Assumptions C50_first_call.
(** Each species takes the backward Euler step of the four-force with the averaged opacities, for stored tensors without a component along the
    velocity (C31). *)
Theorem C50_source (alpha : R) (beta : vec) (g ginv gamma gi : mat) (sg sgg : R) (v : vec) (W : R) (rs : Strategy)
   (Pi : nat -> mat) (JBB : nat -> R) (kappa : nat -> R * R) (dt : R) (s : nat) (Es : R) (Fs : vec) :
  adm_consistent alpha beta g ginv gamma gi sg sgg -> lorentz_of gamma v W -> dot3 gamma v v <= 9999 / 10000 ->
  let c := mkClosure v gamma alpha rs in let u := moving alpha beta W v in
  let kJ := fst (kappa s) in let kH := snd (kappa s) in
  vvTilPi c (Pi s) = 0 -> 0 <= kJ -> 0 <= kH -> 0 <= dt ->
  let '(dE, dF) := mocmc_upd c energy_conserve alpha dt Pi JBB kappa s Es Fs in
  exists J H, transverse g u H /\
    let Q := four_force kJ kH (JBB s) J u H in
    Es + dE = fst (Prim2Con c energy_conserve J (fun i => low g H (S i)) (Pi s)) /\
    dE = dt * energy_rate alpha Q /\ forall i, (i < 3)%nat -> dF i = dt * momentum_rate alpha g Q i.
Proof.
  intros A L V c u kJ kH P0 P1 P2 P3. unfold mocmc_upd. unfold kJ, kH in *. destruct (kappa s) as [k1 k2]. cbn [fst snd] in *.
  replace (alpha * dt * k1) with (dt * alpha * k1) by ring. replace (alpha * dt * k2) with (dt * alpha * k2) by ring.
  pose proof (P_RadImplicit.C31_backward_euler alpha beta g ginv gamma gi sg sgg v W rs (Pi s) Es Fs (JBB s) k1 k2 dt A L V P0 P1 P2 P3) as T.
  fold c in T. destruct (LinearSourceUpdate c energy_conserve Es Fs (Pi s) (JBB s) (dt * alpha * k1) (dt * alpha * k2)) as [dE dF].
  cbv zeta in T. destruct T as ((J & H & T1 & T2) & _). exists J, H. split; [exact T1|]. fold u in T2.
  destruct (Prim2Con c energy_conserve J (fun i => low g H (S i)) (Pi s)) as [E' F']. destruct T2 as (B1 & B2 & B3 & B4).
  cbn [fst]. split; [exact B1|]. split; [rewrite <- B3; ring|]. intros i Hi. rewrite <- (B4 i Hi). ring.
Qed.
Print Assumptions C50_source.

(** ** The samples' intensities *)
(** With the fluid at rest with respect to the sample, the new intensity is a weighted mean of the old one, the thermal one and the
    mean over angles: it stays between their bounds, for every time step. *)
Theorem C50_sample_update (nbins : nat) (nu : nat -> R) (dlnu dt ut : R) (absorb scatter thermal Inu0 : nat -> R) (bin : nat) (I lo hi : R) :
  0 < dlnu -> 0 <= dt -> 0 < ut -> (bin < nbins)%nat -> 0 < nu bin -> 0 <= scatter bin ->
  lo <= I <= hi -> lo <= thermal bin / nu bin ^ 3 <= hi -> lo <= Inu0 bin / nu bin ^ 3 <= hi ->
  lo <= sample_update nbins nu dlnu dt ut 1 absorb scatter thermal Inu0 bin I <= hi.
Proof.
  intros Hd Ht Hu Hb Hn Hs B1 B2 B3. unfold sample_update. cbv zeta. unfold eddington_shift.
  replace (- ((ln (nu 0%nat) - ln (1 * nu 0%nat)) / dlnu)) with 0 by (rewrite Rmult_1_l; field; lra).
  assert (E : c_round 0 = 0%Z) by (apply c_round_unique; rewrite Rminus_0_r, Rabs_R0; lra). rewrite E.
  unfold pc_indices. cbv zeta. rewrite Z.add_0_r. rewrite (proj2 (Z.ltb_ge _ _)) by lia. rewrite (proj2 (Z.leb_gt _ _)) by lia. cbn [orb]. rewrite Nat2Z.id.
  set (n := nu bin) in *. set (a := dt / ut / n * (n * scatter bin)).
  assert (Ha : 0 <= a). { unfold a. apply Rmult_le_pos; [|apply Rmult_le_pos; lra]. unfold Rdiv. repeat apply Rmult_le_pos; try (left; apply Rinv_0_lt_compat; lra); lra. }
  set (x := thermal bin / n ^ 3) in *. set (y := Inu0 bin / n ^ 3) in *.
  replace (dt / ut / n * (thermal bin / (n * n * n) * (n * scatter bin) + 1 * (Inu0 bin / (n * n * n) * (n * scatter bin)))) with (a * x + a * y)
    by (unfold a, x, y; field; split; lra).
  replace (dt / ut / n * (n * scatter bin + n * scatter bin)) with (a + a) by (unfold a; field; split; lra).
  clearbody a x y. split.
  - apply Rmult_le_reg_r with (1 + (a + a)); [lra|]. unfold Rdiv. rewrite Rmult_assoc, Rinv_l by lra. nra.
  - apply Rmult_le_reg_r with (1 + (a + a)); [lra|]. unfold Rdiv. rewrite Rmult_assoc, Rinv_l by lra. nra.
Qed.
Print Assumptions C50_sample_update.
Example C50_sample_update_nonvacuous : sample_update 1 (fun _ => 1) 1 1 1 1 (fun _ => 0) (fun _ => 1) (fun _ => 2) (fun _ => 3) 0 4 = 3.
Proof.
  unfold sample_update, eddington_shift. cbv zeta. rewrite Rmult_1_l. replace (- ((ln 1 - ln 1) / 1)) with 0 by field.
  assert (E : c_round 0 = 0%Z) by (apply c_round_unique; rewrite Rminus_0_r, Rabs_R0; lra). rewrite E. cbn. field.
Qed.
(** Absorption and emission never reach the samples: the coefficient used for both is that of scattering, so in matter that only
    absorbs the intensities are frozen while the moments of the same radiation relax. *)
Theorem C50_absorption_refuted (nbins : nat) (nu : nat -> R) (dlnu dt ut ndu : R) (absorb scatter thermal Inu0 : nat -> R) (bin : nat) (I : R) :
  (forall b, scatter b = 0) -> sample_update nbins nu dlnu dt ut ndu absorb scatter thermal Inu0 bin I = I.
Proof.
  intros H. unfold sample_update. cbv zeta. destruct (pc_indices _ _ _) as [idx wgt]. rewrite !H. repeat first [rewrite Rmult_0_r | rewrite Rplus_0_r]. field.
Qed.
Print Assumptions C50_absorption_refuted.

(** ** Initial samples *)
(** Zone z owns the particles starting_index z, ..., + dN z - 1: the ranges of different zones are disjoint and together they
    are 0 .. total-1. *)
Theorem C50_index (dN : nat -> nat) (zones : nat) :
  (forall z, (z < zones)%nat -> (starting_index dN z + dN z <= starting_index dN zones)%nat) /\
  (forall z z' a a', (z < zones)%nat -> (z' < zones)%nat -> (a < dN z)%nat -> (a' < dN z')%nat ->
     (starting_index dN z + a = starting_index dN z' + a')%nat -> z = z' /\ a = a') /\
  (forall p, (p < starting_index dN zones)%nat -> exists z a, (z < zones)%nat /\ (a < dN z)%nat /\ p = (starting_index dN z + a)%nat).
Proof.
  assert (M : forall a b, (a <= b)%nat -> (starting_index dN a <= starting_index dN b)%nat).
  { intros a b L. induction L as [|b L IH]; [lia|]. cbn. lia. }
  split; [|split].
  - intros z Hz. change (starting_index dN z + dN z)%nat with (starting_index dN (S z)). apply M. lia.
  - intros z z' a a' Hz Hz' Ha Ha' E. destruct (Nat.lt_trichotomy z z') as [L|[L|L]].
    + pose proof (M (S z) z' L) as Q. cbn in Q. lia.
    + subst z'. lia.
    + pose proof (M (S z') z L) as Q. cbn in Q. lia.
  - induction zones as [|n IH]; cbn; intros p Hp; [lia|]. destruct (Nat.lt_ge_cases p (starting_index dN n)) as [L|L].
    + destruct (IH p L) as (z & a & A & B & C). exists z, a. split; [lia|]. auto.
    + exists n, (p - starting_index dN n)%nat. split; [lia|]. split; lia.
Qed.
Print Assumptions C50_index.
(** A sample lies in its zone, its direction is null in the fluid frame with unit frequency, and equal areas of the random square are equal
    solid angles (xi and phi are linear in the random numbers). *)
Theorem C50_init (minx dx i u u1 u2 : R) : 0 < dx -> 0 <= u < 1 -> 0 <= u1 < 1 -> 0 <= u2 < 1 ->
  minx + i * dx <= init_position minx dx i u < minx + (i + 1) * dx /\
  let n := init_direction u1 u2 in
  n 0%nat = -1 /\ - (n 0%nat * n 0%nat) + n 1%nat * n 1%nat + n 2%nat * n 2%nat + n 3%nat * n 3%nat = 0 /\
  forall k, (k < 3)%nat -> n (S k) = ray (2 - 2 * u1) (2 * PI * u2) k.
Proof.
  intros Hd Hu H1 H2. split; [unfold init_position; nra|]. cbv zeta. unfold init_direction.
  split; [reflexivity|].
  assert (S0 : 0 <= sin (acos (2 * u1 - 1))) by (pose proof (acos_bound (2 * u1 - 1)); apply sin_ge_0; lra).
  pose proof (sin2_cos2 (acos (2 * u1 - 1))) as P. unfold Rsqr in P. rewrite cos_acos in * by lra.
  split.
  - pose proof (sin2_cos2 (2 * PI * u2)) as Q. unfold Rsqr in Q.
    set (s := sin (acos (2 * u1 - 1))) in *. set (x := sin (2 * PI * u2)) in *. set (y := cos (2 * PI * u2)) in *. clearbody s x y.
    replace (- (-1 * -1) + (2 * u1 - 1) * (2 * u1 - 1) + y * s * (y * s) + x * s * (x * s)) with ((2 * u1 - 1) * (2 * u1 - 1) + (x * x + y * y) * (s * s) - 1) by ring.
    rewrite Q. lra.
  - intros k Hk. assert (E : sqrt (1 - (1 - (2 - 2 * u1)) * (1 - (2 - 2 * u1))) = sin (acos (2 * u1 - 1))).
    { apply sqrt_lem_1; [nra|exact S0|]. lra. }
    unfold ray. rewrite E. destruct k as [|[|[|k]]]; [ring|ring|ring|lia].
Qed.
Print Assumptions C50_init.
(** The initial intensity is the thermal one of the gas temperature, floored; the radiation temperature of the given energy density has no
    influence: gas and radiation always start in equilibrium as far as the samples are concerned. *)
Theorem C50_init_intensity (B : R -> R -> R) (Temp ndu nu0 : R) : 0 < nu0 -> 0 < ndu -> SMALL <= B Temp (nu0 * ndu) / (nu0 * ndu) ^ 3 ->
  init_intensity B Temp ndu nu0 * (nu0 * ndu) ^ 3 = B Temp (nu0 * ndu).
Proof.
  intros H1 H2 H. unfold init_intensity. cbv zeta. rewrite Rmax_right by exact H. field. split; lra.
Qed.
Print Assumptions C50_init_intensity.

(** ** Boundaries in x *)
(** A sample that leaves through either face of the domain by less than its width is mirrored into it, with the sign of
    k_1 changed and nothing else of the wave vector; the others are untouched. *)
Theorem C50_boundary (xmin xmax : R) (bc : MOCMCBoundary) (T0 TJ : R) (B : R -> R -> R) (nu : nat -> R) (p : Sample) :
  xmin < xmax -> xmin - (xmax - xmin) <= s_x p <= xmax + (xmax - xmin) ->
  let p' := sample_bounds xmin xmax bc T0 TJ B nu p in
  xmin <= s_x p' <= xmax /\
  (xmin <= s_x p <= xmax -> p' = p) /\
  (s_x p < xmin -> s_x p' + s_x p = 2 * xmin) /\ (xmax < s_x p -> s_x p' + s_x p = 2 * xmax) /\
  (s_x p < xmin \/ xmax < s_x p -> s_k p' 1%nat = - s_k p 1%nat /\ forall m, m <> 1%nat -> s_k p' m = s_k p m).
Proof.
  intros Hx Hr. cbv zeta. unfold sample_bounds. destruct (Rlt_bool_spec (s_x p) xmin) as [A|A]; cbn [s_x].
  - rewrite Rlt_bool_false by lra. cbn [s_x s_k]. split; [lra|]. split; [lra|]. split; [lra|]. split; [lra|].
    intros _. split; [reflexivity|]. intros m Hm. unfold flip1. destruct (Nat.eqb_spec m 1); [contradiction|reflexivity].
  - destruct (Rlt_bool_spec xmax (s_x p)) as [C|C]; cbn [s_x s_k].
    + split; [lra|]. split; [lra|]. split; [lra|]. split; [lra|].
      intros _. split; [reflexivity|]. intros m Hm. unfold flip1. destruct (Nat.eqb_spec m 1); [contradiction|reflexivity].
    + split; [lra|]. split; [reflexivity|]. split; [lra|]. split; [lra|]. lra.
Qed.
Print Assumptions C50_boundary.
(** The parameter "periodic" is accepted but periodic domains do not have periodic samples: a sample leaving on the right comes back on
    the right, moving left, with its intensity wiped out; *)
Theorem C50_periodic_refuted (xmin xmax T0 TJ d : R) (B : R -> R -> R) (nu k I : nat -> R) : xmin < xmax -> 0 < d < xmax - xmin ->
  let p' := sample_bounds xmin xmax mb_periodic T0 TJ B nu {| s_x := xmax + d; s_k := k; s_I := I |} in
  s_x p' = xmax - d /\ s_k p' 1%nat = - k 1%nat /\ forall bin, s_I p' bin = SMALL.
Proof.
  intros Hx Hd. cbv zeta. unfold sample_bounds. cbn [s_x]. rewrite (Rlt_bool_false (xmax + d) xmin) by lra. cbn [s_x]. rewrite Rlt_bool_true by lra. cbn [s_x s_k s_I].
  split; [lra|]. split; reflexivity.
Qed.
Print Assumptions C50_periodic_refuted.
(** and the floor of the inner boundary is divided by nu^3, the floor everywhere else is not: the smallest intensity depends on where a sample was
    last reset. *)
Theorem C50_floor (xmin xmax T0 TJ x ndu : R) (bc : MOCMCBoundary) (nu k I : nat -> R) (bin : nat) : x < xmin -> xmin - (xmax - xmin) <= x -> 0 < nu bin -> 0 < ndu ->
  let dark := fun _ _ : R => 0 in
  s_I (sample_bounds xmin xmax bc T0 TJ dark nu {| s_x := x; s_k := k; s_I := I |}) bin = SMALL / nu bin ^ 3 /\
  init_intensity dark T0 ndu (nu bin) = SMALL.
Proof.
  intros Hx Hl Hn Hu. cbv zeta. pose proof SMALL_pos as SP. unfold sample_bounds, init_intensity. cbn [s_x].
  rewrite (Rlt_bool_true x xmin) by exact Hx. cbn [s_x]. rewrite Rlt_bool_false by lra. cbn [s_I]. cbv zeta.
  split; [rewrite Rmax_left by lra; reflexivity|]. unfold Rdiv. rewrite Rmult_0_l. rewrite Rmax_left by lra. reflexivity.
Qed.
Print Assumptions C50_floor.

(** ** The time step *)
(** The samples belong to "base" and are pushed in every stage by beta * dt: over a step their clock advances by the sum of the
    coefficients, 3/2 of the time step for the second order method (only a single-stage method gives dt). *)
Theorem C50_time_refuted (flat : bool) (geom : System) (dt : R) (X K : vec) : dt <> 0 ->
  fst (push_all flat geom (mocmc_pushes rk2 dt) (X, K)) 0%nat = X 0%nat + 3 / 2 * dt /\
  fst (push_all flat geom (mocmc_pushes rk2 dt) (X, K)) 0%nat <> X 0%nat + dt /\
  fst (push_all flat geom (mocmc_pushes [1] dt) (X, K)) 0%nat = X 0%nat + dt.
Proof.
  intros Hd. rewrite !P_Geodesics.C43_time. unfold mocmc_pushes, rk2, GeodesicSpec.total. cbn. split; [field|]. split; [intros E; apply Hd; lra|ring].
Qed.
Print Assumptions C50_time_refuted.

(** The tasks of the boundaries, the angular grid and the Eddington tensor do not wait for the transport: a schedule that runs them before
    the samples move, or between sending and receiving, is allowed. *)
Theorem C50_order_refuted :
  legal mocmc_tasks mocmc_deps [m_bounds; m_recon; m_eddington; m_reset; m_transport; m_send; m_receive] /\
  legal mocmc_tasks mocmc_deps [m_reset; m_transport; m_send; m_receive; m_bounds; m_recon; m_eddington] /\
  before m_eddington m_transport [m_bounds; m_recon; m_eddington; m_reset; m_transport; m_send; m_receive].
Proof.
  assert (ND : forall l : list MTask, length l = 7%nat -> (forall t, In t l) -> NoDup l).
  { intros l Hl Hin. apply (@NoDup_incl_NoDup _ mocmc_tasks); [|rewrite Hl; cbn; lia|intros t _; apply Hin].
    repeat constructor; cbn; intuition discriminate. }
  split; [|split].
  - split; [apply ND; [reflexivity|intros []; cbn; tauto]|]. split; [intros []; cbn; tauto|].
    intros [] d _ Hd; cbn in Hd; intuition subst.
    + exists [m_bounds; m_recon; m_eddington], [], [m_send; m_receive]. reflexivity.
    + exists [m_bounds; m_recon; m_eddington; m_reset], [], [m_receive]. reflexivity.
    + exists [m_bounds; m_recon; m_eddington; m_reset], [m_send], []. reflexivity.
    + exists [m_bounds; m_recon; m_eddington; m_reset; m_transport], [], []. reflexivity.
    + exists [], [], [m_eddington; m_reset; m_transport; m_send; m_receive]. reflexivity.
    + exists [m_bounds], [], [m_reset; m_transport; m_send; m_receive]. reflexivity.
  - split; [apply ND; [reflexivity|intros []; cbn; tauto]|]. split; [intros []; cbn; tauto|].
    intros [] d _ Hd; cbn in Hd; intuition subst.
    + exists [], [], [m_send; m_receive; m_bounds; m_recon; m_eddington]. reflexivity.
    + exists [m_reset], [], [m_receive; m_bounds; m_recon; m_eddington]. reflexivity.
    + exists [m_reset], [m_send], [m_bounds; m_recon; m_eddington]. reflexivity.
    + exists [m_reset; m_transport], [], [m_bounds; m_recon; m_eddington]. reflexivity.
    + exists [m_reset; m_transport; m_send; m_receive], [], [m_eddington]. reflexivity.
    + exists [m_reset; m_transport; m_send; m_receive; m_bounds], [], []. reflexivity.
  - exists [m_bounds; m_recon], [m_reset], [m_send; m_receive]. reflexivity.
Qed.
Print Assumptions C50_order_refuted.
