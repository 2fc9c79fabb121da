(** C59: the time step radiation asks for. *)
From Coq Require Import Reals List Bool Lia Lra Psatz FunctionalExtensionality.
From Flocq Require Import Core.
From Verif.Model Require Import Num Robust Geometry LinearAlgebra Relativity RadClosure RadTransport RadTimestep.
From Verif.Spec Require Import Tensor GeomSpec SystemSpec Relativity RadSpec RadTransportSpec.
From Verif.Proofs Require Import NumR RobustProofs TensorTac LinearAlgebraProofs GeomBase AdmProofs RelProofs RelativityProofs RadProofs FlatWitness.
From Verif.Properties Require Import P_RadClosure P_RadTransform P_RadTransport P_RadFlux.
Import ListNotations.
Local Open Scope R_scope.

(** The speed that limits the step in a zone: light and fluid speeds weighted with the
    optical depth of the zone *)
Definition light (z : RZone) (d : nat) : R := Rmax (Rabs (light_minus (z_alpha z) (z_beta z) (z_ginv z) d)) (Rabs (light_plus (z_alpha z) (z_beta z) (z_ginv z) d)).
Definition weight (k : bool) (z : RZone) (s d : nat) : R := mixing (zone_kappa k z s) (z_width z d * sqrt (z_gamma z d d)).
Definition limit_speed (k : bool) (z : RZone) (s d : nat) : R :=
  weight k z s d * light z d + (1 - weight k z s d) * Rabs (z_alpha z * z_vp z d - z_beta z d).
Definition proper_zone (ndim : nat) (z : RZone) : Prop :=
  0 < z_alpha z /\ forall d, (d < ndim)%nat -> 0 < z_ginv z d d /\ 0 < z_width z d.

Lemma csig_limit k z s d : zone_csig k z s d = limit_speed k z s d.
Proof.
  unfold zone_csig, limit_speed, weight, light, light_minus, light_plus.
  replace (- z_alpha z * sqrt (z_ginv z d d) - z_beta z d) with (- z_beta z d - z_alpha z * sqrt (z_ginv z d d)) by ring.
  replace (z_alpha z * sqrt (z_ginv z d d) - z_beta z d) with (- z_beta z d + z_alpha z * sqrt (z_ginv z d d)) by ring. reflexivity.
Qed.
Lemma weight_bounds k z s d : 0 < weight k z s d < 1.
Proof. unfold weight. apply (C42_mixing (zone_kappa k z s) (z_width z d * sqrt (z_gamma z d d))). Qed.
Lemma light_pos z d : 0 < z_alpha z -> 0 < z_ginv z d d -> 0 < light z d.
Proof.
  intros Ha Hg. unfold light, light_minus, light_plus. pose proof (sqrt_lt_R0 _ Hg) as Q. assert (P : 0 < z_alpha z * sqrt (z_ginv z d d)) by (apply Rmult_lt_0_compat; assumption).
  set (q := z_alpha z * sqrt (z_ginv z d d)) in *. clearbody q.
  destruct (Rle_or_lt 0 (z_beta z d)) as [B|B].
  - apply Rlt_le_trans with (Rabs (- z_beta z d - q)); [apply Rabs_pos_lt; lra|apply Rmax_l].
  - apply Rlt_le_trans with (Rabs (- z_beta z d + q)); [apply Rabs_pos_lt; lra|apply Rmax_r].
Qed.
Lemma limit_pos k z s d : 0 < z_alpha z -> 0 < z_ginv z d d -> weight k z s d * light z d <= limit_speed k z s d /\ 0 < limit_speed k z s d.
Proof.
  intros Ha Hg. pose proof (light_pos z d Ha Hg) as L. pose proof (weight_bounds k z s d) as [W1 W2]. unfold limit_speed.
  pose proof (Rabs_pos (z_alpha z * z_vp z d - z_beta z d)) as P. assert (0 < weight k z s d * light z d) by (apply Rmult_lt_0_compat; assumption).
  assert (0 <= (1 - weight k z s d) * Rabs (z_alpha z * z_vp z d - z_beta z d)) by (apply Rmult_le_pos; lra). lra.
Qed.

(** folds of minima *)
Lemma fold_min_spec {A} (F : R -> A -> R) (val : A -> R -> Prop) (l : list A) :
  (forall m x, F m x <= m /\ (F m x = m \/ val x (F m x)) /\ (forall v, val x v -> F m x <= v)) ->
  forall m, fold_left F l m <= m /\ (fold_left F l m = m \/ exists x, In x l /\ val x (fold_left F l m)) /\ (forall x v, In x l -> val x v -> fold_left F l m <= v).
Proof.
  intros HF. induction l as [|x l IH]; intros m; cbn [fold_left].
  - split; [lra|]. split; [left; reflexivity|]. intros x v [].
  - destruct (HF m x) as (A1 & A2 & A3). destruct (IH (F m x)) as (B1 & B2 & B3). split; [lra|]. split.
    + destruct B2 as [B2|(y & I & B2)]; [|right; exists y; split; [right|]; assumption].
      rewrite B2. destruct A2 as [A2|A2]; [left; assumption|right; exists x; split; [left; reflexivity|assumption]].
    + intros y v [<-|I] V; [apply Rle_trans with (F m x); [assumption|apply A3, V]|apply (B3 y v I V)].
Qed.
Definition zone_val k nspec ndim (z : RZone) (v : R) : Prop := exists s d, (s < nspec)%nat /\ (d < ndim)%nat /\ v = 1 / (zone_csig k z s d / z_width z d).
Lemma est_spec k nspec ndim zones big :
  fold_left (zone_min k nspec ndim) zones big <= big /\
  (fold_left (zone_min k nspec ndim) zones big = big \/ exists z, In z zones /\ zone_val k nspec ndim z (fold_left (zone_min k nspec ndim) zones big)) /\
  (forall z v, In z zones -> zone_val k nspec ndim z v -> fold_left (zone_min k nspec ndim) zones big <= v).
Proof.
  apply fold_min_spec. intros m z. unfold zone_min.
  pose proof (fold_min_spec (fun l s => fold_left (fun l d => Rmin l (1 / (zone_csig k z s d / z_width z d))) (seq 0 ndim) l)
    (fun s v => exists d, (d < ndim)%nat /\ v = 1 / (zone_csig k z s d / z_width z d)) (seq 0 nspec)) as P.
  destruct (P (fun m s => ltac:(
    destruct (fold_min_spec (fun l d => Rmin l (1 / (zone_csig k z s d / z_width z d))) (fun d v => v = 1 / (zone_csig k z s d / z_width z d)) (seq 0 ndim)
      (fun m0 d => conj (Rmin_l _ _) (conj (match Rle_dec m0 (1 / (zone_csig k z s d / z_width z d)) with left h => or_introl (Rmin_left _ _ h) | right h => or_intror (Rmin_right _ _ (Rlt_le _ _ (Rnot_le_lt _ _ h))) end)
        (fun v (E : v = _) => eq_ind_r (fun w => Rmin m0 _ <= w) (Rmin_r _ _) E))) m) as (A1 & A2 & A3);
    split; [exact A1|split; [destruct A2 as [A2|(d & I & A2)]; [left; exact A2|right; exists d; split; [apply in_seq in I; lia|exact A2]]
      |intros v (d & I & E); apply (A3 d v); [apply in_seq; lia|exact E]]])) m) as (A1 & A2 & A3).
  split; [exact A1|]. split.
  - destruct A2 as [A2|(s & I & d & Hd & A2)]; [left; exact A2|right; exists s, d; apply in_seq in I; split; [lia|split; [exact Hd|exact A2]]].
  - intros v (s & d & Hs & Hd & E). apply (A3 s v); [apply in_seq; lia|exists d; split; assumption].
Qed.
Lemma inv_speed c w : 0 < c -> 0 < w -> 1 / (c / w) = w / c.
Proof. intros; field; split; lra. Qed.

(** The step is cfl times the smallest crossing time of the block: no zone, species or direction
    is crossed faster than that, and one of them attains it (unless the largest double does) *)
Theorem C59_step : forall k nspec ndim big cfl zones, 0 < cfl -> (forall z, In z zones -> proper_zone ndim z) ->
  let dt := RadEstimateTimestep k nspec ndim big cfl zones in
  (forall z s d, In z zones -> (s < nspec)%nat -> (d < ndim)%nat -> limit_speed k z s d * dt <= cfl * z_width z d) /\
  dt <= cfl * big /\
  (dt = cfl * big \/ exists z s d, In z zones /\ (s < nspec)%nat /\ (d < ndim)%nat /\ limit_speed k z s d * dt = cfl * z_width z d).
Proof.
  intros k nspec ndim big cfl zones Hc Hp dt. destruct (est_spec k nspec ndim zones big) as (A1 & A2 & A3). unfold dt, RadEstimateTimestep.
  set (m := fold_left (zone_min k nspec ndim) zones big) in *. clearbody m. split; [|split].
  - intros z s d I Hs Hd. destruct (Hp z I) as [Ha Hz]. destruct (Hz d Hd) as [Hg Hw]. destruct (limit_pos k z s d Ha Hg) as [_ L].
    specialize (A3 z _ I (ex_intro _ s (ex_intro _ d (conj Hs (conj Hd eq_refl))))). rewrite csig_limit, inv_speed in A3 by assumption.
    set (c := limit_speed k z s d) in *. clearbody c. assert (c * m <= z_width z d).
    { apply (Rmult_le_compat_l c) in A3; [|lra]. replace (c * (z_width z d / c)) with (z_width z d) in A3 by (field; lra). exact A3. } nra.
  - apply Rmult_le_compat_l; lra.
  - destruct A2 as [->|(z & I & s & d & Hs & Hd & E)]; [left; reflexivity|right]. exists z, s, d. repeat (split; [assumption|]).
    destruct (Hp z I) as [Ha Hz]. destruct (Hz d Hd) as [Hg Hw]. destruct (limit_pos k z s d Ha Hg) as [_ L].
    rewrite csig_limit, inv_speed in E by assumption. rewrite E. field. lra.
Qed.
Print Assumptions C59_step.

(** The step does not depend on the order in which the zones are visited *)
Theorem C59_order : forall k nspec ndim big cfl zones zones', (forall z, In z zones <-> In z zones') ->
  RadEstimateTimestep k nspec ndim big cfl zones = RadEstimateTimestep k nspec ndim big cfl zones'.
Proof.
  intros k nspec ndim big cfl zones zones' H. unfold RadEstimateTimestep. f_equal.
  destruct (est_spec k nspec ndim zones big) as (A1 & A2 & A3). destruct (est_spec k nspec ndim zones' big) as (B1 & B2 & B3).
  apply Rle_antisym.
  - destruct B2 as [->|(z & I & V)]; [exact A1|]. apply (A3 z); [apply H, I|exact V].
  - destruct A2 as [->|(z & I & V)]; [exact B1|]. apply (B3 z); [apply H, I|exact V].
Qed.
Print Assumptions C59_order.

Lemma exp_m7 x : 7 <= x -> exp (- x) <= 1 / 200.
Proof.
  intros H. apply Rle_trans with (exp (- 7)); [destruct (Req_dec x 7) as [->|]; [right; f_equal; lra|left; apply exp_increasing; lra]|].
  replace (exp (-7)) with (/ exp 7) by (rewrite <- exp_Ropp; f_equal; lra). assert (E : 200 <= exp 7).
  { assert (E1 : 3 / 2 <= exp (1 / 2)) by (pose proof (exp_ineq1_le (1 / 2)); lra).
    assert (E2 : exp 7 = exp (1 / 2) ^ 14) by (cbn [pow]; rewrite Rmult_1_r, <- !exp_plus; f_equal; lra).
    rewrite E2. apply Rle_trans with ((3 / 2) ^ 14); [lra|apply pow_incr; lra]. }
  apply Rle_trans with (/ 200); [apply Rinv_le_contravar; lra|lra].
Qed.

(** In transparent zones (optical depth at most 1/4) light does not cross more than cfl zones,
    up to two percent *)
Theorem C59_light : forall k nspec ndim big cfl zones, 0 < cfl -> (forall z, In z zones -> proper_zone ndim z) ->
  forall z s d, In z zones -> (s < nspec)%nat -> (d < ndim)%nat ->
  Rabs (zone_kappa k z s * (z_width z d * sqrt (z_gamma z d d))) <= 1 / 4 ->
  light z d * RadEstimateTimestep k nspec ndim big cfl zones <= 51 / 50 * (cfl * z_width z d).
Proof.
  intros k nspec ndim big cfl zones Hc Hp z s d I Hs Hd Ht. destruct (C59_step k nspec ndim big cfl zones Hc Hp) as (A & _ & _).
  specialize (A z s d I Hs Hd). destruct (Hp z I) as [Ha Hz]. destruct (Hz d Hd) as [Hg Hw]. destruct (limit_pos k z s d Ha Hg) as [L1 L2].
  destruct (C42_mixing (zone_kappa k z s) (z_width z d * sqrt (z_gamma z d d))) as (M1 & _ & M2 & _). fold (weight k z s d) in M1, M2.
  set (tau := Rabs _) in *. assert (T0 : 0 <= tau) by apply Rabs_pos.
  assert (S1 : 0 < SMALL (T:=R) <= 1 / 28). { rewrite SMALL_R. assert (Hb : bpow radix2 (-1022) <= bpow radix2 (-10)) by (apply bpow_le; lia). pose proof (bpow_gt_0 radix2 (-1022)) as H0. change (bpow radix2 (-10)) with (/ 1024) in Hb. set (b := bpow radix2 (-1022)) in *. clearbody b. split; lra. }
  assert (W : 99 / 100 <= weight k z s d).
  { assert (Q : 7 <= 2 / (tau + SMALL)). { apply (Rmult_le_reg_r (tau + SMALL)); [lra|]. unfold Rdiv. rewrite Rmult_assoc, Rinv_l by lra. lra. }
    pose proof (exp_m7 _ Q). lra. }
  pose proof (light_pos z d Ha Hg) as LP. set (dt := RadEstimateTimestep k nspec ndim big cfl zones) in *. set (w := weight k z s d) in *. set (l := light z d) in *. set (c := limit_speed k z s d) in *. clearbody dt w l c.
  assert (CW : 0 < cfl * z_width z d) by (apply Rmult_lt_0_compat; assumption).
  destruct (Rle_or_lt dt 0) as [D|D]; [nra|]. assert (99 / 100 * (l * dt) <= c * dt).
  { replace (99 / 100 * (l * dt)) with (99 / 100 * l * dt) by ring. apply Rmult_le_compat_r; [lra|]. apply Rle_trans with (w * l); [apply Rmult_le_compat_r; lra|lra]. } lra.
Qed.
Print Assumptions C59_light.
(** Without moments (cooling function, Monte Carlo) every zone counts as transparent, whatever the
    opacities are *)
Theorem C59_no_moments : forall nspec ndim big cfl zones, 0 < cfl -> (forall z, In z zones -> proper_zone ndim z) ->
  forall z d, In z zones -> (0 < nspec)%nat -> (d < ndim)%nat ->
  light z d * RadEstimateTimestep false nspec ndim big cfl zones <= 51 / 50 * (cfl * z_width z d).
Proof.
  intros nspec ndim big cfl zones Hc Hp z d I Hs Hd. apply (C59_light false nspec ndim big cfl zones Hc Hp z 0%nat d I Hs Hd).
  unfold zone_kappa. rewrite Rmult_0_l, Rabs_R0. lra.
Qed.
Print Assumptions C59_no_moments.

(** Fluxes with the velocity, opacity and geometry of the zone use a speed that respects the
    step, where the shift vanishes *)
Theorem C59_flux_speed : forall k nspec ndim big cfl zones, 0 < cfl -> 0 <= big -> (forall z, In z zones -> proper_zone ndim z) ->
  forall z s d, In z zones -> (s < nspec)%nat -> (d < ndim)%nat -> z_beta z d = 0 ->
  1 <= GetLorentzFactor (z_vp z) (z_gamma z) ->
  let v i := z_vp z i / GetLorentzFactor (z_vp z) (z_gamma z) in
  let f := Build_Face (z_gamma z) (z_ginv z) (z_alpha z) (z_beta z) 1 in
  signal_speed f d v v (weight k z s d) * RadEstimateTimestep k nspec ndim big cfl zones <= cfl * z_width z d.
Proof.
  intros k nspec ndim big cfl zones Hc Hb Hp z s d I Hs Hd B W v f. destruct (C59_step k nspec ndim big cfl zones Hc Hp) as (A & _ & A2).
  assert (D : 0 <= RadEstimateTimestep k nspec ndim big cfl zones).
  { destruct A2 as [->|(z' & s' & d' & I' & Hs' & Hd' & E)]; [apply Rmult_le_pos; lra|].
    destruct (Hp z' I') as [Ha' Hz']. destruct (Hz' d' Hd') as [Hg' Hw']. destruct (limit_pos k z' s' d' Ha' Hg') as [_ L'].
    apply (Rmult_le_reg_l (limit_speed k z' s' d')); [exact L'|]. rewrite Rmult_0_r, E. apply Rmult_le_pos; lra. }
  apply Rle_trans with (2 := A z s d I Hs Hd). apply Rmult_le_compat_r; [exact D|].
  destruct (Hp z I) as [Ha _]. pose proof (weight_bounds k z s d) as Wb.
  unfold signal_speed, limit_speed, f, light, light_minus, light_plus, v. cbn [f_gamma f_ginv f_alpha f_beta]. rewrite B.
  set (W0 := GetLorentzFactor (z_vp z) (z_gamma z)) in *. set (q := sqrt (z_ginv z d d)). set (a := weight k z s d) in *. clearbody W0 q a.
  replace (- z_alpha z * q - 0) with (- 0 - z_alpha z * q) by ring. replace (z_alpha z * q - 0) with (- 0 + z_alpha z * q) by ring.
  apply Rplus_le_compat_l. apply Rmult_le_compat_l; [lra|]. rewrite Rmax_left by lra. rewrite !Rminus_0_r, !Rabs_mult.
  apply Rmult_le_compat_l; [apply Rabs_pos|]. unfold Rdiv. rewrite Rabs_mult, Rabs_inv, (Rabs_pos_eq W0) by lra.
  pose proof (Rabs_pos (z_vp z d)) as P. assert (I0 : / W0 <= 1) by (rewrite <- Rinv_1; apply Rinv_le_contravar; lra).
  rewrite <- (Rmult_1_r (Rabs (z_vp z d))) at 2. apply Rmult_le_compat_l; assumption.
Qed.
Print Assumptions C59_flux_speed.

(** Full statement: the same with a shift.  Violated without bound: the step is computed with
    the stored W v instead of v, and the two can cancel the shift where v does not.  [moving_zone]
    has W v = beta = 3/4 and opacity tau *)
Definition moving_zone (tau : R) : RZone :=
  mkRZone 1 (fun i => if Nat.eqb i 0 then 3 / 4 else 0) delta delta (fun i => if Nat.eqb i 0 then 3 / 4 else 0) (fun _ => tau) (fun _ => 1).
Lemma moving_W : forall tau, GetLorentzFactor (z_vp (moving_zone tau)) (z_gamma (moving_zone tau)) = 5 / 4.
Proof.
  intros tau. cbn [z_vp z_gamma moving_zone].
  match goal with |- GetLorentzFactor ?v ?g = _ => assert (E : GetLorentzFactor v g = sqrt (1 + 9 / 16)) end.
  { unfold GetLorentzFactor. cbv [sum3]. unfold delta. cbn [Nat.eqb]. f_equal. lra. }
  rewrite E. replace (1 + 9 / 16) with (5 / 4 * (5 / 4)) by field. apply sqrt_square. lra.
Qed.
Theorem C59_shift_refuted : forall M cfl, 0 < cfl -> 0 < M -> exists z, proper_zone 1 z /\
  (let v i := z_vp z i / GetLorentzFactor (z_vp z) (z_gamma z) in
   let f := Build_Face (z_gamma z) (z_ginv z) (z_alpha z) (z_beta z) 1 in
   forall big, z_width z 0%nat / limit_speed true z 0 0 < big ->
   signal_speed f 0 v v (weight true z 0 0) * RadEstimateTimestep true 1 1 big cfl [z] > M * (cfl * z_width z 0%nat)).
Proof.
  intros M cfl Hc HM. set (tau := 2 + 12 * M). exists (moving_zone tau).
  assert (Pz : proper_zone 1 (moving_zone tau)).
  { split; [cbn; lra|]. intros d Hd. assert (d = 0)%nat as -> by lia. cbn. split; lra. }
  split; [exact Pz|]. intros v f big Hl. remember (RadEstimateTimestep true 1 1 big cfl [moving_zone tau]) as dt eqn:Ed.
  destruct (C59_step true 1 1 big cfl [moving_zone tau] Hc) as (_ & _ & A). { intros z [<-|[]]; exact Pz. }
  assert (B := proj1 (C59_step true 1 1 big cfl [moving_zone tau] Hc ltac:(intros z [<-|[]]; exact Pz)) (moving_zone tau) 0%nat 0%nat (or_introl eq_refl) ltac:(lia) ltac:(lia)).
  rewrite <- Ed in A, B. destruct A as [A|(z & s & d & I & Hs & Hd & A)].
  { exfalso. destruct (limit_pos true (moving_zone tau) 0 0) as [_ L]; [cbn; lra|cbn; lra|]. change (z_width (moving_zone tau) 0%nat) with 1 in *.
    set (c := limit_speed true (moving_zone tau) 0 0) in *. clearbody c. apply (Rmult_lt_compat_l c) in Hl; [|exact L]. replace (c * (1 / c)) with 1 in Hl by (field; lra).
    subst dt. rewrite A in B. nra. }
  clear B Hl. destruct I as [<-|[]]. assert (s = 0)%nat as -> by lia. assert (d = 0)%nat as -> by lia.
  unfold v, f. rewrite moving_W.
  destruct (C42_mixing tau (1 * sqrt 1)) as (W1 & W2 & _). change (weight true (moving_zone tau) 0 0) with (mixing tau (1 * sqrt 1)) in *.
  unfold limit_speed, light, light_minus, light_plus in A. change (weight true (moving_zone tau) 0 0) with (mixing tau (1 * sqrt 1)) in A.
  unfold signal_speed. cbn [f_gamma f_ginv f_alpha f_beta moving_zone z_alpha z_beta z_gamma z_ginv z_vp z_width delta Nat.eqb] in *.
  change (delta 0%nat 0%nat) with 1 in *. rewrite sqrt_1 in *. rewrite Rmult_1_r in *.
  assert (T : Rabs (tau * 1) = tau) by (rewrite Rmult_1_r; apply Rabs_pos_eq; unfold tau; lra). rewrite T in W2. specialize (W2 ltac:(unfold tau; lra)).
  set (a := mixing tau 1) in *. clearbody a.
  replace (3 / 4 - 3 / 4) with 0 in A by ring. rewrite Rmult_1_l in *. replace (3 / 4 - 3 / 4) with 0 in A by ring. rewrite Rabs_R0, Rmult_0_r, Rplus_0_r in A.
  replace (- (3 / 4) - 1) with (- (7 / 4)) in A by field. replace (- (3 / 4) + 1) with (1 / 4) in A by field.
  rewrite Rabs_Ropp in A. rewrite !Rabs_pos_eq in A by lra. rewrite Rmax_left in A by lra.
  replace (- (1) * 1 - 3 / 4) with (- (7 / 4)) by field. replace (1 - 3 / 4) with (1 / 4) by field. replace (3 / 4 / (5 / 4) - 3 / 4) with (- (3 / 20)) by field.
  rewrite !Rabs_Ropp. rewrite !Rabs_pos_eq by lra. rewrite Rmax_left by lra. rewrite Rmax_left by lra.
  assert (Da : dt = 4 / 7 * cfl / a) by (apply (Rmult_eq_reg_l (a * (7 / 4))); [rewrite A; field; lra|apply Rgt_not_eq; nra]).
  assert (Ta : a * tau <= 1). { apply (Rmult_le_compat_r tau) in W2; [|unfold tau; lra]. replace (1 / tau * tau) with 1 in W2 by (field; unfold tau; lra). exact W2. }
  rewrite Da. apply Rlt_gt. apply Rlt_le_trans with ((1 - a) * (3 / 20) * (4 / 7 * cfl / a)).
  - apply (Rmult_lt_reg_r a); [lra|]. replace ((1 - a) * (3 / 20) * (4 / 7 * cfl / a) * a) with (cfl * (3 / 35 * (1 - a))) by (field; lra).
    replace (M * cfl * a) with (cfl * (M * a)) by ring. replace (M * (cfl * 1) * a) with (cfl * (M * a)) by ring. apply Rmult_lt_compat_l; [assumption|]. unfold tau in Ta. nra.
  - apply Rmult_le_compat_r; [|nra]. apply Rmult_le_pos; [lra|left; apply Rinv_0_lt_compat; lra].
Qed.
Print Assumptions C59_shift_refuted.

(** *** one step of a row of zones: streaming radiation, piecewise-constant states, light speed s *)
Lemma streaming_form : forall pi_of alpha beta g ginv gamma gi sgg rs d, adm_consistent alpha beta g ginv gamma gi 1 sgg -> (d < 3)%nat ->
  exists x : vec -> R -> vec -> R, (forall v J H, norm_cov gi (snd (side_moments pi_of gamma alpha rs v J H)) <= fst (side_moments pi_of gamma alpha rs v J H) ->
      Rabs (x v J H) <= Rmax (Rabs (light_minus alpha beta gi d)) (Rabs (light_plus alpha beta gi d)) * fst (side_moments pi_of gamma alpha rs v J H)) /\
  forall vl vr Jl Jr Hl Hr Has, fst (face_flux pi_of (face_of alpha beta gamma gi 1) d rs 1 vl vr Jl Jr Hl Hr Has) =
    / 2 * (x vl Jl Hl + x vr Jr Hr + Rmax (Rabs (light_minus alpha beta gi d)) (Rabs (light_plus alpha beta gi d)) *
      (fst (side_moments pi_of gamma alpha rs vl Jl Hl) - fst (side_moments pi_of gamma alpha rs vr Jr Hr))).
Proof.
  intros pi_of alpha beta g ginv gamma gi sgg rs d A Hd.
  exists (fun v J H => alpha * sum3 (fun j => gi d j * snd (side_moments pi_of gamma alpha rs v J H) j) - beta d * fst (side_moments pi_of gamma alpha rs v J H)). split.
  { intros v J H B. exact (stream_bound _ _ _ _ _ _ _ _ _ _ d A Hd B). }
  intros vl vr Jl Jr Hl Hr Has. unfold side_moments, face_flux, side_flux. cbn [f_gamma f_ginv f_alpha f_beta f_sdetgam face_of].
  assert (CF : forall v J H, fst (getFluxesFromPrim (mkClosure v gamma alpha rs) energy_conserve J H (pi_of (mkClosure v gamma alpha rs) J H)) d =
     alpha * sum3 (fun j => gi d j * snd (Prim2Con (mkClosure v gamma alpha rs) energy_conserve J H (pi_of (mkClosure v gamma alpha rs) J H)) j)).
  { intros v J H. unfold getFluxesFromPrim; cbn [fst]. change (c_alpha (mkClosure v gamma alpha rs)) with alpha. unfold raise3Vector, sum3. rewrite !(con_gamma_c _ _ _ _ _ _ _ _ A v rs) by lia. ring. }
  pose proof (CF vl Jl Hl) as Cl. pose proof (CF vr Jr Hr) as Cr. clear CF.
  destruct (getFluxesFromPrim (mkClosure vl gamma alpha rs) energy_conserve Jl Has (pi_of (mkClosure vl gamma alpha rs) Jl Has)).
  destruct (getFluxesFromPrim (mkClosure vr gamma alpha rs) energy_conserve Jr Has (pi_of (mkClosure vr gamma alpha rs) Jr Has)).
  destruct (getFluxesFromPrim (mkClosure vl gamma alpha rs) energy_conserve Jl Hl (pi_of (mkClosure vl gamma alpha rs) Jl Hl)).
  destruct (getFluxesFromPrim (mkClosure vr gamma alpha rs) energy_conserve Jr Hr (pi_of (mkClosure vr gamma alpha rs) Jr Hr)).
  destruct (Prim2Con (mkClosure vl gamma alpha rs) energy_conserve Jl Hl (pi_of (mkClosure vl gamma alpha rs) Jl Hl)) as [El Fl].
  destruct (Prim2Con (mkClosure vr gamma alpha rs) energy_conserve Jr Hr (pi_of (mkClosure vr gamma alpha rs) Jr Hr)) as [Er Fr]. cbn [fst snd] in Cl, Cr |- *.
  assert (S1 : SMALL (T:=R) <= 1). { rewrite SMALL_R. assert (bpow radix2 (-1022) <= bpow radix2 (-4)) by (apply bpow_le; lia). cbn in H. cbn. lra. }
  rewrite (Rlt_bool_false 1 SMALL S1). cbn [fst]. unfold llf, signal_speed. cbn [f_ginv f_alpha f_beta face_of].
  assert (ES : Rmax (Rabs (- alpha * sqrt (gi d d) - beta d)) (Rabs (alpha * sqrt (gi d d) - beta d)) = Rmax (Rabs (light_minus alpha beta gi d)) (Rabs (light_plus alpha beta gi d))) by (unfold light_minus, light_plus; apply f_equal2; apply f_equal; ring).
  rewrite ES, Cl, Cr. ring.
Qed.
(** A step with s dt <= dx leaves no zone with negative energy.  (C42_positive asks for half of it.) *)
Theorem C59_positive : forall pi_of alpha beta g ginv gamma gi sgg rs d (v : nat -> vec) (J : nat -> R) (H Has : nat -> vec) dt dx i,
  adm_consistent alpha beta g ginv gamma gi 1 sgg -> (d < 3)%nat -> 0 < dx -> 0 <= dt ->
  let m n := side_moments pi_of gamma alpha rs (v n) (J n) (H n) in
  (forall n, norm_cov gi (snd (m n)) <= fst (m n)) ->
  let s := Rmax (Rabs (light_minus alpha beta gi d)) (Rabs (light_plus alpha beta gi d)) in
  s * dt <= dx ->
  let f n := fst (face_flux pi_of (face_of alpha beta gamma gi 1) d rs 1 (v n) (v (S n)) (J n) (J (S n)) (H n) (H (S n)) (Has n)) in
  0 <= fst (m (S i)) - dt / dx * (f (S i) - f i).
Proof.
  intros pi_of alpha beta g ginv gamma gi sgg rs d v J H Has dt dx i A Hd Hx Ht m B s C f.
  destruct (streaming_form pi_of alpha beta g ginv gamma gi sgg rs d A Hd) as (x & X1 & X2). fold s in X1, X2.
  pose proof (X1 _ _ _ (B i)) as P0. pose proof (X1 _ _ _ (B (S i))) as P1. pose proof (X1 _ _ _ (B (S (S i)))) as P2.
  assert (E0 : 0 <= fst (m (S i))) by (apply Rle_trans with (norm_cov gi (snd (m (S i)))); [apply sqrt_pos|exact (B (S i))]).
  unfold f. rewrite !X2. fold (m i) (m (S i)) (m (S (S i))) in *.
  set (x0 := x _ _ _) in *. set (x1 := x (v (S i)) _ _) in *. set (x2 := x (v (S (S i))) _ _) in *.
  set (E1 := fst (m (S i))) in *. set (Ez := fst (m i)) in *. set (E2 := fst (m (S (S i)))) in *. clearbody x0 x1 x2 E1 Ez E2 s. clear X1 X2 B.
  apply Rabs_le_inv in P0. apply Rabs_le_inv in P1. apply Rabs_le_inv in P2.
  assert (D : 0 <= dt / dx) by (apply Rmult_le_pos; [exact Ht|left; apply Rinv_0_lt_compat; exact Hx]).
  assert (Q : dt / dx * (s * E1) <= E1). { apply (Rmult_le_reg_r dx); [exact Hx|]. replace (dt / dx * (s * E1) * dx) with (s * dt * E1) by (field; lra). rewrite (Rmult_comm E1 dx). apply Rmult_le_compat_r; lra. }
  apply Rle_trans with (E1 - dt / dx * (s * E1)); [lra|]. apply Rplus_le_compat_l, Ropp_le_contravar, Rmult_le_compat_l; [exact D|]. lra.
Qed.
Print Assumptions C59_positive.

(** *** a bright zone in a dim uniform medium at rest: flat space, Eddington closure, no flux,
    opacity kappa and zone width dx everywhere, piecewise-constant states *)
Definition rest_zone (kappa dx : R) : RZone := mkRZone 1 zero3 delta delta zero3 (fun _ => kappa) (fun _ => dx).
Definition spike (J0 J1 : R) (k j i : nat) : R := if (Nat.eqb k 1 && Nat.eqb j 1 && Nat.eqb i 1)%bool then J1 else J0.
(** energy through the lower d-face of zone (k,j,i), and one forward Euler stage in zone (1,1,1) *)
Definition spike_flux (ndim : nat) (bounded : bool) (Wc Jf xic kappa dx J0 J1 : R) (d k j i : nat) : R :=
  let below := match d with 0%nat => spike J0 J1 k j (i - 1) | 1%nat => spike J0 J1 k (j - 1) i | _ => spike J0 J1 (k - 1) j i end in
  fst (radiation_flux pi_eddington flat_face d true bounded Wc Jf xic dx kappa kappa (fun s => grad_J ndim (fun _ => dx) (spike J0 J1) s d k j i) zero3 zero3
    below (spike J0 J1 k j i) zero3 zero3).
Definition upper (d : nat) (n : nat) : nat := if Nat.eqb d n then 2%nat else 1%nat.
Definition spike_stage (ndim : nat) (bounded : bool) (Wc Jf xic kappa dx J0 J1 dt : R) : R :=
  J1 - fold_left (fun a d => a + dt / dx * (spike_flux ndim bounded Wc Jf xic kappa dx J0 J1 d (upper d 2) (upper d 1) (upper d 0) - spike_flux ndim bounded Wc Jf xic kappa dx J0 J1 d 1 1 1)) (seq 0 ndim) 0.

Lemma rest_velocity bounded Wc : 1 < Wc -> side_velocity bounded Wc delta zero3 = zero3.
Proof.
  intros H. assert (W : GetLorentzFactor zero3 delta = 1). { unfold GetLorentzFactor. replace (sum3 _) with 0 by (unfold sum3, zero3; ring). rewrite Rplus_0_r. apply sqrt_1. }
  unfold side_velocity. rewrite W. rewrite Rlt_bool_false by lra. rewrite Bool.andb_false_r. apply functional_extensionality. intros i. unfold zero3. lra.
Qed.
Lemma rest_H bounded xic J : 0 < xic -> side_H bounded xic (mkClosure zero3 delta 1 true) J zero3 = zero3.
Proof.
  intros H. unfold side_H. assert (E : (fun i => J * zero3 i) = zero3) by (apply functional_extensionality; intros i; unfold zero3; ring). rewrite E.
  destruct bounded; [|reflexivity]. unfold flux_xi. assert (Q : flux_sq (mkClosure zero3 delta 1 true) zero3 = 0). { unfold flux_sq, contractCov3Vectors, contractConCov3Vectors, sum3, zero3. ring. }
  rewrite Q, sqrt_0. unfold Rdiv. rewrite Rmult_0_l, Rlt_bool_false by lra. reflexivity.
Qed.
Lemma spike_flux_form ndim bounded Wc Jf xic kappa dx J0 J1 d k j i : (d < 3)%nat -> 1 < Wc -> 0 < xic -> Jf <= J0 <= J1 -> 0 <= kappa ->
  spike_flux ndim bounded Wc Jf xic kappa dx J0 J1 d k j i =
  let below := match d with 0%nat => spike J0 J1 k j (i - 1) | 1%nat => spike J0 J1 k (j - 1) i | _ => spike J0 J1 (k - 1) j i end in
  let a := mixing kappa dx in (1 - a) * (- grad_J ndim (fun _ => dx) (spike J0 J1) d d k j i / (3 * kappa + 3 * kappaH_min)) + a * ((below - spike J0 J1 k j i) / 2).
Proof.
  intros Hd HW Hx HJ Hk. unfold spike_flux, radiation_flux. change (f_gamma flat_face) with delta. change (f_alpha flat_face) with 1. rewrite !rest_velocity, !rest_H by assumption.
  assert (KK : face_kappa kappa kappa = kappa) by (unfold face_kappa; apply sqrt_square; exact Hk). rewrite KK.
  assert (D1 : delta d d = 1) by (unfold delta; rewrite Nat.eqb_refl; reflexivity). rewrite D1, sqrt_1, Rmult_1_r. rewrite rest_flux by exact Hd.
  assert (SJ : forall k j i, side_J bounded Jf (spike J0 J1 k j i) = spike J0 J1 k j i).
  { intros k' j' i'. unfold side_J. destruct bounded; [|reflexivity]. apply Rmax_left. unfold spike. destruct (Nat.eqb k' 1 && Nat.eqb j' 1 && Nat.eqb i' 1)%bool; lra. }
  cbv zeta. rewrite SJ. unfold H_asym, zero3. destruct d as [|[|d']]; rewrite SJ; lra.
Qed.
Lemma kmin_pos : 0 < kappaH_min. Proof. unfold kappaH_min. apply Rdiv_lt_0_compat; [lra|]. apply pow_lt. lra. Qed.
Lemma spike_stage_form ndim bounded Wc Jf xic kappa dx J0 J1 dt : (1 <= ndim <= 3)%nat -> 1 < Wc -> 0 < xic -> Jf <= J0 <= J1 -> 0 <= kappa -> 0 < dx ->
  spike_stage ndim bounded Wc Jf xic kappa dx J0 J1 dt = J1 - INR ndim * (dt / dx) * (J1 - J0) * (mixing kappa dx + 2 * (1 - mixing kappa dx) / (dx * (3 * kappa + 3 * kappaH_min))).
Proof.
  intros Hn HW Hx HJ Hk Hd. pose proof kmin_pos as KP. unfold spike_stage. assert (N : ndim = 1%nat \/ ndim = 2%nat \/ ndim = 3%nat) by lia.
  set (a := mixing kappa dx). set (K := 3 * kappa + 3 * kappaH_min). assert (K0 : 0 < K) by (unfold K; lra).
  destruct N as [-> | [-> | ->]]; cbn [seq fold_left INR]; rewrite !spike_flux_form by (assumption || lia);
  cbv zeta; fold a K; unfold grad_J, spike, upper; cbn [Nat.eqb Nat.sub Nat.ltb Nat.leb andb]; field; lra.
Qed.
Lemma rest_step nspec ndim big cfl kappa dx : (1 <= nspec)%nat -> (1 <= ndim <= 3)%nat -> 0 < cfl -> 0 < dx -> dx / mixing kappa dx <= big ->
  RadEstimateTimestep true nspec ndim big cfl [rest_zone kappa dx] = cfl * (dx / mixing kappa dx).
Proof.
  intros Hs Hn Hc Hx Hb. assert (P : forall z, In z [rest_zone kappa dx] -> proper_zone ndim z).
  { intros z [<-|[]]. split; [cbn; lra|]. intros d _. cbn. unfold delta. rewrite Nat.eqb_refl. lra. }
  assert (L : forall s d, limit_speed true (rest_zone kappa dx) s d = mixing kappa dx).
  { intros s d. unfold limit_speed, weight, light, light_minus, light_plus. cbn [z_gamma z_ginv z_alpha z_beta z_vp z_width rest_zone zone_kappa z_kappaH].
    assert (D1 : delta d d = 1) by (unfold delta; rewrite Nat.eqb_refl; reflexivity). rewrite D1, sqrt_1. unfold zero3.
    replace (- 0 - 1 * 1) with (-1) by ring. replace (- 0 + 1 * 1) with 1 by ring. replace (1 * 0 - 0) with 0 by ring. rewrite Rabs_R0, Rabs_R1, Rabs_m1, Rmax_left by lra. rewrite !Rmult_1_r. ring. }
  destruct (C59_step true nspec ndim big cfl [rest_zone kappa dx] Hc P) as (A & A1 & A2).
  destruct (C42_mixing kappa dx) as ([a0 a1] & _). set (a := mixing kappa dx) in *. set (dt := RadEstimateTimestep true nspec ndim big cfl [rest_zone kappa dx]) in *. clearbody dt.
  assert (B : a * dt = cfl * dx -> dt = cfl * (dx / a)) by (intros E; apply (Rmult_eq_reg_l a); [rewrite E; field; lra|lra]).
  destruct A2 as [A2|(z & s & d & [<-|[]] & _ & _ & E)].
  - specialize (A (rest_zone kappa dx) 0%nat 0%nat (or_introl eq_refl) ltac:(lia) ltac:(lia)). rewrite L in A. change (z_width (rest_zone kappa dx) 0%nat) with dx in A. fold a in A.
    apply B. apply Rle_antisym; [exact A|]. apply (Rmult_le_compat_l (cfl * a)) in Hb; [|apply Rmult_le_pos; lra]. replace (cfl * a * (dx / a)) with (cfl * dx) in Hb by (field; lra). rewrite A2. lra.
  - rewrite L in E. apply B. exact E.
Qed.
(** With the step the package asks for, the zone ends at J1 - ndim cfl (J1 - J0) q, q >= 1 *)
Definition overshoot (kappa dx : R) : R := 1 + 2 * (1 - mixing kappa dx) / (mixing kappa dx * (dx * (3 * kappa + 3 * kappaH_min))).
Theorem C59_spike : forall nspec ndim bounded Wc Jf xic kappa dx J0 J1 big cfl, (1 <= nspec)%nat -> (1 <= ndim <= 3)%nat -> 1 < Wc -> 0 < xic -> Jf <= J0 <= J1 -> 0 <= kappa -> 0 < dx -> 0 < cfl ->
  dx / mixing kappa dx <= big ->
  let dt := RadEstimateTimestep true nspec ndim big cfl [rest_zone kappa dx] in
  spike_stage ndim bounded Wc Jf xic kappa dx J0 J1 dt = J1 - INR ndim * cfl * (J1 - J0) * overshoot kappa dx /\ 1 <= overshoot kappa dx.
Proof.
  intros nspec ndim bounded Wc Jf xic kappa dx J0 J1 big cfl Hs Hn HW Hx HJ Hk Hd Hc Hb dt. unfold dt. rewrite rest_step by assumption. rewrite spike_stage_form by assumption.
  pose proof kmin_pos as KP. destruct (C42_mixing kappa dx) as ([a0 a1] & _). unfold overshoot. set (a := mixing kappa dx) in *. clearbody a.
  assert (K0 : 0 < dx * (3 * kappa + 3 * kappaH_min)) by (apply Rmult_lt_0_compat; lra). split; [field; lra|].
  assert (0 < 2 * (1 - a) / (a * (dx * (3 * kappa + 3 * kappaH_min)))) by (apply Rdiv_lt_0_compat; [lra|apply Rmult_lt_0_compat; assumption]). lra.
Qed.
Print Assumptions C59_spike.
(** Full statement: the step keeps the energy of every zone non-negative.  Violated in two and three
    dimensions by every cfl above 1/ndim, the default 0.8 included, whatever the opacity: the
    package takes the minimum over the directions and the fluxes of all directions add up *)
Theorem C59_multid_refuted : forall nspec ndim bounded Wc Jf xic kappa dx J0 J1 big cfl, (1 <= nspec)%nat -> (1 <= ndim <= 3)%nat -> 1 < Wc -> 0 < xic -> Jf <= J0 -> 0 <= kappa -> 0 < dx -> 0 < cfl ->
  dx / mixing kappa dx <= big -> 0 <= J0 < J1 -> INR ndim * cfl * J0 < (INR ndim * cfl - 1) * J1 ->
  spike_stage ndim bounded Wc Jf xic kappa dx J0 J1 (RadEstimateTimestep true nspec ndim big cfl [rest_zone kappa dx]) < 0.
Proof.
  intros nspec ndim bounded Wc Jf xic kappa dx J0 J1 big cfl Hs Hn HW Hx HJ Hk Hd Hc Hb HJ1 HC.
  destruct (C59_spike nspec ndim bounded Wc Jf xic kappa dx J0 J1 big cfl Hs Hn HW Hx ltac:(lra) Hk Hd Hc Hb) as [E O]. cbv zeta in E. rewrite E.
  set (q := overshoot kappa dx) in *. set (n := INR ndim) in *. clearbody q. assert (N0 : 0 < n) by (apply (lt_INR 0); lia). assert (P : 0 < n * cfl * (J1 - J0)) by (apply Rmult_lt_0_compat; [apply Rmult_lt_0_compat; assumption|lra]).
  assert (n * cfl * (J1 - J0) * 1 <= n * cfl * (J1 - J0) * q) by (apply Rmult_le_compat_l; lra). lra.
Qed.
Print Assumptions C59_multid_refuted.
(** ... and in one dimension in zones of optical depth 2 or more, with the default cfl 4/5: the
    diffusive flux is not limited by the step *)
Theorem C59_thick_refuted : forall nspec bounded Wc Jf xic kappa dx J0 J1 big, (1 <= nspec)%nat -> 1 < Wc -> 0 < xic -> Jf <= J0 -> 0 < dx -> 10 * kappaH_min <= kappa -> 2 <= kappa * dx ->
  dx / mixing kappa dx <= big -> 0 <= J0 -> 50 * J0 <= J1 -> 0 < J1 ->
  spike_stage 1 bounded Wc Jf xic kappa dx J0 J1 (RadEstimateTimestep true nspec 1 big (4 / 5) [rest_zone kappa dx]) < 0.
Proof.
  intros nspec bounded Wc Jf xic kappa dx J0 J1 big Hs HW Hx HJ Hd Hk Ht Hb HJ0 HJ1 HP. pose proof kmin_pos as KP.
  destruct (C59_spike nspec 1 bounded Wc Jf xic kappa dx J0 J1 big (4 / 5) Hs ltac:(lia) HW Hx ltac:(lra) ltac:(lra) Hd ltac:(lra) Hb) as [E _]. cbv zeta in E. rewrite E. clear E.
  destruct (C42_mixing kappa dx) as ([a0 a1] & AU & _). rewrite Rabs_pos_eq in AU by lra. specialize (AU ltac:(lra)).
  assert (Q : 13 / 10 <= overshoot kappa dx).
  { unfold overshoot. set (a := mixing kappa dx) in *. clearbody a. set (t := kappa * dx) in *.
    assert (At : a * t <= 1). { apply (Rmult_le_compat_r t) in AU; [|lra]. replace (1 / t * t) with 1 in AU by (field; lra). exact AU. }
    set (K := dx * (3 * kappa + 3 * kappaH_min)). assert (K1 : K <= 33 / 10 * t) by (unfold K, t; nra). assert (K0 : 0 < K) by (apply Rmult_lt_0_compat; lra). clearbody K.
    assert (aK : 0 < a * K) by (apply Rmult_lt_0_compat; assumption). assert (3 / 10 <= 2 * (1 - a) / (a * K)); [|lra].
    apply (Rmult_le_reg_r (a * K)); [exact aK|]. replace (2 * (1 - a) / (a * K) * (a * K)) with (2 * (1 - a)) by (field; lra).
    assert (a * K <= 33 / 10 * (a * t)) by nra. assert (a <= 1 / 2) by nra. lra. }
  set (q := overshoot kappa dx) in *. clearbody q. change (INR 1) with 1. assert (49 / 50 * J1 * (13 / 10) <= (J1 - J0) * q) by (apply Rmult_le_compat; lra). lra.
Qed.
Print Assumptions C59_thick_refuted.

(** concrete instances *)
Lemma rest_consistent : adm_consistent 1 zero3 eta4 eta4 delta delta 1 1. Proof. exact eta4_consistent. Qed.
Example C59_step_nonvacuous : proper_zone 3 (rest_zone 1 (1 / 10)) /\ proper_zone 1 (moving_zone 5).
Proof. split; (split; [cbn; lra|]); intros d Hd; cbn [rest_zone moving_zone z_ginv z_width]; [unfold delta; rewrite Nat.eqb_refl; lra|]. assert (d = 0)%nat as -> by lia. unfold delta. cbn [Nat.eqb]. lra. Qed.
Example C59_multid_nonvacuous : 0 <= 1 / 100 < 1 /\ INR 2 * (4 / 5) * (1 / 100) < (INR 2 * (4 / 5) - 1) * 1.
Proof. cbn [INR]. lra. Qed.
Example C59_light_nonvacuous : Rabs (zone_kappa true (rest_zone 2 (1 / 10)) 0 * (z_width (rest_zone 2 (1 / 10)) 0%nat * sqrt (z_gamma (rest_zone 2 (1 / 10)) 0%nat 0%nat))) <= 1 / 4.
Proof. cbn [rest_zone z_width z_gamma zone_kappa z_kappaH]. unfold delta. cbn [Nat.eqb]. rewrite sqrt_1. rewrite Rabs_pos_eq; lra. Qed.
