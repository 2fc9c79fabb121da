(** C49, second part: the torus grid, the normalisation of the field, tracers. *)
From Coq Require Import Reals ZArith Arith List Bool Lia Lra Psatz.
From Flocq Require Import Core.
From Verif.Model Require Import Num Robust LinearAlgebra Geometry Modified Relativity Torus.
From Verif.Proofs Require Import NumR RobustProofs GeomBase.
From Verif.Spec Require Import Tensor.
Import ListNotations.
Local Open Scope R_scope.

(** ** the grid *)
Lemma Rh_pos a : 1 <= torus_Rh a. Proof. unfold torus_Rh. assert (Q := sqrt_pos (1 - a * a)). lra. Qed.
(** With the x1min that is put into the input, and x1max = ln router, zone centres lie inside the horizon exactly for the
    first n_inside_horizon zones; with "cutout" the grid is the outer part of such a grid of nx1_target zones. *)
Theorem C49_grid : forall a router nx1 ninside target, torus_Rh a < router -> (0 < nx1)%nat ->
  let centre cutout i := let x1min := torus_x1min a router cutout nx1 ninside target in
    x1min + (INR i + / 2) * ((ln router - x1min) / INR nx1) in
  ((ninside < nx1)%nat -> forall i, exp (centre false i) < torus_Rh a <-> (i < ninside)%nat) /\
  ((ninside < target)%nat -> forall i,
     centre true i = ln router - (INR nx1 - INR i - / 2) * ((ln router - ln (torus_Rh a)) / (INR target - INR ninside)) /\
     (exp (centre true i) < torus_Rh a <-> (i + target < nx1 + ninside)%nat)).
Proof.
  intros a router nx1 nin tgt Hr Hn centre. assert (R1 := Rh_pos a).
  assert (L : ln (torus_Rh a) < ln router) by (apply ln_increasing; lra).
  assert (N0 : 0 < INR nx1) by now apply lt_0_INR.
  assert (Ex : forall x, exp x < torus_Rh a <-> x < ln (torus_Rh a)).
  { intros x. rewrite <- (exp_ln (torus_Rh a)) at 1 by lra. split; [apply exp_lt_inv | apply exp_increasing]. }
  split.
  - intros H i. rewrite Ex. assert (H' : INR nin < INR nx1) by now apply lt_INR.
    set (xh := ln (torus_Rh a)) in *. set (xm := ln router) in *.
    set (d := (xm - xh) / (INR nx1 - INR nin)). assert (Dp : 0 < d) by (apply Rdiv_lt_0_compat; lra).
    assert (Ed : xm = xh + d * (INR nx1 - INR nin)) by (unfold d; field; lra).
    assert (C : centre false i = xh - (INR nin + / 2) * d + (INR i + / 2) * (d * (1 + / (2 * INR nx1)))).
    { unfold centre, torus_x1min. fold xh xm d. f_equal. f_equal. rewrite Ed. field. lra. }
    rewrite C. set (q := / (2 * INR nx1)). assert (Qp : 0 < q) by (apply Rinv_0_lt_compat; lra). assert (Q1 : q * INR nx1 = / 2) by (unfold q; field; lra).
    split.
    + intros A. destruct (lt_dec i nin) as [B|B]; [exact B|]. exfalso. assert (B' : INR nin <= INR i) by (apply le_INR; lia).
      assert (0 <= INR nin) by apply pos_INR.
      assert (d * (INR nin + / 2) < d * ((INR i + / 2) * (1 + q))); [|lra]. apply Rmult_lt_compat_l; [exact Dp|]. nra.
    + intros A. assert (A' : INR i + 1 <= INR nin) by (rewrite <- S_INR; apply le_INR; lia). assert (0 <= INR i) by apply pos_INR.
      assert (d * ((INR i + / 2) * (1 + q)) < d * (INR nin + / 2)); [|lra]. apply Rmult_lt_compat_l; [exact Dp|]. nra.
  - intros H i. rewrite Ex. assert (H' : INR nin < INR tgt) by now apply lt_INR.
    set (xh := ln (torus_Rh a)) in *. set (xm := ln router) in *.
    set (d := (xm - xh) / (INR tgt - INR nin)). assert (Dp : 0 < d) by (apply Rdiv_lt_0_compat; lra).
    assert (Ed : xh = xm - d * (INR tgt - INR nin)) by (unfold d; field; lra).
    assert (C : centre true i = xm - (INR nx1 - INR i - / 2) * d).
    { unfold centre, torus_x1min. fold xh xm d. field. lra. }
    split; [exact C|]. rewrite C, Ed at 1. split.
    + intros A. destruct (lt_dec (i + tgt) (nx1 + nin)) as [B|B]; [exact B|]. exfalso.
      assert (B' : INR (nx1 + nin) <= INR (i + tgt)) by (apply le_INR; lia). rewrite !plus_INR in B'.
      assert (d * (INR nx1 - INR i - / 2) < d * (INR tgt - INR nin)) by (apply Rmult_lt_compat_l; lra). lra.
    + intros A. assert (A' : INR (i + tgt + 1) <= INR (nx1 + nin)) by (apply le_INR; lia). rewrite !plus_INR in A'. cbn [INR] in A'.
      assert (d * (INR tgt - INR nin) < d * (INR nx1 - INR i - / 2)) by (apply Rmult_lt_compat_l; lra). lra.
Qed.
Print Assumptions C49_grid.
Example C49_grid_nonvacuous : torus_Rh 0 = 2 /\ torus_Rh 0 < 40 /\ (5 < 128)%nat.
Proof. assert (E : torus_Rh 0 = 2) by (unfold torus_Rh; rewrite Rmult_0_l, Rminus_0_r, sqrt_1; lra). rewrite E. repeat split; [lra | lia]. Qed.

(** ** normalisation of the field *)
Lemma gratio_scale k a b : gratio (k * a) b = k * gratio a b.
Proof. unfold gratio. destruct (Req_bool b 0); unfold Rdiv; ring. Qed.
Lemma bsq_scale f z : bz_bsq (scale_B f z) = f ^ 2 * bz_bsq z.
Proof.
  unfold bz_bsq, GetMagneticFieldSquared_cell, GetMagneticFieldSquared, scale_B. cbn [bz_gcov bz_vp bz_B].
  set (W := GetLorentzFactor (bz_vp z) (bz_gcov z)). cbv zeta. rewrite Rmult_plus_distr_l, <- gratio_scale. f_equal; [f_equal|]; unfold sum3; ring.
Qed.
Lemma ratio_p x b : 0 <= b -> ratio x b = x / (b + SMALL).
Proof. intros H. rewrite ratio_R. destruct (Rle_dec 0 b); [reflexivity | contradiction]. Qed.
Lemma fac2 m t : 0 < m -> 0 < t -> B_field_fac true m t ^ 2 = m / t.
Proof. intros M T_. unfold B_field_fac. replace (sqrt (m / t) ^ 2) with (sqrt (m / t) * sqrt (m / t)) by ring. apply sqrt_sqrt. left. now apply Rdiv_lt_0_compat. Qed.
(** minima and maxima over a list *)
Section Extrema.
Context {A : Type}.
Lemma fold_omin (keep : A -> bool) (f : A -> R) l : forall o m,
  fold_left (fun o z => if keep z then omin o (f z) else o) l o = Some m ->
  (forall z, In z l -> keep z = true -> m <= f z) /\ (forall y, o = Some y -> m <= y) /\ (o = Some m \/ exists z, In z l /\ keep z = true /\ f z = m).
Proof.
  induction l as [|z l IH]; cbn [fold_left]; intros o m E.
  - subst o. split; [contradiction|]. split; [intros y Q; injection Q; lra | now left].
  - destruct (keep z) eqn:K.
    + destruct (IH _ _ E) as (H1 & H2 & H3). assert (B := H2 _ eq_refl).
      split; [intros z' [<- | I] Kz; [|now apply H1]; destruct o as [y|]; cbn in B; [assert (Q := Rmin_l (f z) y)|]; lra|].
      split; [intros y ->; cbn in B; assert (Q := Rmin_r (f z) y); lra|].
      destruct H3 as [H3 | (z' & I & Kz & Ez)]; [|right; exists z'; repeat split; [now right | exact Kz | exact Ez]].
      unfold omin in H3. injection H3 as H3. destruct o as [y|]; [|right; exists z; repeat split; [now left | exact K | exact H3]].
      unfold Rmin in H3. destruct (Rle_dec (f z) y); [right; exists z; repeat split; [now left | exact K | exact H3] | left; congruence].
    + destruct (IH _ _ E) as (H1 & H2 & H3).
      split; [intros z' [<- | I] Kz; [congruence | now apply H1]|]. split; [exact H2|].
      destruct H3 as [H3 | (z' & I & Kz & Ez)]; [now left | right; exists z'; repeat split; [now right | exact Kz | exact Ez]].
Qed.
Lemma fold_omin_some (keep : A -> bool) (f : A -> R) l : forall o, (o <> None \/ exists z, In z l /\ keep z = true) ->
  exists m, fold_left (fun o z => if keep z then omin o (f z) else o) l o = Some m.
Proof.
  induction l as [|z l IH]; cbn [fold_left]; intros o H.
  - destruct H as [H | (z & [] & _)]. destruct o as [y|]; [now exists y | contradiction H; reflexivity].
  - apply IH. destruct (keep z) eqn:K; [left; discriminate|]. destruct H as [H | (z' & [<- | I] & Kz)]; [now left | congruence | right; now exists z'].
Qed.
Lemma fold_omax (f : A -> R) l : forall o m, fold_left (fun o z => omax o (f z)) l o = Some m ->
  (forall z, In z l -> f z <= m) /\ (forall y, o = Some y -> y <= m) /\ (o = Some m \/ exists z, In z l /\ f z = m).
Proof.
  induction l as [|z l IH]; cbn [fold_left]; intros o m E.
  - subst o. split; [contradiction|]. split; [intros y Q; injection Q; lra | now left].
  - destruct (IH _ _ E) as (H1 & H2 & H3). assert (B := H2 _ eq_refl).
    split; [intros z' [<- | I]; [|now apply H1]; destruct o as [y|]; cbn in B; [assert (Q := Rmax_l (f z) y)|]; lra|].
    split; [intros y ->; cbn in B; assert (Q := Rmax_r (f z) y); lra|].
    destruct H3 as [H3 | (z' & I & Ez)]; [|right; exists z'; split; [now right | exact Ez]].
    unfold omax in H3. injection H3 as H3. destruct o as [y|]; [|right; exists z; split; [now left | exact H3]].
    unfold Rmax in H3. destruct (Rle_dec (f z) y); [left; congruence | right; exists z; split; [now left | exact H3]].
Qed.
Lemma fold_omax_some (f : A -> R) l : forall o, (o <> None \/ l <> nil) -> fold_left (fun o z => omax o (f z)) l o <> None.
Proof.
  induction l as [|z l IH]; cbn [fold_left]; intros o H; [destruct H as [H|H]; [exact H | contradiction H; reflexivity]|].
  apply IH. left. discriminate.
Qed.
Lemma fold_omax_scale (f : A -> R) k l : 0 <= k -> forall o,
  fold_left (fun o z => omax o (k * f z)) l (option_map (Rmult k) o) = option_map (Rmult k) (fold_left (fun o z => omax o (f z)) l o).
Proof.
  intros K. induction l as [|z l IH]; intros o; cbn [fold_left]; [reflexivity|]. rewrite <- IH. f_equal.
  unfold omax. destruct o as [y|]; cbn; [|reflexivity]. f_equal. now apply RmaxRmult.
Qed.
End Extrema.
Lemma fold_map {A B C} (g : A -> B -> A) (h : C -> B) l : forall o, fold_left g (map h l) o = fold_left (fun o x => g o (h x)) l o.
Proof. induction l as [|x l IH]; intros o; cbn; [reflexivity | apply IH]. Qed.
Lemma fold_ext {A B} (g h : A -> B -> A) l : (forall o x, In x l -> g o x = h o x) -> forall o, fold_left g l o = fold_left h l o.
Proof.
  induction l as [|x l IH]; intros E o; cbn; [reflexivity|]. rewrite E by now left. apply IH. intros. apply E. now right.
Qed.

(** beta_min is the least gas-to-magnetic pressure ratio over the zones denser than the threshold; beta_pmax the ratio of
    the greatest gas pressure to the greatest magnetic pressure. *)
Theorem C49_beta_meaning : forall thr zs, (forall z, In z zs -> 0 <= bz_bsq z) ->
  let beta z := bz_P z / (bz_bsq z / 2 + SMALL) in
  (forall m, beta_min thr zs = Some m <->
     (forall z, In z zs -> thr < bz_rho z -> m <= beta z) /\ exists z, In z zs /\ thr < bz_rho z /\ beta z = m) /\
  (forall b, beta_pmax zs = Some b <-> exists zp zb, In zp zs /\ In zb zs /\ (forall z, In z zs -> bz_P z <= bz_P zp /\ bz_bsq z <= bz_bsq zb) /\
     b = bz_P zp / (bz_bsq zb / 2 + SMALL)).
Proof.
  intros thr zs Pos beta.
  assert (Eb : forall z, In z zs -> ratio (bz_P z) (/ 2 * bz_bsq z) = beta z).
  { intros z I. rewrite ratio_p by (assert (Q := Pos z I); lra). unfold beta. f_equal. field. }
  split.
  - intros m. unfold beta_min. rewrite (fold_ext _ (fun o z => if Rlt_bool thr (bz_rho z) then omin o (beta z) else o)) by (intros; rewrite Eb by assumption; reflexivity).
    split.
    + intros E. destruct (fold_omin _ _ _ _ _ E) as (H1 & _ & H3). split.
      * intros z I L. apply H1; [exact I | now apply Rlt_bool_true].
      * destruct H3 as [H3 | (z & I & K & Ez)]; [discriminate|]. exists z. split; [exact I|]. split; [|exact Ez]. destruct (Rlt_bool_spec thr (bz_rho z)); [assumption | discriminate].
    + intros (H1 & z & I & L & Ez). destruct (fold_omin_some (fun z => Rlt_bool thr (bz_rho z)) beta zs None) as (m' & E).
      { right. exists z. split; [exact I | now apply Rlt_bool_true]. }
      rewrite E. destruct (fold_omin _ _ _ _ _ E) as (G1 & _ & G3). assert (A := G1 z I (Rlt_bool_true _ _ L)).
      destruct G3 as [G3 | (z' & I' & K' & Ez')]; [discriminate|].
      assert (L' : thr < bz_rho z') by (destruct (Rlt_bool_spec thr (bz_rho z')); [assumption | discriminate]).
      assert (B := H1 z' I' L'). f_equal. lra.
  - intros b. unfold beta_pmax.
    destruct (fold_left (fun o z => omax o (bz_P z)) zs None) as [p|] eqn:Ep.
    + destruct (fold_left (fun o z => omax o (bz_bsq z)) zs None) as [q|] eqn:Eq.
      * destruct (fold_omax _ _ _ _ Ep) as (P1 & _ & [P3 | (zp & Ip & P3)]); [discriminate|].
        destruct (fold_omax _ _ _ _ Eq) as (Q1 & _ & [Q3 | (zb & Ib & Q3)]); [discriminate|].
        assert (Er : ratio p (/ 2 * q) = p / (q / 2 + SMALL)) by (rewrite ratio_p by (assert (Q := Pos zb Ib); lra); f_equal; field).
        rewrite Er. split.
        -- intros E. injection E as <-. exists zp, zb. split; [exact Ip|]. split; [exact Ib|]. rewrite P3, Q3. split; [|reflexivity]. intros z I. split; [now apply P1 | now apply Q1].
        -- intros (zp' & zb' & Ip' & Ib' & Mx & ->).
           assert (X1 := proj1 (Mx zp Ip)). assert (X2 := proj2 (Mx zb Ib)). assert (X3 := P1 zp' Ip'). assert (X4 := Q1 zb' Ib').
           replace p with (bz_P zp') by lra. replace q with (bz_bsq zb') by lra. reflexivity.
      * exfalso. destruct (fold_omax _ _ _ _ Ep) as (_ & _ & [P3 | (zp & Ip & P3)]); [discriminate|].
        apply (fold_omax_some bz_bsq zs None); [right; intros ->; contradiction | exact Eq].
    + split; [discriminate|]. intros (zp & _ & Ip & _). exfalso.
      apply (fold_omax_some bz_P zs None); [right; intros ->; contradiction | exact Ep].
Qed.
Print Assumptions C49_beta_meaning.

(** After the normalisation the chosen beta is the target, up to a relative error eps: as large as needed for SMALL,
    the number robust::ratio adds to the denominator, to be negligible. *)
Theorem C49_beta : forall thr zs t eps, 0 < t -> 0 < eps -> (forall z, In z zs -> 0 <= bz_bsq z) ->
  let rescaled m := map (scale_B (B_field_fac true m t)) zs in
  (forall m, beta_min thr zs = Some m -> 0 < m ->
     (forall z, In z zs -> thr < bz_rho z -> SMALL * t <= eps * bz_P z) ->
     (forall z, In z zs -> thr < bz_rho z -> ratio (bz_P z) (/ 2 * bz_bsq z) = m -> SMALL <= eps * (bz_bsq z / 2)) ->
     exists m', beta_min thr (rescaled m) = Some m' /\ t / (1 + eps) <= m' <= t * (1 + eps)) /\
  (forall m, beta_pmax zs = Some m -> 0 < m ->
     (exists z, In z zs /\ SMALL * t <= eps * bz_P z) -> (exists z, In z zs /\ SMALL <= eps * (bz_bsq z / 2)) ->
     exists m', beta_pmax (rescaled m) = Some m' /\ t / (1 + eps) <= m' <= t * (1 + eps)).
Proof.
  intros thr zs t eps Tp Ep Pos rescaled. assert (Sp := SMALL_pos).
  (* the two bounds, for a gas pressure P and a field b with P = m (b/2 + SMALL) or more *)
  assert (Up : forall m P b, 0 < m -> 0 <= b -> P = m * (/ 2 * b + SMALL) -> SMALL <= eps * (b / 2) -> P / (/ 2 * (m / t * b) + SMALL) <= t * (1 + eps)).
  { intros m P b M B E S1. set (k := m / t). assert (K : 0 < k) by now apply Rdiv_lt_0_compat. assert (Ek : m = k * t) by (unfold k; field; lra).
    assert (D : 0 < / 2 * (k * b) + SMALL) by nra.
    apply (Rmult_le_reg_r (/ 2 * (k * b) + SMALL)); [exact D|]. unfold Rdiv. rewrite Rmult_assoc, Rinv_l, Rmult_1_r by lra.
    rewrite E, Ek. set (S := SMALL : R) in *.
    assert (k * t * S <= k * t * (eps * (b / 2))) by (apply Rmult_le_compat_l; [nra | exact S1]).
    assert (0 <= t * (1 + eps) * S) by (apply Rmult_le_pos; nra). nra. }
  assert (Lo : forall m P b, 0 < m -> 0 <= b -> m * (/ 2 * b + SMALL) <= P -> SMALL * t <= eps * P -> t / (1 + eps) <= P / (/ 2 * (m / t * b) + SMALL)).
  { intros m P b M B E S1. set (k := m / t). assert (K : 0 < k) by now apply Rdiv_lt_0_compat. assert (Ek : m = k * t) by (unfold k; field; lra).
    assert (D : 0 < / 2 * (k * b) + SMALL) by nra.
    apply (Rmult_le_reg_r (/ 2 * (k * b) + SMALL)); [exact D|]. unfold Rdiv at 2. rewrite (Rmult_assoc P), Rinv_l, Rmult_1_r by lra.
    apply (Rmult_le_reg_l (1 + eps)); [lra|]. replace ((1 + eps) * (t / (1 + eps) * (/ 2 * (k * b) + SMALL))) with (t * (/ 2 * (k * b) + SMALL)) by (field; lra).
    rewrite Ek in E. set (S := SMALL : R) in *. assert (0 <= k * t * S) by (apply Rmult_le_pos; nra). nra. }
  split.
  - intros m E M HP HB.
    assert (E' := E). unfold beta_min in E'.
    destruct (fold_omin _ _ _ _ _ E') as (H1 & _ & H3).
    destruct H3 as [H3 | (z0 & I0 & K0 & E0)]; [discriminate|].
    set (f2 := m / t).
    assert (Es : forall z, In z zs -> ratio (bz_P (scale_B (B_field_fac true m t) z)) (/ 2 * bz_bsq (scale_B (B_field_fac true m t) z)) = bz_P z / (/ 2 * (f2 * bz_bsq z) + SMALL)).
    { intros z I. rewrite bsq_scale, fac2 by assumption. fold f2. cbn [scale_B bz_P]. apply ratio_p. assert (Q := Pos z I). assert (0 < f2) by now apply Rdiv_lt_0_compat. nra. }
    assert (En : beta_min thr (rescaled m) = fold_left (fun o z => if Rlt_bool thr (bz_rho z) then omin o (bz_P z / (/ 2 * (f2 * bz_bsq z) + SMALL)) else o) zs None).
    { unfold beta_min, rescaled. rewrite fold_map. apply fold_ext. intros o z I. rewrite Es by exact I. reflexivity. }
    destruct (fold_omin_some (fun z => Rlt_bool thr (bz_rho z)) (fun z => bz_P z / (/ 2 * (f2 * bz_bsq z) + SMALL)) zs None) as (m' & Em').
    { right. exists z0. split; assumption. }
    exists m'. rewrite En. split; [exact Em'|].
    destruct (fold_omin _ _ _ _ _ Em') as (G1 & _ & G3).
    assert (Kt : forall z, Rlt_bool thr (bz_rho z) = true -> thr < bz_rho z) by (intros z; destruct (Rlt_bool_spec thr (bz_rho z)); [trivial | discriminate]).
    assert (Mp : forall z, In z zs -> forall x, ratio (bz_P z) (/ 2 * bz_bsq z) = x -> bz_P z = x * (/ 2 * bz_bsq z + SMALL)).
    { intros z I x <-. assert (Q := Pos z I). rewrite ratio_p by lra. field. lra. }
    split.
    + destruct G3 as [G3 | (z1 & I1 & K1 & <-)]; [discriminate|]. apply Lo; [exact M | now apply Pos | | now apply HP; [|apply Kt]].
      assert (A := H1 z1 I1 K1). rewrite (Mp z1 I1 _ eq_refl). apply Rmult_le_compat_r; [assert (Q := Pos z1 I1); lra | exact A].
    + assert (A := G1 z0 I0 K0). apply Rle_trans with (1 := A). apply Up; [exact M | now apply Pos | now apply Mp | now apply HB; [|apply Kt|]].
  - intros m E M (z1 & I1 & HP) (z2 & I2 & HB).
    unfold beta_pmax in E. destruct (fold_left (fun o z => omax o (bz_P z)) zs None) as [p|] eqn:EP; [|discriminate].
    destruct (fold_left (fun o z => omax o (bz_bsq z)) zs None) as [b|] eqn:EB; [|discriminate]. assert (E' : ratio p (/ 2 * b) = m) by congruence. clear E. rename E' into E.
    destruct (fold_omax _ _ _ _ EP) as (P1 & _ & _). destruct (fold_omax _ _ _ _ EB) as (B1 & _ & _).
    assert (Pp := P1 z1 I1). assert (Bb := B1 z2 I2). assert (B0 : 0 <= b) by (assert (Q := Pos z2 I2); lra).
    set (f2 := m / t). assert (F2 : 0 < f2) by now apply Rdiv_lt_0_compat.
    exists (p / (/ 2 * (f2 * b) + SMALL)). split.
    + unfold beta_pmax, rescaled. rewrite !fold_map. cbn [scale_B bz_P]. rewrite EP.
      rewrite (fold_ext (fun o x => omax o (bz_bsq (scale_B (B_field_fac true m t) x))) (fun o x => omax o (f2 * bz_bsq x))) by (intros; rewrite bsq_scale, fac2 by assumption; reflexivity).
      assert (Q := fold_omax_scale bz_bsq f2 zs (Rlt_le _ _ F2) None). cbn [option_map] in Q. rewrite Q, EB. cbn [option_map]. f_equal. apply ratio_p. nra.
    + assert (Em : p = m * (/ 2 * b + SMALL)) by (rewrite <- E, ratio_p by lra; field; lra).
      split; [apply Lo | apply Up]; try assumption; [rewrite Em; apply Rle_refl| |].
      * apply Rle_trans with (1 := HP). apply Rmult_le_compat_l; lra.
      * apply Rle_trans with (1 := HB). apply Rmult_le_compat_l; lra.
Qed.
Print Assumptions C49_beta.
(** without a magnetised torus the field is removed *)
Theorem C49_unmagnetized : forall z m t, (forall i, bz_B (scale_B (B_field_fac false m t) z) i = 0) /\ bz_bsq (scale_B (B_field_fac false m t) z) = 0.
Proof. intros z m t. split; [intros i; cbn; ring | rewrite bsq_scale; cbn; ring]. Qed.
Print Assumptions C49_unmagnetized.

(** ** tracers *)
Lemma round_Z n : round_half_up (IZR n) = n.
Proof. unfold round_half_up. apply Zfloor_imp. rewrite plus_IZR. split; lra. Qed.
Lemma round_pos x : / 2 <= x -> (1 <= round_half_up x)%Z.
Proof. intros H. unfold round_half_up. apply Zfloor_lub. cbn. lra. Qed.
(** one block: it receives all the tracers asked for *)
Theorem C49_tracers : forall total v, 0 < v -> num_tracers total [v] v = total.
Proof. intros total v V. unfold num_tracers, number_mesh. cbn. replace (IZR total * v / v) with (IZR total) by (field; lra). apply round_Z. Qed.
Print Assumptions C49_tracers.
(** Several blocks: the volume that is divided by is not that of the whole mesh, but of the last block, so that the last
    block alone receives all the tracers, and the others more. *)
Definition total_tracers (total : Z) (vs : list R) : Z := fold_right Z.add 0%Z (map (num_tracers total vs) vs).
Theorem C49_tracers_refuted : forall total vs v, 0 < v -> (0 <= total)%Z -> (forall w, In w vs -> 0 <= w) ->
  num_tracers total (vs ++ [v]) v = total /\ (total <= total_tracers total (vs ++ [v]))%Z /\
  ((exists w, In w vs /\ v / 2 <= IZR total * w) -> (total < total_tracers total (vs ++ [v]))%Z).
Proof.
  intros total vs v V T0 Pos.
  assert (Nm : number_mesh (vs ++ [v]) = v) by (unfold number_mesh; rewrite fold_left_app; reflexivity).
  assert (Last : num_tracers total (vs ++ [v]) v = total).
  { unfold num_tracers. rewrite Nm. replace (IZR total * v / v) with (IZR total) by (field; lra). apply round_Z. }
  assert (T0' : 0 <= IZR total) by (apply IZR_le; exact T0).
  assert (NN : forall w, 0 <= w -> (0 <= num_tracers total (vs ++ [v]) w)%Z).
  { intros w W. unfold num_tracers. rewrite Nm. unfold round_half_up. apply Zfloor_lub. cbn. assert (0 <= IZR total * w / v); [|lra].
    unfold Rdiv. apply Rmult_le_pos; [nra|]. left. now apply Rinv_0_lt_compat. }
  assert (Split_ : forall l, fold_right Z.add 0%Z (map (num_tracers total (vs ++ [v])) (l ++ [v])) = (fold_right Z.add 0%Z (map (num_tracers total (vs ++ [v])) l) + total)%Z).
  { induction l as [|x l IH]; cbn [app map fold_right]; [rewrite Last; lia | rewrite IH; lia]. }
  assert (Nn : forall l, (forall w, In w l -> 0 <= w) -> (0 <= fold_right Z.add 0 (map (num_tracers total (vs ++ [v])) l))%Z).
  { induction l as [|x l IH]; cbn [map fold_right]; intros P; [lia|]. assert (A := NN x (P x (or_introl eq_refl))). assert (B := IH (fun w I => P w (or_intror I))). lia. }
  unfold total_tracers. rewrite Split_. assert (Q := Nn vs Pos). split; [exact Last|]. split; [lia|].
  intros (w & I & Hw).
  assert (One : (1 <= num_tracers total (vs ++ [v]) w)%Z).
  { unfold num_tracers. rewrite Nm. apply round_pos. apply (Rmult_le_reg_r v); [exact V|]. unfold Rdiv. rewrite Rmult_assoc, Rinv_l by lra. lra. }
  assert (Ge : forall l, (forall w, In w l -> 0 <= w) -> In w l -> (1 <= fold_right Z.add 0 (map (num_tracers total (vs ++ [v])) l))%Z).
  { induction l as [|x l IH]; intros P J; [contradiction|]. cbn [map fold_right]. assert (A := NN x (P x (or_introl eq_refl))). assert (B := Nn l (fun w I => P w (or_intror I))).
    destruct J as [-> | J]; [lia|]. assert (C := IH (fun w I => P w (or_intror I)) J). lia. }
  assert (G := Ge vs Pos I). lia.
Qed.
Print Assumptions C49_tracers_refuted.
(** two equal blocks, 100 tracers: 200 are made *)
Example C49_tracers_two : total_tracers 100 [1; 1] = 200%Z.
Proof. unfold total_tracers. cbn [map fold_right]. unfold num_tracers, number_mesh. cbn [fold_left]. replace (100 * 1 / 1) with (IZR 100) by lra. rewrite round_Z. reflexivity. Qed.

(** mass per tracer: with the counts of the cells the tracers are in, the tracers of a cell carry the mass of the cell *)
Definition cell_total {C : Type} (dec : forall x y : C, {x = y} + {x <> y}) (cell_mass : C -> R) (counted now : list C) (c : C) : R :=
  fold_right Rplus 0 (map (fun x => match tracer_mass dec cell_mass counted x with Some q => q | None => 0 end) (filter (fun x => if dec x c then true else false) now)).
Theorem C49_tracer_mass : forall (C : Type) (dec : forall x y : C, {x = y} + {x <> y}) cell_mass cells c, In c cells ->
  (forall x, In x cells -> tracer_mass dec cell_mass cells x <> None) /\ cell_total dec cell_mass cells cells c = cell_mass c.
Proof.
  intros C dec cm cells c I.
  assert (Pos : forall x, In x cells -> (0 < count_occ dec cells x)%nat) by (intros x J; apply count_occ_In; exact J).
  split. { intros x J. assert (Q := Pos x J). unfold tracer_mass, count_in. destruct (count_occ dec cells x); [lia | discriminate]. }
  unfold cell_total.
  assert (E : forall l, fold_right Rplus 0 (map (fun x => match tracer_mass dec cm cells x with Some q => q | None => 0 end) (filter (fun x => if dec x c then true else false) l)) = INR (count_occ dec l c) * (cm c / INR (count_occ dec cells c))).
  { induction l as [|x l IH]; [cbn; ring|]. cbn [filter count_occ]. destruct (dec x c) as [->|N]; [|exact IH].
    cbn [map fold_right]. rewrite IH, S_INR. unfold tracer_mass, count_in. assert (Q := Pos c I). destruct (count_occ dec cells c) as [|n]; [lia|]. ring. }
  rewrite E. assert (Q := Pos c I). apply lt_0_INR in Q. field. lra.
Qed.
Print Assumptions C49_tracer_mass.
(** but the code counts before it assigns positions: a tracer in a cell that held none at that time divides by zero,
    and in general the tracers of a cell carry (tracers now / tracers then) times its mass *)
Theorem C49_tracer_mass_refuted : forall (C : Type) (dec : forall x y : C, {x = y} + {x <> y}) cell_mass before now c,
  (count_occ dec before c = 0%nat -> tracer_mass dec cell_mass before c = None) /\
  ((0 < count_occ dec before c)%nat -> cell_total dec cell_mass before now c = cell_mass c * (INR (count_occ dec now c) / INR (count_occ dec before c))).
Proof.
  intros C dec cm before now c. split; [intros Z; unfold tracer_mass, count_in; rewrite Z; reflexivity|]. intros Pos. unfold cell_total.
  assert (E : forall l, fold_right Rplus 0 (map (fun x => match tracer_mass dec cm before x with Some q => q | None => 0 end) (filter (fun x => if dec x c then true else false) l)) = INR (count_occ dec l c) * (cm c / INR (count_occ dec before c))).
  { induction l as [|x l IH]; [cbn; ring|]. cbn [filter count_occ]. destruct (dec x c) as [->|N]; [|exact IH].
    cbn [map fold_right]. rewrite IH, S_INR. unfold tracer_mass, count_in. destruct (count_occ dec before c) as [|n]; [lia|]. ring. }
  rewrite E. apply lt_0_INR in Pos. field. lra.
Qed.
Print Assumptions C49_tracer_mass_refuted.
(** three tracers counted in cell 0 and then placed in cells 1, 1, 2: no mass *)
Example C49_tracer_mass_case : tracer_mass Nat.eq_dec (fun _ => 1) [0; 0; 0]%nat 1%nat = None.
Proof. reflexivity. Qed.

(** rejection sampling: the kept position is the first of the draws that is in the closed torus, r > rin and lnh >= 0 *)
Theorem C49_tracer_place : forall p m draw fuel n x y,
  let inside q := tp_rin p < mgr_r m (fst q) /\ 0 <= log_enthalpy (mgr_r m (fst q)) (mgr_th m (fst q) (snd q)) (tp_a p) (tp_rin p) (tp_l p) in
  reject fuel p m draw n = Some (x, y) <->
  exists k, (k <= fuel)%nat /\ draw (n + k)%nat = (x, y) /\ inside (x, y) /\ forall j, (j < k)%nat -> ~ inside (draw (n + j)%nat).
Proof.
  intros p m draw fuel. induction fuel as [|fuel IH]; intros n x y inside.
  all: assert (In_ : forall q, inside q <-> 0 <= torus_lnh p (mgr_r m (fst q)) (mgr_th m (fst q) (snd q))) by (intros q; unfold inside, torus_lnh; destruct (Rlt_bool_spec (tp_rin p) (mgr_r m (fst q))); split; [tauto | tauto | lra | lra]).
  - cbn [reject]. destruct (draw n) as [x0 y0] eqn:D. destruct (Rlt_bool_spec (torus_lnh p (mgr_r m x0) (mgr_th m x0 y0)) 0) as [L|L].
    + split; [discriminate|]. intros (k & K & Dk & Ik & _). replace (n + k)%nat with n in Dk by lia. rewrite D in Dk. injection Dk as -> ->. apply In_ in Ik. cbn [fst snd] in Ik. lra.
    + split.
      * intros E. injection E as -> ->. exists 0%nat. rewrite Nat.add_0_r. repeat split; [lia | exact D | | | intros; lia]; apply (In_ (x, y)); exact L.
      * intros (k & K & Dk & _). replace (n + k)%nat with n in Dk by lia. congruence.
  - cbn [reject]. destruct (draw n) as [x0 y0] eqn:D. destruct (Rlt_bool_spec (torus_lnh p (mgr_r m x0) (mgr_th m x0 y0)) 0) as [L|L].
    + rewrite IH. cbv zeta. split.
      * intros (k & K & Dk & Ik & B). exists (S k). split; [lia|]. split; [rewrite <- Dk; f_equal; lia|]. split; [exact Ik|].
        intros [|j] J; [rewrite Nat.add_0_r, D, In_; cbn [fst snd]; lra | replace (n + S j)%nat with (S n + j)%nat by lia; apply B; lia].
      * intros ([|k] & K & Dk & Ik & B).
        -- rewrite Nat.add_0_r, D in Dk. injection Dk as -> ->. apply In_ in Ik. cbn [fst snd] in Ik. lra.
        -- exists k. split; [lia|]. split; [rewrite <- Dk; f_equal; lia|]. split; [exact Ik|]. intros j J. replace (S n + j)%nat with (n + S j)%nat by lia. apply B. lia.
    + split.
      * intros E. injection E as -> ->. exists 0%nat. rewrite Nat.add_0_r. repeat split; [lia | exact D | | | intros; lia]; apply (In_ (x, y)); exact L.
      * intros ([|k] & K & Dk & Ik & B); [rewrite Nat.add_0_r in Dk; congruence|]. exfalso. apply (B 0%nat); [lia|]. rewrite Nat.add_0_r, D. apply In_. exact L.
Qed.
Print Assumptions C49_tracer_place.

(** a case for C49_beta: gas at rest in flat space, two zones, eps = 1/1000 *)
Lemma SMALL_tiny : (SMALL : R) <= / 1000000.
Proof.
  unfold SMALL. num_R. assert (Q : IZR 10000000 <= IZR (Z.pos (2 ^ 1022))) by (apply IZR_le; vm_compute; discriminate).
  set (b := IZR (Z.pos (2 ^ 1022))) in *. clearbody b. apply (Rmult_le_reg_r b); [lra|]. unfold Rdiv. rewrite Rmult_assoc, Rinv_l by lra. lra.
Qed.
Definition bz0 (rho P b : R) : BZone := {| bz_rho := rho; bz_P := P; bz_gcov := delta; bz_vp := fun _ => 0; bz_B := fun i => match i with O => b | _ => 0 end |}.
Lemma bz0_bsq rho P b : bz_bsq (bz0 rho P b) = b * b.
Proof.
  unfold bz_bsq, GetMagneticFieldSquared_cell, GetMagneticFieldSquared, GetLorentzFactor, bz0. cbn [bz_gcov bz_vp bz_B].
  assert (E : sqrt (1 + sum3 (fun ii => sum3 (fun jj => delta ii jj * 0 * 0))) = 1) by (match goal with |- sqrt ?x = 1 => replace x with 1 by (unfold sum3; ring) end; apply sqrt_1).
  rewrite E. rewrite !gratio_nz by lra. unfold sum3, delta. cbn. field.
Qed.
Example C49_beta_nonvacuous : let zs := [bz0 1 3 2; bz0 1 1 1] in
  beta_pmax zs = Some (3 / (2 + SMALL)) /\ 0 < 3 / (2 + SMALL) /\ (forall z, In z zs -> 0 <= bz_bsq z) /\
  (exists z, In z zs /\ SMALL * 100 <= / 1000 * bz_P z) /\ (exists z, In z zs /\ SMALL <= / 1000 * (bz_bsq z / 2)).
Proof.
  intros zs. assert (S0 := SMALL_pos). assert (S1 := SMALL_tiny).
  split; [|split; [|split; [|split]]].
  - unfold beta_pmax, zs. cbn [fold_left omax]. rewrite !bz0_bsq. cbn [bz_P bz0]. rewrite (Rmax_right 1 3) by lra. rewrite (Rmax_right (1 * 1) (2 * 2)) by lra.
    f_equal. rewrite ratio_p by lra. f_equal. field.
  - apply Rdiv_lt_0_compat; lra.
  - intros z [<- | [<- | []]]; rewrite bz0_bsq; lra.
  - exists (bz0 1 3 2). split; [now left|]. cbn [bz_P bz0]. lra.
  - exists (bz0 1 3 2). split; [now left|]. rewrite bz0_bsq. lra.
Qed.
