(** The two coordinate transformations: McKinney-Gammie-Ryan and spherical-to-Cartesian. *)
From Coq Require Import Reals Arith Lra Lia Bool.
From Flocq Require Import Core.
From Coquelicot Require Import Coquelicot.
From Verif.Model Require Import Num Robust LinearAlgebra Geometry Modified.
From Verif.Spec Require Import Tensor GeomSpec SystemSpec.
From Verif.Proofs Require Import TensorTac GeomBase ModifiedProofs.
Local Open Scope R_scope.

(** ** MGR *)
Lemma mgr_r_deriv m X1 : (2 <= mgr_hexp_nsq m)%nat \/ X1 <> mgr_hexp_br m ->
  is_derive (mgr_r m) X1 (mgr_drdX1 m X1).
Proof.
  intros H. unfold mgr_r, mgr_drdX1.
  set (br := mgr_hexp_br m). set (c := mgr_hexp_csq m). set (n := mgr_hexp_nsq m) in *.
  assert (Pw : forall x on, is_derive (fun X => exp (X + on * c * (X - br) ^ n)) x
     (exp (x + on * c * (x - br) ^ n) * (1 + on * c * INR n * (x - br) ^ (n - 1)))).
  { intros x on. auto_derive; [trivial|]. rewrite Nat.sub_1_r. unfold Rminus. ring. }
  destruct (Rtotal_order X1 br) as [L|[E|L]].
  -
    rewrite (Rlt_bool_false 0 (X1 - br)) by lra.
    apply is_derive_ext_loc with (fun X => exp (X + 0 * c * (X - br) ^ n)); [|apply Pw].
    exists (mkposreal (br - X1) ltac:(lra)). intros y Hy. apply Rabs_def2 in Hy. cbn in Hy.
    unfold minus, plus, opp in Hy; cbn in Hy.
    rewrite Rlt_bool_false; [reflexivity|lra].
  - destruct H as [H|H]; [|contradiction]. subst X1.
    rewrite (Rlt_bool_false 0 (br - br)) by lra.
    (* both sides of the break agree to first order *)
    set (psi := fun X => (if Rlt_bool 0 (X - br) then 1 else 0) * c * (X - br) ^ n).
    assert (D : is_derive psi br 0).
    { apply is_derive_Reals. intros eps Heps.
      set (del := Rmin 1 (eps / (Rabs c + 1))).
      assert (Hc : 0 < Rabs c + 1) by (pose proof (Rabs_pos c); lra).
      assert (Hdel : 0 < del). { unfold del. apply Rmin_glb_lt; [lra|]. apply Rdiv_lt_0_compat; lra. }
      exists (mkposreal del Hdel). intros h Hh Hlt. cbn in Hlt.
      unfold psi. replace (br - br) with 0 by ring. rewrite (Rlt_bool_false 0 0) by lra.
      replace (br + h - br) with h by ring.
      rewrite Rmult_0_l, Rmult_0_l, !Rminus_0_r.
      destruct (Rlt_bool_spec 0 h) as [P|P].
      2:{ rewrite !Rmult_0_l. unfold Rdiv. rewrite Rmult_0_l, Rabs_R0. lra. }
      rewrite Rabs_pos_eq in Hlt by lra.
      destruct n as [|[|k]]; [lia|lia|].
      replace (1 * c * h ^ S (S k) / h) with (c * h ^ k * h) by (cbn [pow]; field; lra).
      rewrite !Rabs_mult, (Rabs_pos_eq h) by lra. rewrite (Rabs_pos_eq (h ^ k)) by (apply pow_le; lra).
      assert (H1 : h < 1) by (eapply Rlt_le_trans; [exact Hlt|apply Rmin_l]).
      assert (H2 : h < eps / (Rabs c + 1)) by (eapply Rlt_le_trans; [exact Hlt|apply Rmin_r]).
      assert (Hk : 0 <= h ^ k <= 1). { split; [apply pow_le; lra|]. rewrite <- (pow1 k). apply pow_incr. lra. }
      apply Rle_lt_trans with (Rabs c * h).
      { apply Rmult_le_compat_r; [lra|]. rewrite <- (Rmult_1_r (Rabs c)) at 2.
        apply Rmult_le_compat_l; [apply Rabs_pos|lra]. }
      apply Rle_lt_trans with ((Rabs c + 1) * h). { apply Rmult_le_compat_r; lra. }
      replace eps with ((Rabs c + 1) * (eps / (Rabs c + 1))) by (field; lra).
      apply Rmult_lt_compat_l; lra. }
    evar_last.
    { apply (is_derive_comp exp (fun X => X + psi X)); [apply is_derive_Reals, derivable_pt_lim_exp|].
      apply (is_derive_plus (V:=R_NormedModule)); [apply (is_derive_id (K:=R_AbsRing))|exact D]. }
    cbn. unfold plus, one, scal, mult; cbn. unfold mult; cbn. unfold psi.
    replace (br - br) with 0 by ring. rewrite (Rlt_bool_false 0 0) by lra. ring.
  - rewrite (Rlt_bool_true 0 (X1 - br)) by lra.
    apply is_derive_ext_loc with (fun X => exp (X + 1 * c * (X - br) ^ n)); [|apply Pw].
    exists (mkposreal (X1 - br) ltac:(lra)). intros y Hy. apply Rabs_def2 in Hy. cbn in Hy.
    unfold minus, plus, opp in Hy; cbn in Hy.
    rewrite Rlt_bool_true; [reflexivity|lra].
Qed.

Lemma mgr_th_raw_d1 m X1 X2 : is_derive (fun x => mgr_th_raw m x X2) X1 (mgr_dthdX1 m X1 X2).
Proof.
  unfold mgr_th_raw, mgr_dthdX1. destruct (mgr_derefine_poles m); auto_derive; trivial. unfold Rminus. ring.
Qed.
Lemma mgr_th_raw_d2 m X1 X2 : mgr_xt m <> 0 -> is_derive (fun x => mgr_th_raw m X1 x) X2 (mgr_dthdX2 m X1 X2).
Proof.
  intros Hxt. unfold mgr_th_raw, mgr_dthdX2, mgr_thG, mgr_thJ, mgr_dthGdX2, mgr_y.
  set (n := mgr_alpha m). set (N := mgr_norm m).
  assert (HN : INR n + 1 <> 0) by (pose proof (pos_INR n); lra).
  assert (DG : is_derive (fun x => PI * x + (1 - mgr_h m) / 2 * sin (2 * PI * x)) X2
                 (PI + PI * (1 - mgr_h m) * cos (2 * PI * X2))).
  { auto_derive; trivial. field. }
  destruct (mgr_derefine_poles m); [|exact DG].
  assert (DJ : is_derive (fun x => N * (2 * x - 1) * (1 + ((2 * x - 1) / mgr_xt m) ^ n / (INR n + 1)) + / 2 * PI) X2
                 (N * (1 + ((2 * X2 - 1) / mgr_xt m) ^ n) * 2)).
  { auto_derive; [trivial|]. unfold Rdiv, Rminus.
    destruct n as [|k].
    - cbn [pow INR Init.Nat.pred]. field. lra.
    - cbn [Init.Nat.pred]. replace (2 * X2 + - (1)) with (2 * X2 - 1) by ring.
      set (z := (2 * X2 - 1) * / mgr_xt m).
      assert (Ez : 2 * X2 - 1 = z * mgr_xt m) by (unfold z; field; lra).
      rewrite Ez. change (z ^ S k) with (z * z ^ k).
      rewrite S_INR in *. field. split; [lra|assumption]. }
  apply (is_derive_plus (V:=R_NormedModule)); [exact DG|].
  apply is_derive_scal.
  apply (is_derive_minus (V:=R_NormedModule)); [exact DJ|exact DG].
Qed.

Lemma mgr_fix_id th : SINGSMALL <= Rabs th -> SINGSMALL <= Rabs (PI - th) -> mgr_fix th = th.
Proof. intros H1 H2. unfold mgr_fix. rewrite (Rlt_bool_false (Rabs th)) by lra. now rewrite Rlt_bool_false. Qed.

Lemma SINGSMALL_pos : 0 < SINGSMALL.
Proof. unfold SINGSMALL. apply Rinv_0_lt_compat, pow_lt. lra. Qed.

(** the pole fix keeps theta off the poles and moves it by less than SINGSMALL *)
Lemma mgr_fix_off th : SINGSMALL <= Rabs (mgr_fix th) /\ SINGSMALL <= Rabs (PI - mgr_fix th) /\
  Rabs (mgr_fix th - th) <= SINGSMALL.
Proof.
  pose proof SINGSMALL_pos as Hs.
  assert (Hp : 3 < PI). { pose proof PI2_3_2. unfold PI2 in *. lra. }
  assert (S1 : SINGSMALL < 1).
  { unfold SINGSMALL. rewrite <- Rinv_1. apply Rinv_lt_contravar; [|]; rewrite ?Rmult_1_l;
      [apply pow_lt; lra|]. apply Rlt_pow_R1; [lra|lia]. }
  set (s := SINGSMALL) in *.
  assert (Habs : forall u v, Rabs u <= v <-> - v <= u <= v).
  { intros u v. split; [apply Rabs_le_inv|apply Rabs_le]. }
  unfold mgr_fix. fold s.
  destruct (Rlt_bool_spec (Rabs th) s) as [A|A].
  - apply Rabs_def2 in A.
    assert (E : (if Rle_bool 0 th then s else if Rlt_bool th 0 then - s else th) =
                if Rle_bool 0 th then s else - s).
    { destruct (Rle_bool_spec 0 th); [reflexivity|]. now rewrite Rlt_bool_true by lra. }
    rewrite E. destruct (Rle_bool_spec 0 th).
    + rewrite (Rlt_bool_false (Rabs (PI - s))) by (rewrite Rabs_pos_eq; lra).
      repeat split; try (rewrite Rabs_pos_eq; lra).
    + rewrite (Rlt_bool_false (Rabs (PI - - s))) by (rewrite Rabs_pos_eq; lra).
      repeat split; try (rewrite Rabs_Ropp, Rabs_pos_eq; lra); try (rewrite Rabs_pos_eq; lra).
      apply Rabs_le; lra.
  - destruct (Rlt_bool_spec (Rabs (PI - th)) s) as [B|B].
    + apply Rabs_def2 in B.
      destruct (Rle_bool_spec PI th).
      * repeat split; try (rewrite Rabs_pos_eq; lra).
        -- replace (PI - (PI + s)) with (- s) by ring. rewrite Rabs_Ropp, Rabs_pos_eq; lra.
      * rewrite Rlt_bool_true by lra. repeat split; try (rewrite Rabs_pos_eq; lra). all: try (apply Rabs_le; lra).
    + repeat split; try assumption. rewrite Rminus_diag_eq, Rabs_R0 by reflexivity. lra.
Qed.

Lemma th_deriv_fix (f : R -> R) x d : is_derive f x d ->
  SINGSMALL < Rabs (f x) -> SINGSMALL < Rabs (PI - f x) -> is_derive (fun y => mgr_fix (f y)) x d.
Proof.
  intros D H1 H2. apply is_derive_ext_loc with f; [|exact D].
  assert (C : continuous f x) by (apply (ex_derive_continuous (K:=R_AbsRing) (V:=R_NormedModule)); now exists d).
  assert (C1 : continuous (fun y => Rabs (f y)) x).
  { apply (continuous_comp f Rabs); [exact C|apply continuous_Rabs]. }
  assert (C2 : continuous (fun y => Rabs (PI - f y)) x).
  { apply (continuous_comp (fun y => PI - f y) Rabs); [|apply continuous_Rabs].
    apply (continuous_minus (V:=R_NormedModule)); [apply continuous_const|exact C]. }
  assert (L1 := C1 _ (open_gt SINGSMALL _ H1)).
  assert (L2 := C2 _ (open_gt SINGSMALL _ H2)).
  unfold filtermap in L1, L2. destruct L1 as [e1 L1]. destruct L2 as [e2 L2].
  exists (mkposreal (Rmin e1 e2) ltac:(apply Rmin_glb_lt; [apply e1|apply e2])). intros y Hy.
  assert (K1 : SINGSMALL < Rabs (f y)).
  { apply L1. apply ball_le with (2 := Hy). apply Rmin_l. }
  assert (K2 : SINGSMALL < Rabs (PI - f y)).
  { apply L2. apply ball_le with (2 := Hy). apply Rmin_r. }
  symmetry. apply mgr_fix_id; apply Rlt_le; assumption.
Qed.

Lemma mgr_inverse m X1 X2 X3 : mgr_drdX1 m X1 <> 0 -> mgr_dthdX2 m X1 X2 <> 0 ->
  inverse3 (tr_Jcov (McKinneyGammieRyan m) X1 X2 X3) (tr_Jcon (McKinneyGammieRyan m) X1 X2 X3).
Proof.
  intros H1 H2. cbn [McKinneyGammieRyan tr_Jcov tr_Jcon].
  assert (H3 : mgr_drdX1 m X1 * mgr_dthdX2 m X1 X2 <> 0) by now apply Rmult_integral_contrapositive_currified.
  rewrite !gratio_nz by assumption.
  generalize dependent (mgr_drdX1 m X1). generalize dependent (mgr_dthdX2 m X1 X2).
  generalize (mgr_dthdX1 m X1 X2). intros a b Hb c Hc Hbc.
  split; intros; idx; tensor; field; auto.
Qed.

(** ** Spherical to Cartesian *)
Lemma s2c_r_pos x y z : (x, y, z) <> (0, 0, 0) -> 0 < s2c_r x y z.
Proof.
  intros H. apply sqrt_lt_R0. 
  pose proof (Rle_0_sqr x). pose proof (Rle_0_sqr y). pose proof (Rle_0_sqr z). unfold Rsqr in *.
  destruct (Req_dec x 0), (Req_dec y 0), (Req_dec z 0); subst; try (now contradict H).
  all: match goal with K : ?v <> 0 |- _ => pose proof (Rsqr_pos_lt v K); unfold Rsqr in *; lra end.
Qed.
Lemma s2c_r_sq x y z : s2c_r x y z * s2c_r x y z = x * x + y * y + z * z.
Proof.
  apply sqrt_sqrt. pose proof (Rle_0_sqr x). pose proof (Rle_0_sqr y). pose proof (Rle_0_sqr z). unfold Rsqr in *. lra.
Qed.

Lemma atan2_spec x y : (x, y) <> (0, 0) ->
  let rho := sqrt (x * x + y * y) in
  rho * cos (atan2 y x) = x /\ rho * sin (atan2 y x) = y.
Proof.
  intros H rho.
  assert (Hrho : forall k, 0 < k -> sqrt ((1 + (y / k) ^ 2) * (k * k)) = k * sqrt (1 + (y / k) ^ 2)).
  { intros k Hk. rewrite sqrt_mult_alt by nra. rewrite sqrt_square by lra. ring. }
  assert (B : forall k, 0 < k -> let t := y / k in
     sqrt (k * k + y * y) * cos (atan t) = k /\ sqrt (k * k + y * y) * sin (atan t) = y).
  { intros k Hk t. rewrite cos_atan, sin_atan.
    replace (k * k + y * y) with ((1 + t²) * (k * k)) by (unfold t, Rsqr; field; lra).
    assert (P : 0 < 1 + t²) by (pose proof (Rle_0_sqr t); lra).
    rewrite sqrt_mult_alt, sqrt_square by lra.
    assert (Hs : 0 < sqrt (1 + t²)) by now apply sqrt_lt_R0.
    split; [field; lra|]. unfold t at 2. field. split; [unfold Rsqr, t in *; lra|lra]. }
  unfold atan2. destruct (Rlt_bool_spec 0 x) as [Px|Px].
  - exact (B x Px).
  - destruct (Rlt_bool_spec x 0) as [Nx|Nx].
    + destruct (B (- x) ltac:(lra)) as [B1 B2]. cbv zeta in *.
      replace (y / - x) with (- (y / x)) in * by (field; lra).
      rewrite atan_opp, cos_neg in B1. rewrite atan_opp, sin_neg in B2.
      replace (- x * - x + y * y) with (x * x + y * y) in * by ring. fold rho in B1, B2.
      destruct (Rle_bool_spec 0 y).
      * rewrite neg_cos, neg_sin. lra.
      * unfold Rminus. rewrite cos_plus, sin_plus, cos_neg, sin_neg, cos_PI, sin_PI. lra.
    + assert (x = 0) by lra. subst x.
      unfold rho. replace (0 * 0 + y * y) with (y * y) by ring.
      destruct (Rlt_bool_spec 0 y).
      * rewrite sqrt_square by lra. rewrite cos_PI2, sin_PI2. lra.
      * destruct (Rlt_bool_spec y 0).
        -- replace (y * y) with (- y * - y) by ring. rewrite sqrt_square by lra.
           replace (- PI / 2) with (- (PI / 2)) by field. rewrite cos_neg, sin_neg, cos_PI2, sin_PI2. lra.
        -- assert (y = 0) by lra. subst. now contradict H.
Qed.

Lemma s2c_th_spec x y z : (x, y) <> (0, 0) ->
  let r := s2c_r x y z in let th := s2c_th x y z in
  r * cos th = z /\ r * sin th = sqrt (x * x + y * y) /\ 0 < sin th.
Proof.
  intros H r th.
  assert (Hxy : 0 < x * x + y * y).
  { destruct (Req_dec x 0), (Req_dec y 0); subst; try (now contradict H); nra. }
  assert (Hr : 0 < r). { apply s2c_r_pos. intros E. apply H. congruence. }
  assert (Hsq := s2c_r_sq x y z). fold r in Hsq.
  unfold th, s2c_th. fold r. rewrite gratio_nz by lra.
  assert (Hb : (z / r) * (z / r) < 1).
  { replace (z / r * (z / r)) with (z * z / (r * r)) by (field; lra).
    apply Rmult_lt_reg_r with (r * r); [nra|]. unfold Rdiv. rewrite Rmult_assoc, Rinv_l by nra. nra. }
  assert (Hb' : -1 <= z / r <= 1) by (split; nra).
  rewrite cos_acos by assumption.
  rewrite sin_acos by assumption.
  assert (Hp : 0 < 1 - (z / r)²) by (unfold Rsqr; lra).
  repeat split.
  - field; lra.
  - rewrite <- (sqrt_square r) at 1 by lra. rewrite <- sqrt_mult_alt by nra. f_equal.
    unfold Rsqr. field_simplify; [|lra]. nra.
  - now apply sqrt_lt_R0.
Qed.

(** Cartesian position of the spherical point (r, theta, phi) *)
Definition cart (q : vec) : vec :=
  row3 (q.[0] * sin q.[1] * cos q.[2]) (q.[0] * sin q.[1] * sin q.[2]) (q.[0] * cos q.[1]).

Lemma s2c_roundtrip x y z i : (x, y) <> (0, 0) -> (i < 3)%nat ->
  cart (tr_C SphericalToCartesian x y z) i = row3 x y z i.
Proof.
  intros H Hi. destruct (s2c_th_spec x y z H) as (E1 & E2 & _). destruct (atan2_spec x y H) as (A1 & A2).
  cbv zeta in *. idx; cbn; unfold s2c_ph.
  - now rewrite E2.
  - now rewrite E2.
  - assumption.
Qed.

Lemma s2c_inverse x y z : (x, y) <> (0, 0) ->
  inverse3 (tr_Jcov SphericalToCartesian x y z) (tr_Jcon SphericalToCartesian x y z).
Proof.
  intros H. destruct (s2c_th_spec x y z H) as (_ & _ & Hs). cbv zeta in *.
  assert (Hr : 0 < s2c_r x y z). { apply s2c_r_pos. intros E. apply H. congruence. }
  cbn [SphericalToCartesian tr_Jcov tr_Jcon].
  rewrite !gratio_nz by (try apply Rmult_integral_contrapositive_currified; lra).
  assert (S1 := sin2_cos2 (s2c_th x y z)). assert (S2 := sin2_cos2 (s2c_ph x y)). unfold Rsqr in *.
  generalize dependent (sin (s2c_th x y z)). generalize (cos (s2c_th x y z)).
  generalize dependent (sin (s2c_ph x y)). generalize (cos (s2c_ph x y)).
  generalize dependent (s2c_r x y z). intros r Hr cp sp Hp c s Hs0 Hsc.
  assert (Ep : sp * sp = 1 - cp * cp) by lra. assert (Es : s * s = 1 - c * c) by lra.
  split; intros; idx; tensor; field [Ep Es]; lra.
Qed.

(** Jcon is the Jacobian of (r,theta,phi) -> (x,y,z) *)
Lemma s2c_Jcon_jacobian x y z i j : (i < 3)%nat -> (j < 3)%nat ->
  let q := tr_C SphericalToCartesian x y z in
  is_partial (fun p => cart p i) j q (tr_Jcon SphericalToCartesian x y z i j).
Proof.
  intros Hi Hj q. unfold is_partial, cart, moved, q.
  cbn [SphericalToCartesian tr_Jcon tr_C].
  idx; cbn; auto_derive; trivial; ring.
Qed.

(** what the tangent vector (dx,dy,dz) is in spherical components: Jcov applied to it *)
Lemma s2c_derivatives_wrong :
  let d := s2c_derivatives 0 2 0 1 0 0 in
  let t := fun i => sum3 (fun j => tr_Jcov SphericalToCartesian 0 2 0 i j * row3 1 0 0 j) in
  d 2%nat <> t 2%nat.
Proof.
  cbv zeta. unfold s2c_derivatives. cbn [SphericalToCartesian tr_Jcov].
  assert (Er : s2c_r 0 2 0 = 2). { unfold s2c_r. replace (0 * 0 + 2 * 2 + 0 * 0) with (2 * 2) by ring. apply sqrt_square; lra. }
  assert (Et : s2c_th 0 2 0 = PI / 2). { unfold s2c_th. rewrite Er, gratio_num0. apply acos_0. }
  assert (Ep : s2c_ph 0 2 = PI / 2). { unfold s2c_ph, atan2. rewrite !(Rlt_bool_false 0 0), (Rlt_bool_true 0 2) by lra. reflexivity. }
  rewrite Er, Et, Ep, sin_PI2, cos_PI2. rewrite !gratio_nz by lra. tensor. intros E. lra.
Qed.

(** ** The FMKS chart: parameters for which the MGR map is a valid change of coordinates *)
Record mgr_valid (m : MGR) : Prop := {
  mv_h : 0 < mgr_h m < 2;
  mv_xt : 0 < mgr_xt m;
  mv_alpha : Nat.Even (mgr_alpha m);
  mv_smooth : 0 <= mgr_smooth m;
  mv_csq : 0 <= mgr_hexp_csq m;
  mv_nsq : (1 <= mgr_hexp_nsq m)%nat
}.

Lemma mgr_drdX1_pos m X1 : mgr_valid m -> 0 < mgr_drdX1 m X1.
Proof.
  intros [_ _ _ _ Hc Hn]. unfold mgr_drdX1. apply Rmult_lt_0_compat; [apply exp_pos|].
  destruct (Rlt_bool_spec 0 (X1 - mgr_hexp_br m)).
  - assert (0 <= 1 * mgr_hexp_csq m * INR (mgr_hexp_nsq m) * (X1 - mgr_hexp_br m) ^ (mgr_hexp_nsq m - 1)); [|lra].
    apply Rmult_le_pos; [|apply pow_le; lra]. apply Rmult_le_pos; [lra|apply pos_INR].
  - rewrite !Rmult_0_l. lra.
Qed.

Lemma even_pow_nonneg z n : Nat.Even n -> 0 <= z ^ n.
Proof. intros [k ->]. rewrite pow_mult. apply pow_le. apply pow2_ge_0. Qed.
Lemma even_pow_abs z n : Nat.Even n -> z ^ n = Rabs z ^ n.
Proof. intros [k ->]. rewrite !pow_mult. now rewrite pow2_abs. Qed.

Lemma mgr_norm_pos m : mgr_valid m -> 0 < mgr_norm m.
Proof.
  intros [_ Hx _ _ _ _]. unfold mgr_norm. pose proof PI_RGT_0. pose proof (pos_INR (mgr_alpha m)).
  apply Rdiv_lt_0_compat; [lra|].
  assert (0 < 1 / (INR (mgr_alpha m) + 1) * 1 / mgr_xt m ^ mgr_alpha m); [|lra].
  apply Rdiv_lt_0_compat; [|now apply pow_lt]. rewrite Rmult_1_r. apply Rdiv_lt_0_compat; lra.
Qed.

Lemma mgr_dthG_pos m X2 : mgr_valid m -> 0 < mgr_dthGdX2 m X2.
Proof.
  intros [Hh _ _ _ _ _]. unfold mgr_dthGdX2. pose proof PI_RGT_0.
  replace (PI + PI * (1 - mgr_h m) * cos (2 * PI * X2)) with (PI * (1 + (1 - mgr_h m) * cos (2 * PI * X2))) by ring.
  apply Rmult_lt_0_compat; [assumption|]. pose proof (COS_bound (2 * PI * X2)).
  set (c := cos _) in *. set (h := mgr_h m) in *.
  destruct (Rle_dec h 1); [assert (0 <= (1 - h) * (c + 1)) by (apply Rmult_le_pos; lra); lra|].
  assert (0 <= (h - 1) * (1 - c)) by (apply Rmult_le_pos; lra). lra.
Qed.

Lemma exp_le1 s f : 0 <= s -> f <= 0 -> 0 < exp (s * f) <= 1.
Proof.
  intros Hs Hf. split; [apply exp_pos|]. rewrite <- exp_0.
  assert (s * f <= 0) by (apply Rmult_le_0_l; assumption).
  destruct (Rle_lt_or_eq_dec _ _ H) as [L|E]; [left; now apply exp_increasing|right; now rewrite E].
Qed.

Lemma mgr_dthdX2_pos m X1 X2 : mgr_valid m -> mgr_x0 m <= X1 -> 0 < mgr_dthdX2 m X1 X2.
Proof.
  intros V HX. unfold mgr_dthdX2. pose proof (mgr_dthG_pos m X2 V) as HG.
  destruct (mgr_derefine_poles m); [|assumption].
  pose proof (mgr_norm_pos m V) as HN. destruct V as [_ Hx Ha Hs _ _].
  destruct (exp_le1 (mgr_smooth m) (mgr_x0 m - X1) Hs ltac:(lra)) as [E1 E2].
  set (e := exp _) in *.
  assert (HJ : 0 < mgr_norm m * (1 + (mgr_y X2 / mgr_xt m) ^ mgr_alpha m) * 2).
  { pose proof (even_pow_nonneg (mgr_y X2 / mgr_xt m) _ Ha).
    apply Rmult_lt_0_compat; [|lra]. apply Rmult_lt_0_compat; lra. }
  set (J := _ * 2) in *. set (G := mgr_dthGdX2 m X2) in *.
  assert (0 <= (1 - e) * G) by (apply Rmult_le_pos; lra).
  assert (0 < e * J) by (apply Rmult_lt_0_compat; lra). lra.
Qed.

Lemma sin_le_abs x : 0 <= x -> - x <= sin x <= x.
Proof.
  intros H. destruct (Req_dec x 0) as [->|N]; [rewrite sin_0; lra|].
  pose proof (sin_lt_x x ltac:(lra)). split; [|lra].
  destruct (Rle_dec x PI); [pose proof (sin_ge_0 x H r); lra|].
  pose proof (SIN_bound x). pose proof PI_RGT_0. pose proof PI2_3_2. unfold PI2 in *. lra.
Qed.

Lemma mgr_thG_range m X2 : mgr_valid m -> 0 <= X2 <= 1 -> 0 <= mgr_thG m X2 <= PI.
Proof.
  intros [Hh _ _ _ _ _] HX. pose proof PI_RGT_0 as Hpi.
  assert (K : forall x, 0 <= x -> 0 <= mgr_thG m x).
  { intros x Hx. unfold mgr_thG.
    assert (0 <= PI * x) by (apply Rmult_le_pos; lra).
    assert (0 <= 2 * PI * x) by lra.
    pose proof (sin_le_abs (2 * PI * x) H0) as [S1 S2].
    set (s := sin _) in *. set (p := PI * x) in *. replace (2 * PI * x) with (2 * p) in * by (unfold p; ring).
    destruct (Rle_dec (mgr_h m) 1).
    - assert (0 <= (1 - mgr_h m) / 2 * (s + 2 * p)) by (apply Rmult_le_pos; lra).
      assert (0 <= mgr_h m * p) by (apply Rmult_le_pos; lra). lra.
    - assert (0 <= (mgr_h m - 1) / 2 * (2 * p - s)) by (apply Rmult_le_pos; lra).
      assert (0 <= (2 - mgr_h m) * p) by (apply Rmult_le_pos; lra). lra. }
  assert (Sy : mgr_thG m (1 - X2) = PI - mgr_thG m X2).
  { unfold mgr_thG. replace (2 * PI * (1 - X2)) with (- (2 * PI * X2) + 2 * INR 1 * PI) by (cbn [INR]; ring).
    rewrite sin_period, sin_neg. field. }
  pose proof (K X2 ltac:(lra)). pose proof (K (1 - X2) ltac:(lra)). lra.
Qed.

Lemma mgr_thJ_range m X2 : mgr_valid m -> 0 <= X2 <= 1 -> 0 <= mgr_thJ m X2 <= PI.
Proof.
  intros V HX. pose proof (mgr_norm_pos m V) as HN. destruct V as [_ Hx Ha _ _ _].
  unfold mgr_thJ. set (y := mgr_y X2). assert (Hy : -1 <= y <= 1) by (unfold y, mgr_y; lra).
  set (n := mgr_alpha m) in *. set (xt := mgr_xt m) in *.
  assert (HI : 0 < INR n + 1) by (pose proof (pos_INR n); lra).
  assert (Hpx : 0 < xt ^ n) by now apply pow_lt.
  set (q := (y / xt) ^ n / (INR n + 1)). set (q1 := / xt ^ n / (INR n + 1)).
  assert (Hq : 0 <= q <= q1).
  { unfold q, q1. split.
    - apply Rmult_le_pos; [now apply even_pow_nonneg|left; now apply Rinv_0_lt_compat].
    - apply Rmult_le_compat_r; [left; now apply Rinv_0_lt_compat|].
      rewrite even_pow_abs by assumption. rewrite <- pow_inv. apply pow_incr. split; [apply Rabs_pos|].
      unfold Rdiv. rewrite Rabs_mult, (Rabs_pos_eq (/ xt)) by (left; now apply Rinv_0_lt_compat).
      rewrite <- (Rmult_1_l (/ xt)) at 2. apply Rmult_le_compat_r; [left; now apply Rinv_0_lt_compat|].
      now apply Rabs_le. }
  assert (E : mgr_norm m * (1 + q1) = PI / 2).
  { unfold mgr_norm, q1. fold n xt. field. repeat split; try lra.
    apply Rgt_not_eq. apply Rlt_gt. assert (0 < (INR n + 1) * xt ^ n) by (apply Rmult_lt_0_compat; lra). lra. }
  assert (B : Rabs (mgr_norm m * y * (1 + q)) <= PI / 2).
  { rewrite <- E, !Rabs_mult, (Rabs_pos_eq (mgr_norm m)), (Rabs_pos_eq (1 + q)) by lra.
    rewrite Rmult_assoc. apply Rmult_le_compat_l; [lra|]. rewrite <- (Rmult_1_l (1 + q1)).
    apply Rmult_le_compat; [apply Rabs_pos|lra|now apply Rabs_le|lra]. }
  apply Rabs_le_inv in B. fold n q in B |- *. lra.
Qed.

Lemma mgr_th_raw_range m X1 X2 : mgr_valid m -> mgr_x0 m <= X1 -> 0 <= X2 <= 1 -> 0 <= mgr_th_raw m X1 X2 <= PI.
Proof.
  intros V H1 H2. pose proof (mgr_thG_range m X2 V H2). pose proof (mgr_thJ_range m X2 V H2).
  unfold mgr_th_raw. destruct (mgr_derefine_poles m); [|assumption].
  destruct (exp_le1 (mgr_smooth m) (mgr_x0 m - X1) (mv_smooth m V) ltac:(lra)) as [E1 E2].
  set (e := exp _) in *. set (G := mgr_thG m X2) in *. set (J := mgr_thJ m X2) in *.
  assert (0 <= (1 - e) * G) by (apply Rmult_le_pos; lra). assert (0 <= e * J) by (apply Rmult_le_pos; lra).
  assert (0 <= (1 - e) * (PI - G)) by (apply Rmult_le_pos; lra). assert (0 <= e * (PI - J)) by (apply Rmult_le_pos; lra).
  lra.
Qed.

(** theta never falls on a pole *)
Lemma mgr_sin_nz m X1 X2 : mgr_valid m -> mgr_x0 m <= X1 -> 0 <= X2 <= 1 -> sin (mgr_th m X1 X2) <> 0.
Proof.
  intros V H1 H2. pose proof (mgr_th_raw_range m X1 X2 V H1 H2) as Hr.
  destruct (mgr_fix_off (mgr_th_raw m X1 X2)) as (A & B & C). fold (mgr_th m X1 X2) in *.
  set (th := mgr_th m X1 X2) in *. set (s := SINGSMALL) in *.
  assert (Hs : 0 < s) by apply SINGSMALL_pos.
  assert (Hs1 : s < 1).
  { unfold s, SINGSMALL. rewrite <- Rinv_1. apply Rinv_lt_contravar; rewrite ?Rmult_1_l;
      [apply pow_lt; lra|]. apply Rlt_pow_R1; [lra|lia]. }
  assert (Hp : 3 < PI). { pose proof PI2_3_2. unfold PI2 in *. lra. }
  apply Rabs_le_inv in C.
  destruct (Rtotal_order th 0) as [L|[E|L]].
  - apply Rlt_not_eq. apply sin_lt_0_var; lra.
  - rewrite E, Rabs_R0 in A. lra.
  - destruct (Rtotal_order th PI) as [K|[E|K]].
    + apply Rgt_not_eq. apply sin_gt_0; lra.
    + rewrite E, Rminus_diag_eq, Rabs_R0 in B by reflexivity. lra.
    + apply Rlt_not_eq. apply sin_lt_0; lra.
Qed.
