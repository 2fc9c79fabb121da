(** C42, continued: the numerical flux, its limits, and the bookkeeping of the moments. *)
From Coq Require Import Reals Arith Lia Lra Psatz Bool FunctionalExtensionality List.
From Flocq Require Import Core.
From Verif.Spec Require Import Tensor GeomSpec SystemSpec Relativity RadSpec RadTransportSpec.
From Verif.Model Require Import Num Robust Geometry LinearAlgebra Relativity RadClosure RadTransport.
From Verif.Proofs Require Import NumR RobustProofs TensorTac LinearAlgebraProofs GeomBase AdmProofs RelProofs RelativityProofs RadProofs FlatWitness.
From Verif.Properties Require Import P_RadClosure P_RadTransform P_RadTransport.
Import ListNotations.
Local Open Scope R_scope.

(** *** the weight of the streaming flux *)
Lemma tanh_exp y : tanh y = 1 - 2 / (exp (2 * y) + 1).
Proof.
  unfold tanh, sinh, cosh. pose proof (exp_pos y) as P. pose proof (exp_pos (- y)) as Q.
  assert (E : exp (2 * y) = exp y * exp y) by (rewrite <- exp_plus; f_equal; ring).
  assert (I : exp (- y) = / exp y) by apply exp_Ropp. rewrite E, I. assert (P2 : 0 < exp y * exp y) by nra. field. repeat split; lra.
Qed.
Lemma tanh_incr x y : x < y -> tanh x < tanh y.
Proof.
  intros H. rewrite !tanh_exp. pose proof (exp_pos (2 * x)). pose proof (exp_pos (2 * y)). assert (exp (2 * x) < exp (2 * y)) by (apply exp_increasing; lra).
  assert (/ (exp (2 * y) + 1) < / (exp (2 * x) + 1)) by (apply Rinv_lt_contravar; nra). unfold Rdiv. lra.
Qed.
Lemma tanh_pos_lt y : 0 < y -> 0 < tanh y < 1.
Proof.
  intros H. rewrite tanh_exp. assert (1 < exp (2 * y)) by (pose proof (exp_ineq1 (2 * y)); lra).
  assert (0 < 2 / (exp (2 * y) + 1)) by (apply Rdiv_lt_0_compat; lra).
  assert (2 / (exp (2 * y) + 1) < 1) by (apply (Rmult_lt_reg_r (exp (2 * y) + 1)); [lra|]; unfold Rdiv; rewrite Rmult_assoc, Rinv_l by lra; lra). lra.
Qed.
Lemma tanh_lower y : 0 < y -> y / (1 + y) <= tanh y.
Proof.
  intros H. rewrite tanh_exp. pose proof (exp_ineq1 (2 * y)).
  replace (y / (1 + y)) with (1 - 2 / (2 + 2 * y)) by (field; lra).
  assert (/ (exp (2 * y) + 1) <= / (2 + 2 * y)) by (apply Rinv_le_contravar; lra). unfold Rdiv. lra.
Qed.
(** tanh y <= y through (1 - y) e^{2y} <= 1 + y, i.e. the derivative of tanh is at most one *)
Lemma tanh_upper y : 0 < y -> tanh y <= y.
Proof.
  intros H.
  assert (D : forall c, 0 <= c <= y -> derivable_pt_lim (fun x => x - tanh x) c (1 - (1 - tanh c ^ 2))).
  { intros c _. apply derivable_pt_lim_minus; [apply derivable_pt_lim_id|].
    pose proof (exp_pos c) as P. pose proof (exp_pos (- c)) as Q.
    assert (C : cosh c <> 0) by (unfold cosh; lra).
    replace (1 - tanh c ^ 2) with ((cosh c * cosh c - sinh c * sinh c) / (cosh c)²) by (unfold tanh, Rsqr; field; exact C).
    apply (derivable_pt_lim_div sinh cosh); [apply derivable_pt_lim_sinh|apply derivable_pt_lim_cosh|exact C]. }
  destruct (MVT_cor2 (fun x => x - tanh x) (fun c => 1 - (1 - tanh c ^ 2)) 0 y H D) as (c & E & _).
  assert (tanh 0 = 0) by (rewrite tanh_exp, Rmult_0_r, exp_0; field). rewrite H0 in E. assert (0 <= tanh c ^ 2) by (apply pow2_ge_0). nra.
Qed.
(** tau is the optical depth of the zone, |kappa dx|.  The weight decreases from 1 to 0: it is
    at most 1/tau, and within 2 exp(-2/(tau + SMALL)) of 1 *)
Theorem C42_mixing : forall kappa dx, let tau := Rabs (kappa * dx) in let a := mixing kappa dx in
  0 < a < 1 /\ (0 < tau -> a <= 1 / tau) /\ 1 - 2 * exp (- (2 / (tau + SMALL))) <= a /\
  (tau - (1 + SMALL)) <= tau * (tau * a) /\ (forall kappa' dx', tau < Rabs (kappa' * dx') -> mixing kappa' dx' < a).
Proof.
  intros kappa dx tau a. pose proof SMALL_pos as Sp. set (s := SMALL (T:=R)) in *. assert (T0 : 0 <= tau) by apply Rabs_pos.
  assert (R1 : forall t, 0 <= t -> ratio 1 t = 1 / (t + s)) by (intros t Ht; rewrite ratio_R; destruct (Rle_dec 0 t); [reflexivity|lra]).
  assert (Y : 0 < 1 / (tau + s)) by (apply Rdiv_lt_0_compat; lra).
  unfold a, mixing. fold tau. rewrite (R1 tau T0). set (y := 1 / (tau + s)) in *.
  assert (Yt : y * (tau + s) = 1) by (unfold y; field; lra).
  split; [apply tanh_pos_lt; exact Y|]. split; [|split; [|split]].
  - intros Tp. pose proof (tanh_upper y Y). apply Rle_trans with y; [assumption|]. unfold y. apply Rmult_le_compat_l; [lra|]. apply Rinv_le_contravar; lra.
  - rewrite tanh_exp. replace (2 / (tau + s)) with (2 * y) by (unfold y; field; lra). rewrite exp_Ropp. pose proof (exp_pos (2 * y)).
    assert (/ (exp (2 * y) + 1) <= / exp (2 * y)) by (apply Rinv_le_contravar; lra). unfold Rdiv. lra.
  - pose proof (tanh_lower y Y) as L. replace (y / (1 + y)) with (1 / (tau + s + 1)) in L by (unfold y; field; lra).
    assert (K : tau * (tau * (1 / (tau + s + 1))) <= tau * (tau * tanh y)) by (apply Rmult_le_compat_l; [lra|]; apply Rmult_le_compat_l; lra).
    assert (M : tau - (1 + s) <= tau * (tau * (1 / (tau + s + 1)))).
    { apply (Rmult_le_reg_r (tau + s + 1)); [lra|]. replace (tau * (tau * (1 / (tau + s + 1))) * (tau + s + 1)) with (tau * tau) by (field; lra). nra. }
    lra.
  - intros k' d' Hlt. unfold mixing. rewrite R1 by lra. apply tanh_incr. unfold y, Rdiv. apply Rmult_lt_compat_l; [lra|]. apply Rinv_lt_contravar; [apply Rmult_lt_0_compat|]; lra.
Qed.
Print Assumptions C42_mixing.

(** *** the flux blends a streaming flux (a = 1) and a diffusive flux (a = 0) *)
Theorem C42_blend : forall pi_of g d rs a vl vr Jl Jr Hl Hr Has,
  let f a := face_flux pi_of g d rs a vl vr Jl Jr Hl Hr Has in
  fst (f a) = a * fst (f 1) + (1 - a) * fst (f 0) /\ forall l, snd (f a) l = a * snd (f 1) l + (1 - a) * snd (f 0) l.
Proof.
  intros pi_of g d rs a vl vr Jl Jr Hl Hr Has f. unfold f, face_flux, side_flux, signal_speed.
  repeat match goal with |- context[match getFluxesFromPrim ?c ?e ?J ?H ?P with _ => _ end] => destruct (getFluxesFromPrim c e J H P) | |- context[match Prim2Con ?c ?e ?J ?H ?P with _ => _ end] => destruct (Prim2Con c e J H P) end.
  destruct (Rlt_bool (f_sdetgam g) SMALL); cbn [fst snd]; split; intros; unfold llf; ring.
Qed.
Print Assumptions C42_blend.

(** *** free streaming: radiation with |F| <= E on both sides.  The flux never takes more than
    the light speed lets through: at most s E_l forwards, at most s E_r backwards; so in a
    zone of width dx a step with 2 s dt <= dx leaves the energy non-negative *)
Lemma dot3_gi_bound alpha beta g ginv gamma gi sg sgg (F : vec) d : adm_consistent alpha beta g ginv gamma gi sg sgg -> (d < 3)%nat ->
  Rabs (sum3 (fun j => gi d j * F j)) <= sqrt (gi d d) * norm_cov gi F.
Proof.
  intros A Hd. pose proof (adm_gamma_sym _ _ _ _ _ _ _ _ A) as Gs. pose proof (adm_gamma_pd _ _ _ _ _ _ _ _ A) as Gp.
  set (x := fun i => sum3 (fun j => F j * gi i j)). set (y := fun i => sum3 (fun j => delta d j * gi i j)).
  assert (GS : symmetric3 gi) by exact (inverse3_symmetric _ _ Gs (adm_inv3 _ _ _ _ _ _ _ _ A)).
  assert (LX : forall i, (i < 3)%nat -> lower3 gamma x i = F i) by (intros i Hi; exact (low_raise _ _ _ _ _ _ _ _ A F i Hi)).
  assert (LY : forall i, (i < 3)%nat -> lower3 gamma y i = delta d i) by (intros i Hi; exact (low_raise _ _ _ _ _ _ _ _ A (delta d) i Hi)).
  assert (DX : forall z, dot3 gamma z x = sum3 (fun i => z i * F i)) by (intros z; rewrite <- low_pair; unfold sum3; rewrite !LX by lia; reflexivity).
  assert (DY : forall z, dot3 gamma z y = z d) by (intros z; rewrite <- low_pair; unfold sum3; rewrite !LY by lia; unfold delta; idx; cbn [Nat.eqb]; ring).
  assert (XX : dot3 gamma x x = dot3 gi F F) by (rewrite DX; unfold x, dot3, sum3; ring).
  assert (Yd : y d = gi d d) by (unfold y, sum3, delta; idx; cbn [Nat.eqb]; ring).
  assert (Xd : x d = sum3 (fun j => gi d j * F j)) by (unfold x, sum3; ring).
  pose proof (cauchy_schwarz gamma Gs Gp x y) as CS. rewrite !DY, XX, Yd, Xd in CS.
  assert (P1 : 0 <= dot3 gi F F) by (rewrite <- XX; apply pd_nonneg; exact Gp). assert (P2 : 0 <= gi d d) by (rewrite <- Yd, <- DY; apply pd_nonneg; exact Gp).
  unfold norm_cov. rewrite <- sqrt_mult by assumption. apply sqrt_le_1 in CS; [|apply Rle_0_sqr|apply Rmult_le_pos; assumption].
  fold (Rsqr (sum3 (fun j => gi d j * F j))) in CS. rewrite sqrt_Rsqr_abs in CS. rewrite (Rmult_comm (gi d d)). exact CS.
Qed.
Lemma stream_bound alpha beta g ginv gamma gi sg sgg (F : vec) E d : adm_consistent alpha beta g ginv gamma gi sg sgg -> (d < 3)%nat -> norm_cov gi F <= E ->
  Rabs (alpha * sum3 (fun j => gi d j * F j) - beta d * E) <= Rmax (Rabs (light_minus alpha beta gi d)) (Rabs (light_plus alpha beta gi d)) * E.
Proof.
  intros A Hd HE. pose proof (adm_lapse_pos _ _ _ _ _ _ _ _ A) as ap. pose proof (dot3_gi_bound _ _ _ _ _ _ _ _ F d A Hd) as B.
  assert (E0 : 0 <= E) by (apply Rle_trans with (norm_cov gi F); [apply sqrt_pos|exact HE]).
  set (f := sum3 (fun j => gi d j * F j)) in *. set (q := sqrt (gi d d)) in *. assert (Q : 0 <= q) by apply sqrt_pos.
  assert (B' : Rabs f <= q * E) by (apply Rle_trans with (q * norm_cov gi F); [exact B|apply Rmult_le_compat_l; assumption]).
  assert (U : - (q * E) <= f <= q * E) by (unfold Rabs in B'; destruct (Rcase_abs f); lra).
  unfold light_minus, light_plus. fold q. set (m := Rmax (Rabs (- beta d - alpha * q)) (Rabs (- beta d + alpha * q))).
  assert (M1 : - m <= - beta d - alpha * q) by (unfold m; pose proof (Rmax_l (Rabs (- beta d - alpha * q)) (Rabs (- beta d + alpha * q))); unfold Rabs at 1 in H; destruct (Rcase_abs (- beta d - alpha * q)); lra).
  assert (M2 : - beta d + alpha * q <= m) by (unfold m; pose proof (Rmax_r (Rabs (- beta d - alpha * q)) (Rabs (- beta d + alpha * q))); unfold Rabs at 1 in H; destruct (Rcase_abs (- beta d + alpha * q)); lra).
  assert (K1 : alpha * f <= alpha * (q * E)) by (apply Rmult_le_compat_l; lra). assert (K2 : alpha * - (q * E) <= alpha * f) by (apply Rmult_le_compat_l; lra).
  apply Rabs_le. split; nra.
Qed.
Definition side_moments (pi_of : PiOf) (gamma : mat) (alpha : R) (rs : Strategy) (v : vec) (J : R) (H : vec) : R * vec :=
  let c := mkClosure v gamma alpha rs in Prim2Con c energy_conserve J H (pi_of c J H).
Theorem C42_streaming : forall pi_of alpha beta g ginv gamma gi sg sgg rs d vl vr Jl Jr Hl Hr Has,
  adm_consistent alpha beta g ginv gamma gi sg sgg -> SMALL (T:=R) <= sg -> (d < 3)%nat ->
  let (El, Fl) := side_moments pi_of gamma alpha rs vl Jl Hl in let (Er, Fr) := side_moments pi_of gamma alpha rs vr Jr Hr in
  norm_cov gi Fl <= El -> norm_cov gi Fr <= Er ->
  let s := Rmax (Rabs (light_minus alpha beta gi d)) (Rabs (light_plus alpha beta gi d)) in
  let f := fst (face_flux pi_of (face_of alpha beta gamma gi sg) d rs 1 vl vr Jl Jr Hl Hr Has) in
  - (sg * (s * Er)) <= f <= sg * (s * El).
Proof.
  intros pi_of alpha beta g ginv gamma gi sg sgg rs d vl vr Jl Jr Hl Hr Has A Hs Hd. unfold side_moments.
  unfold face_flux, side_flux. cbn [f_gamma f_ginv f_alpha f_beta f_sdetgam face_of].
  assert (CF : forall v J H, fst (getFluxesFromPrim (mkClosure v gamma alpha rs) energy_conserve J H (pi_of (mkClosure v gamma alpha rs) J H)) d =
     alpha * sum3 (fun j => gi d j * snd (Prim2Con (mkClosure v gamma alpha rs) energy_conserve J H (pi_of (mkClosure v gamma alpha rs) J H)) j)).
  { intros v J H. unfold getFluxesFromPrim; cbn [fst]. change (c_alpha (mkClosure v gamma alpha rs)) with alpha. unfold raise3Vector, sum3. rewrite !(con_gamma_c _ _ _ _ _ _ _ _ A v rs) by lia. ring. }
  pose proof (CF vl Jl Hl) as Cl. pose proof (CF vr Jr Hr) as Cr. clear CF.
  destruct (getFluxesFromPrim (mkClosure vl gamma alpha rs) energy_conserve Jl Has (pi_of (mkClosure vl gamma alpha rs) Jl Has)).
  destruct (getFluxesFromPrim (mkClosure vr gamma alpha rs) energy_conserve Jr Has (pi_of (mkClosure vr gamma alpha rs) Jr Has)).
  destruct (getFluxesFromPrim (mkClosure vl gamma alpha rs) energy_conserve Jl Hl (pi_of (mkClosure vl gamma alpha rs) Jl Hl)).
  destruct (getFluxesFromPrim (mkClosure vr gamma alpha rs) energy_conserve Jr Hr (pi_of (mkClosure vr gamma alpha rs) Jr Hr)).
  destruct (Prim2Con (mkClosure vl gamma alpha rs) energy_conserve Jl Hl (pi_of (mkClosure vl gamma alpha rs) Jl Hl)) as [El Fl].
  destruct (Prim2Con (mkClosure vr gamma alpha rs) energy_conserve Jr Hr (pi_of (mkClosure vr gamma alpha rs) Jr Hr)) as [Er Fr]. cbn [fst snd] in Cl, Cr.
  intros Bl Br. set (s := Rmax (Rabs (light_minus alpha beta gi d)) (Rabs (light_plus alpha beta gi d))). rewrite (Rlt_bool_false sg SMALL Hs). cbn [fst]. unfold llf, signal_speed. cbn [f_ginv f_alpha f_beta face_of].
  assert (ES : Rmax (Rabs (- alpha * sqrt (gi d d) - beta d)) (Rabs (alpha * sqrt (gi d d) - beta d)) = s) by (unfold s, light_minus, light_plus; apply f_equal2; apply f_equal; ring).
  rewrite ES, Cl, Cr.
  pose proof (stream_bound _ _ _ _ _ _ _ _ Fl El d A Hd Bl) as SL. pose proof (stream_bound _ _ _ _ _ _ _ _ Fr Er d A Hd Br) as SR. fold s in SL, SR.
  pose proof (Rle_abs (alpha * sum3 (fun j => gi d j * Fl j) - beta d * El)). pose proof (Rle_abs (alpha * sum3 (fun j => gi d j * Fr j) - beta d * Er)).
  pose proof (Rle_abs (- (alpha * sum3 (fun j => gi d j * Fl j) - beta d * El))) as N1. pose proof (Rle_abs (- (alpha * sum3 (fun j => gi d j * Fr j) - beta d * Er))) as N2. rewrite Rabs_Ropp in N1, N2.
  destruct (adm_det3 _ _ _ _ _ _ _ _ A) as [Sg _].
  set (x := alpha * sum3 (fun j => gi d j * Fl j) - beta d * El) in *. set (y := alpha * sum3 (fun j => gi d j * Fr j) - beta d * Er) in *.
  match goal with |- _ <= ?e <= _ => replace e with (sg * (/ 2 * (x + y + s * (El - Er)))) by (unfold x, y; ring) end.
  split.
  - replace (- (sg * (s * Er))) with (sg * - (s * Er)) by ring. apply Rmult_le_compat_l; lra.
  - apply Rmult_le_compat_l; lra.
Qed.
Print Assumptions C42_streaming.

(** a row of zones of equal width dx with unit volume element, piecewise-constant states, the
    streaming flux, and 2 s dt <= dx: no zone's energy becomes negative *)
Theorem C42_positive : forall pi_of alpha beta g ginv gamma gi sgg rs d (v : nat -> vec) (J : nat -> R) (H Has : nat -> vec) dt dx i,
  adm_consistent alpha beta g ginv gamma gi 1 sgg -> (d < 3)%nat -> 0 < dx -> 0 <= dt ->
  let m n := side_moments pi_of gamma alpha rs (v n) (J n) (H n) in
  (forall n, norm_cov gi (snd (m n)) <= fst (m n)) ->
  let s := Rmax (Rabs (light_minus alpha beta gi d)) (Rabs (light_plus alpha beta gi d)) in
  2 * s * dt <= dx ->
  let f n := fst (face_flux pi_of (face_of alpha beta gamma gi 1) d rs 1 (v n) (v (S n)) (J n) (J (S n)) (H n) (H (S n)) (Has n)) in
  0 <= fst (m (S i)) - dt / dx * (f (S i) - f i).
Proof.
  intros pi_of alpha beta g ginv gamma gi sgg rs d v J H Has dt dx i A Hd Hx Ht m B s C f.
  assert (S1 : SMALL (T:=R) <= 1). { rewrite SMALL_R. assert (bpow radix2 (-1022) <= bpow radix2 (-4)) by (apply bpow_le; lia). cbn in H0. cbn. lra. }
  assert (K : forall n, - (s * fst (m (S n))) <= f n <= s * fst (m n)).
  { intros n. pose proof (C42_streaming pi_of _ _ _ _ _ _ _ _ rs d (v n) (v (S n)) (J n) (J (S n)) (H n) (H (S n)) (Has n) A S1 Hd) as Q.
    pose proof (B n) as Bn. pose proof (B (S n)) as Bs. unfold m in Bn, Bs |- *. destruct (side_moments pi_of gamma alpha rs (v n) (J n) (H n)). destruct (side_moments pi_of gamma alpha rs (v (S n)) (J (S n)) (H (S n))).
    specialize (Q Bn Bs). cbv zeta in Q. fold s in Q. fold (f n) in Q. cbn [fst]. lra. }
  pose proof (K i) as Ki. pose proof (K (S i)) as Ks. set (E := fst (m (S i))) in *.
  assert (E0 : 0 <= E) by (apply Rle_trans with (norm_cov gi (snd (m (S i)))); [apply sqrt_pos|exact (B (S i))]).
  assert (D : dt / dx * (f (S i) - f i) <= dt / dx * (2 * s * E)) by (apply Rmult_le_compat_l; [apply Rmult_le_pos; [exact Ht|left; apply Rinv_0_lt_compat; exact Hx]|lra]).
  assert (G : dt / dx * (2 * s * E) <= E). { apply (Rmult_le_reg_r dx); [exact Hx|]. replace (dt / dx * (2 * s * E) * dx) with (2 * s * dt * E) by (field; lra). rewrite (Rmult_comm E dx). apply Rmult_le_compat_r; lra. }
  lra.
Qed.
Print Assumptions C42_positive.

(** *** diffusion: matter at rest in flat space, Eddington closure, optical depth tau > 0 per zone *)
Definition flat_face : Face := face_of 1 zero3 delta delta 1.
Lemma rest_closure rs : cW (mkClosure zero3 delta 1 rs) = 1 /\ cW2 (mkClosure zero3 delta 1 rs) = 1.
Proof.
  assert (W : cW (mkClosure zero3 delta 1 rs) = 1).
  { change (1 / sqrt (1 - Rmin (sum3 (fun i => zero3 i * lower3Vector delta zero3 i)) (9999 / 10000)) = 1).
    replace (sum3 (fun i => zero3 i * lower3Vector delta zero3 i)) with 0 by (unfold sum3, zero3; ring). rewrite Rmin_left by lra. rewrite Rminus_0_r, sqrt_1. field. }
  split; [exact W|]. change (cW2 (mkClosure zero3 delta 1 rs)) with (cW (mkClosure zero3 delta 1 rs) * cW (mkClosure zero3 delta 1 rs)). rewrite W. ring.
Qed.
Lemma delta_inv i j : (i < 3)%nat -> (j < 3)%nat -> con_gamma (mkClosure zero3 delta 1 true) i j = delta i j.
Proof. intros Hi Hj. exact (con_gamma_c _ _ _ _ _ _ _ _ eta4_consistent zero3 true i j Hi Hj). Qed.
Lemma Rabs_m1 : Rabs (-1) = 1. Proof. rewrite Rabs_left by lra. ring. Qed.
Lemma rest_flux : forall rs d a Jl Jr (Hl Hr Has : vec), (d < 3)%nat ->
  fst (face_flux pi_eddington flat_face d rs a zero3 zero3 Jl Jr Hl Hr Has) = a * ((Hl d + Hr d) / 2) + (1 - a) * Has d + a * ((Jl - Jr) / 2).
Proof.
  intros rs d a Jl Jr Hl Hr Has Hd. destruct (rest_closure rs) as [W1 W2].
  assert (CG : forall i j, (i < 3)%nat -> (j < 3)%nat -> con_gamma (mkClosure zero3 delta 1 rs) i j = delta i j) by (intros i j Hi Hj; exact (con_gamma_c _ _ _ _ _ _ _ _ eta4_consistent zero3 rs i j Hi Hj)).
  assert (CV : forall i, cov_v (mkClosure zero3 delta 1 rs) i = 0) by (intros i; change (lower3Vector delta zero3 i = 0); unfold lower3Vector, sum3, zero3; ring).
  assert (VV : vvTilPi (mkClosure zero3 delta 1 rs) (fun _ _ => 0) = 0) by (unfold vvTilPi, sum3; rewrite !CV; ring).
  assert (KV : forall i, cov_vTilPi (mkClosure zero3 delta 1 rs) (fun _ _ => 0) i = 0) by (intros i; unfold cov_vTilPi, lower3Vector, con_vTilPi, sum3; ring).
  assert (PE : forall J H, fst (Prim2Con (mkClosure zero3 delta 1 rs) energy_conserve J H (fun _ _ => 0)) = J).
  { intros J H. unfold Prim2Con; cbn [fst]. rewrite W1, W2, VV. change (con_v (mkClosure zero3 delta 1 rs)) with zero3. unfold sum3, zero3. field. }
  assert (PF : forall J H i, snd (Prim2Con (mkClosure zero3 delta 1 rs) energy_conserve J H (fun _ _ => 0)) i = H i).
  { intros J H i. unfold Prim2Con; cbn [snd]. rewrite W1, W2, CV, KV. ring. }
  assert (FF : forall J H, fst (getFluxesFromPrim (mkClosure zero3 delta 1 rs) energy_conserve J H (fun _ _ => 0)) d = H d).
  { intros J H. unfold getFluxesFromPrim; cbn [fst]. change (c_alpha (mkClosure zero3 delta 1 rs)) with 1. unfold raise3Vector, sum3. rewrite !CG, !PF by lia. unfold delta. idx; cbn [Nat.eqb]; ring. }
  unfold face_flux, side_flux, flat_face, signal_speed. cbn [f_gamma f_ginv f_alpha f_beta f_sdetgam face_of]. change (pi_eddington (mkClosure zero3 delta 1 rs) Jl Has) with (fun _ _ : nat => 0). change (pi_eddington (mkClosure zero3 delta 1 rs) Jr Has) with (fun _ _ : nat => 0).
  change (pi_eddington (mkClosure zero3 delta 1 rs) Jl Hl) with (fun _ _ : nat => 0). change (pi_eddington (mkClosure zero3 delta 1 rs) Jr Hr) with (fun _ _ : nat => 0).
  pose proof (FF Jl Has) as F1. pose proof (FF Jr Has) as F2. pose proof (FF Jl Hl) as F3. pose proof (FF Jr Hr) as F4. pose proof (PE Jl Hl) as E1. pose proof (PE Jr Hr) as E2. clear FF PE PF.
  destruct (getFluxesFromPrim (mkClosure zero3 delta 1 rs) energy_conserve Jl Has (fun _ _ => 0)). destruct (getFluxesFromPrim (mkClosure zero3 delta 1 rs) energy_conserve Jr Has (fun _ _ => 0)).
  destruct (getFluxesFromPrim (mkClosure zero3 delta 1 rs) energy_conserve Jl Hl (fun _ _ => 0)). destruct (getFluxesFromPrim (mkClosure zero3 delta 1 rs) energy_conserve Jr Hr (fun _ _ => 0)).
  destruct (Prim2Con (mkClosure zero3 delta 1 rs) energy_conserve Jl Hl (fun _ _ => 0)). destruct (Prim2Con (mkClosure zero3 delta 1 rs) energy_conserve Jr Hr (fun _ _ => 0)). cbn [fst snd] in F1, F2, F3, F4, E1, E2.
  assert (S1 : SMALL (T:=R) <= 1). { rewrite SMALL_R. assert (bpow radix2 (-1022) <= bpow radix2 (-4)) by (apply bpow_le; lia). cbn in H. cbn. lra. }
  rewrite (Rlt_bool_false 1 SMALL S1). cbn [fst]. rewrite F1, F2, F3, F4, E1, E2. unfold llf, zero3.
  assert (D1 : delta d d = 1) by (unfold delta; rewrite Nat.eqb_refl; reflexivity). rewrite D1, sqrt_1.
  replace (- (1) * 1 - 0) with (-1) by ring. replace (1 * 1 - 0) with 1 by ring. replace (1 * 0 - 0) with 0 by ring.
  rewrite Rabs_R0, Rabs_R1, Rabs_m1. rewrite (Rmax_left 1 1), (Rmax_left 0 0) by lra. field.
Qed.
(** In the optically thick limit kappa times the energy flux tends to - dJ/3 + (J_l - J_r)/(2 dx):
    Fick's law where the two reconstructed values meet, plus a diffusion term otherwise.
    The error is of order 1/tau *)
Theorem C42_diffusion : forall rs d kappa dx Jl Jr (Hl Hr dJ : vec) h, (d < 3)%nat -> 0 < kappa -> 0 < dx ->
  Rabs (kappa * Hl d) <= h -> Rabs (kappa * Hr d) <= h ->
  let tau := kappa * dx in
  let f := fst (face_flux pi_eddington flat_face d rs (mixing kappa dx) zero3 zero3 Jl Jr Hl Hr (H_asym dJ kappa)) in
  Rabs (kappa * f - (- dJ d / 3 + (Jl - Jr) / (2 * dx))) <= (h + Rabs (dJ d) / 3 + (1 + SMALL) * Rabs ((Jl - Jr) / (2 * dx))) / tau + kappaH_min / kappa * (Rabs (dJ d) / 3).
Proof.
  intros rs d kappa dx Jl Jr Hl Hr dJ h Hd Kp Dp Bl Br tau f. unfold f. rewrite rest_flux by exact Hd.
  assert (Tp : 0 < tau) by (apply Rmult_lt_0_compat; assumption).
  destruct (C42_mixing kappa dx) as ([A0 A1] & AU & _ & AL & _). rewrite (Rabs_pos_eq (kappa * dx)) in AU, AL by (fold tau; lra). fold tau in AU, AL. specialize (AU Tp).
  set (a := mixing kappa dx) in *. pose proof SMALL_pos as Sp. set (s := SMALL (T:=R)) in *.
  assert (Km : 0 < kappaH_min) by (unfold kappaH_min; apply Rdiv_lt_0_compat; [lra|apply pow_lt; lra]).
  set (D := dJ d) in *. set (q := (Jl - Jr) / (2 * dx)).
  assert (H0 : 0 <= h) by (apply Rle_trans with (Rabs (kappa * Hl d)); [apply Rabs_pos|exact Bl]).
  (* the three errors *)
  set (e1 := a * ((kappa * Hl d + kappa * Hr d) / 2)).
  set (w := 1 - (1 - a) * (kappa / (kappa + kappaH_min))).
  set (e3 := tau * a - 1).
  assert (ID : kappa * (a * ((Hl d + Hr d) / 2) + (1 - a) * H_asym dJ kappa d + a * ((Jl - Jr) / 2)) - (- D / 3 + q) = e1 + w * (D / 3) + e3 * q).
  { unfold e1, w, e3, q, tau, H_asym. fold D. field. split; lra. }
  rewrite ID.
  assert (AT : a * tau <= 1). { apply (Rmult_le_compat_r tau) in AU; [|lra]. replace (1 / tau * tau) with 1 in AU by (field; lra). exact AU. }
  assert (E1 : Rabs e1 <= h / tau).
  { unfold e1. rewrite Rabs_mult, (Rabs_pos_eq a) by lra.
    assert (Rabs ((kappa * Hl d + kappa * Hr d) / 2) <= h). { unfold Rdiv. rewrite Rabs_mult, (Rabs_pos_eq (/ 2)) by lra. pose proof (Rabs_triang (kappa * Hl d) (kappa * Hr d)). lra. }
    apply Rle_trans with (a * h); [apply Rmult_le_compat_l; lra|]. replace (h / tau) with (1 / tau * h) by (field; lra). apply Rmult_le_compat_r; assumption. }
  assert (E2 : 0 <= w <= 1 / tau + kappaH_min / kappa).
  { unfold w. assert (KK : kappa / (kappa + kappaH_min) = 1 - kappaH_min / (kappa + kappaH_min)) by (field; lra). rewrite KK.
    set (z := kappaH_min / (kappa + kappaH_min)). assert (Z0 : 0 < z) by (apply Rdiv_lt_0_compat; lra). assert (Z1 : z <= kappaH_min / kappa) by (apply Rmult_le_compat_l; [lra|]; apply Rinv_le_contravar; lra).
    assert (Z2 : z < 1) by (unfold z; apply (Rmult_lt_reg_r (kappa + kappaH_min)); [lra|]; unfold Rdiv; rewrite Rmult_assoc, Rinv_l by lra; lra).
    split; nra. }
  assert (E3 : Rabs e3 <= (1 + s) / tau).
  { unfold e3. apply Rabs_le. split.
    - apply (Rmult_le_reg_r tau); [exact Tp|]. replace (- ((1 + s) / tau) * tau) with (- (1 + s)) by (field; lra). nra.
    - assert (0 < (1 + s) / tau) by (apply Rdiv_lt_0_compat; lra). nra. }
  pose proof (Rabs_triang (e1 + w * (D / 3)) (e3 * q)) as T1. pose proof (Rabs_triang e1 (w * (D / 3))) as T2. rewrite !Rabs_mult in *. rewrite (Rabs_pos_eq w) in * by lra.
  assert (D3 : Rabs (D / 3) = Rabs D / 3) by (unfold Rdiv; rewrite Rabs_mult, (Rabs_pos_eq (/ 3)) by lra; reflexivity). rewrite D3 in *.
  pose proof (Rabs_pos D) as PD. pose proof (Rabs_pos q) as PQ.
  assert (X2 : w * (Rabs D / 3) <= (1 / tau + kappaH_min / kappa) * (Rabs D / 3)) by (apply Rmult_le_compat_r; lra).
  assert (X3 : Rabs e3 * Rabs q <= (1 + s) / tau * Rabs q) by (apply Rmult_le_compat_r; assumption).
  replace ((h + Rabs D / 3 + (1 + s) * Rabs q) / tau + kappaH_min / kappa * (Rabs D / 3)) with (h / tau + (1 / tau + kappaH_min / kappa) * (Rabs D / 3) + (1 + s) / tau * Rabs q) by (field; lra).
  lra.
Qed.
Print Assumptions C42_diffusion.
(** states that join continuously: Fick's law *)
Theorem C42_fick : forall rs d kappa dx J (Hl Hr dJ : vec) h, (d < 3)%nat -> 0 < kappa -> 0 < dx ->
  Rabs (kappa * Hl d) <= h -> Rabs (kappa * Hr d) <= h ->
  let f := fst (face_flux pi_eddington flat_face d rs (mixing kappa dx) zero3 zero3 J J Hl Hr (H_asym dJ kappa)) in
  Rabs (kappa * f - - dJ d / 3) <= (h + Rabs (dJ d) / 3) / (kappa * dx) + kappaH_min / kappa * (Rabs (dJ d) / 3).
Proof.
  intros rs d kappa dx J Hl Hr dJ h Hd Kp Dp Bl Br f. pose proof (C42_diffusion rs d kappa dx J J Hl Hr dJ h Hd Kp Dp Bl Br) as K. cbv zeta in K. fold f in K.
  replace ((J - J) / (2 * dx)) with 0 in K by (field; lra). rewrite Rabs_R0, Rmult_0_r, !Rplus_0_r in K. exact K.
Qed.
Print Assumptions C42_fick.
(** piecewise-constant states (ReconType::constant): the two sides are the zone averages and
    J_r - J_l = dx dJ, so the flux is 5/2 times too large however fine or thick the zones *)
Theorem C42_fick_refuted : forall rs d kappa dx Jl Jr (Hl Hr dJ : vec) h, (d < 3)%nat -> 0 < kappa -> 0 < dx ->
  Rabs (kappa * Hl d) <= h -> Rabs (kappa * Hr d) <= h -> dJ d = (Jr - Jl) * (1 / dx) ->
  let f := fst (face_flux pi_eddington flat_face d rs (mixing kappa dx) zero3 zero3 Jl Jr Hl Hr (H_asym dJ kappa)) in
  Rabs (kappa * f - 5 / 2 * (- dJ d / 3)) <= (h + (1 + SMALL) * Rabs (dJ d)) / (kappa * dx) + kappaH_min / kappa * (Rabs (dJ d) / 3).
Proof.
  intros rs d kappa dx Jl Jr Hl Hr dJ h Hd Kp Dp Bl Br E f. pose proof (C42_diffusion rs d kappa dx Jl Jr Hl Hr dJ h Hd Kp Dp Bl Br) as K. cbv zeta in K. fold f in K.
  replace ((Jl - Jr) / (2 * dx)) with (- (dJ d) / 2) in K by (rewrite E; field; lra).
  replace (5 / 2 * (- dJ d / 3)) with (- dJ d / 3 + - dJ d / 2) by field.
  assert (A2 : Rabs (- dJ d / 2) = Rabs (dJ d) / 2) by (unfold Rdiv; rewrite Rabs_mult, Rabs_Ropp, (Rabs_pos_eq (/ 2)) by lra; reflexivity). rewrite A2 in K.
  apply Rle_trans with (1 := K). apply Rplus_le_compat_r. apply Rmult_le_compat_r; [left; apply Rinv_0_lt_compat; apply Rmult_lt_0_compat; assumption|].
  pose proof SMALL_pos. pose proof (Rabs_pos (dJ d)). nra.
Qed.
Print Assumptions C42_fick_refuted.
Example C42_diffusion_nonvacuous : let dJ := v3 3 0 0 in let f := fst (face_flux pi_eddington flat_face 0 true (mixing 10000 1) zero3 zero3 1 1 zero3 zero3 (H_asym dJ 10000)) in
  Rabs (10000 * f + 1) <= 1 / 1000.
Proof.
  intros dJ f. pose proof (C42_fick true 0 10000 1 1 zero3 zero3 dJ 0 ltac:(lia) ltac:(lra) ltac:(lra)) as K. unfold zero3 in K at 1 2. rewrite Rmult_0_r, Rabs_R0 in K. specialize (K (Rle_refl 0) (Rle_refl 0)). cbv zeta in K. fold f in K.
  change (dJ 0%nat) with 3 in K. rewrite (Rabs_pos_eq 3) in K by lra.
  assert (kappaH_min <= 1) by (unfold kappaH_min; apply (Rmult_le_reg_r (10 ^ 20)); [apply pow_lt; lra|]; unfold Rdiv; rewrite Rmult_assoc, Rinv_l by (apply pow_nonzero; lra); assert (1 <= 10 ^ 20) by (apply pow_R1_Rle; lra); lra).
  replace (10000 * f - - (3) / 3) with (10000 * f + 1) in K by field. lra.
Qed.
Print Assumptions C42_diffusion_nonvacuous.

(** *** gradient of J: exact for every affine function of the coordinates, at the faces of all
    directions and in one, two or three dimensions; inactive directions have no gradient *)
Theorem C42_gradient : forall ndim (dx : vec) (x0 G : vec) c s d k j i, (1 <= ndim <= 3)%nat -> (forall q, (q < 3)%nat -> dx q <> 0) ->
  (s < 3)%nat -> (d < ndim)%nat -> (1 <= i)%nat -> (1 <= j \/ ndim < 2)%nat -> (1 <= k \/ ndim < 3)%nat ->
  let centre q n := x0 q + dx q * (INR n + / 2) in
  let J k j i := c + G 0%nat * centre 0%nat i + (if Nat.ltb 1 ndim then G 1%nat * centre 1%nat j else 0) + (if Nat.ltb 2 ndim then G 2%nat * centre 2%nat k else 0) in
  grad_J ndim dx J s d k j i = if Nat.ltb s ndim then G s else 0.
Proof.
  intros ndim dx x0 G c s d k j i Hn Hdx Hs Hd Hi Hj Hk centre J. unfold grad_J, J, centre.
  pose proof (Hdx 0%nat ltac:(lia)) as D0. pose proof (Hdx 1%nat ltac:(lia)) as D1. pose proof (Hdx 2%nat ltac:(lia)) as D2.
  assert (N : ndim = 1%nat \/ ndim = 2%nat \/ ndim = 3%nat) by lia.
  destruct N as [-> | [-> | ->]]; (destruct s as [|[|[|]]]; try lia); (destruct d as [|[|[|]]]; try lia);
  cbn [Nat.ltb Nat.leb]; rewrite ?Nat.add_0_r, ?Nat.sub_0_r, ?plus_INR, ?(minus_INR i 1), ?(minus_INR j 1), ?(minus_INR k 1) by lia; change (INR 1) with 1; field; assumption.
Qed.
Print Assumptions C42_gradient.
Example C42_gradient_nonvacuous : grad_J 3 (fun _ => 1 / 10) (fun k j i => 2 + 5 * ((INR i + / 2) / 10) + 7 * ((INR j + / 2) / 10) - ((INR k + / 2) / 10)) 1 2 4 4 4 = 7.
Proof. unfold grad_J. cbn [Nat.ltb Nat.leb Nat.add Nat.sub]. rewrite !INR_IZR_INZ. cbn [Z.of_nat Pos.of_succ_nat Pos.succ]. field. Qed.

(** *** bounds applied to the reconstructed states (ReconFixupStrategy::bounds) *)
Lemma face_W gamma vp : positive_definite3 gamma -> let W := GetLorentzFactor vp gamma in 1 <= W /\ W * W = 1 + dot3 gamma vp vp.
Proof.
  intros Gp W. pose proof (pd_nonneg gamma Gp vp) as P.
  assert (W2 : W * W = 1 + dot3 gamma vp vp) by (unfold W, GetLorentzFactor; rewrite sqrt_sqrt; [reflexivity|unfold dot3 in P; lra]).
  assert (W0 : 0 <= W) by apply sqrt_pos. split; [nra|exact W2].
Qed.
Lemma clipped_speed Wc gamma vp : positive_definite3 gamma -> 1 < Wc -> let W := GetLorentzFactor vp gamma in Wc < W ->
  let v := side_velocity true Wc gamma vp in dot3 gamma v v = (Wc * Wc - 1) / (Wc * Wc * (W * W - 1)).
Proof.
  intros Gp Hc W HW v. destruct (face_W gamma vp Gp) as [W1 W2]. fold W in W1, W2.
  unfold v, side_velocity. fold W. rewrite (Rlt_bool_true Wc W HW). cbn [andb].
  set (r := sqrt (Wc * Wc - 1)). assert (R2 : r * r = Wc * Wc - 1) by (unfold r; apply sqrt_sqrt; nra).
  transitivity (dot3 gamma vp vp * (r * r) / ((W * W - 1) * (W * W - 1) * (Wc * Wc))).
  - unfold dot3, sum3. field. split; nra.
  - rewrite R2. replace (dot3 gamma vp vp) with (W * W - 1) by lra. field. split; nra.
Qed.
Theorem C42_face_bounds : forall gamma alpha rs Wc J_floor xi_ceiling vp J (h : vec), positive_definite3 gamma -> 1 < Wc -> 0 < J_floor -> 0 < xi_ceiling ->
  let v := side_velocity true Wc gamma vp in let c := mkClosure v gamma alpha rs in
  let J' := side_J true J_floor J in let H' := side_H true xi_ceiling c J' h in
  dot3 gamma v v < 1 /\ J_floor <= J' /\ (J_floor <= J -> J' = J) /\ flux_xi c J' H' <= xi_ceiling /\
  (flux_xi c J' (fun i => J' * h i) <= xi_ceiling -> H' = fun i => J' * h i) /\ exists k, 0 < k <= 1 /\ forall i, H' i = k * (J' * h i).
Proof.
  intros gamma alpha rs Wc J_floor xi_ceiling vp J h Gp Hc Jf Xc v c J' H'.
  assert (JJ : J_floor <= J') by apply Rmax_r.
  split. { destruct (face_W gamma vp Gp) as [W1 W2]. destruct (Rle_or_lt (GetLorentzFactor vp gamma) Wc) as [L|L].
    - unfold v, side_velocity. rewrite (Rlt_bool_false Wc _ L). cbn [andb]. set (W := GetLorentzFactor vp gamma) in *.
      replace (dot3 gamma (fun i => vp i / W) (fun i => vp i / W)) with (dot3 gamma vp vp / (W * W)) by (unfold dot3, sum3; field; lra).
      apply (Rmult_lt_reg_r (W * W)); [nra|]. unfold Rdiv. rewrite Rmult_assoc, Rinv_l by nra. lra.
    - unfold v. rewrite (clipped_speed Wc gamma vp Gp Hc L). set (W := GetLorentzFactor vp gamma) in *. assert (Wc * Wc < W * W) by nra.
      apply (Rmult_lt_reg_r (Wc * Wc * (W * W - 1))); [apply Rmult_lt_0_compat; nra|]. unfold Rdiv. rewrite Rmult_assoc, Rinv_l by (apply Rgt_not_eq; apply Rmult_lt_0_compat; nra). clear - H Hc. assert (1 < Wc * Wc) by nra. assert (0 < (Wc * Wc - 1) * (W * W - 1)) by (apply Rmult_lt_0_compat; lra). lra. }
  split; [exact JJ|]. split; [intros K; apply Rmax_left; exact K|].
  assert (HF : forall k H, 0 <= k -> flux_xi c J' (fun i => H i * k) = k * flux_xi c J' H).
  { intros k H Hk. unfold flux_xi. replace (flux_sq c (fun i => H i * k)) with (k * k * flux_sq c H) by (unfold flux_sq, contractCov3Vectors, contractConCov3Vectors, sum3; ring).
    destruct (Rle_or_lt 0 (flux_sq c H)) as [P|P].
    - rewrite sqrt_mult by (first [apply Rle_0_sqr|exact P]). rewrite sqrt_square by exact Hk. unfold Rdiv. ring.
    - rewrite (sqrt_neg_0 (flux_sq c H)) by lra. rewrite sqrt_neg_0; [unfold Rdiv; ring|]. assert (0 <= k * k) by apply Rle_0_sqr. nra. }
  unfold H', side_H. destruct (Rlt_bool_spec xi_ceiling (flux_xi c J' (fun i => J' * h i))) as [L|L].
  - set (xi := flux_xi c J' (fun i => J' * h i)) in *.
    assert (Kp : 0 < xi_ceiling / xi) by (apply Rdiv_lt_0_compat; lra).
    split; [rewrite HF by lra; fold xi; right; field; lra|]. split; [lra|]. exists (xi_ceiling / xi). split.
    + split; [exact Kp|]. apply (Rmult_le_reg_r xi); [lra|]. unfold Rdiv. rewrite Rmult_assoc, Rinv_l by lra. lra.
    + intros i. ring.
  - split; [exact L|]. split; [reflexivity|]. exists 1. split; [lra|]. intros i. ring.
Qed.
Print Assumptions C42_face_bounds.
(** but the clipped velocity does not have the Lorentz factor W_ceiling: the rescaling divides
    by W^2 - 1 instead of its square root *)
Theorem C42_ceiling_refuted : forall gamma Wc vp, positive_definite3 gamma -> 1 < Wc -> let W := GetLorentzFactor vp gamma in Wc < W ->
  let v := side_velocity true Wc gamma vp in
  (lorentz_of gamma v Wc <-> W * W = 2) /\ (2 < W * W -> Wc * Wc * (1 - dot3 gamma v v) > 1) /\ (W * W < 2 -> Wc * Wc * (1 - dot3 gamma v v) < 1).
Proof.
  intros gamma Wc vp Gp Hc W HW v. pose proof (clipped_speed Wc gamma vp Gp Hc HW) as E. cbv zeta in E. fold W in E. fold v in E.
  assert (WW : Wc * Wc < W * W) by nra. assert (C1 : 0 < Wc * Wc - 1) by nra.
  assert (K : Wc * Wc * (1 - dot3 gamma v v) = Wc * Wc - (Wc * Wc - 1) / (W * W - 1)) by (rewrite E; field; split; nra).
  set (t := (Wc * Wc - 1) / (W * W - 1)) in *. assert (Tt : t * (W * W - 1) = Wc * Wc - 1) by (unfold t; field; nra).
  split; [|split].
  - unfold lorentz_of. rewrite K. split.
    + intros [_ H]. assert (t = Wc * Wc - 1) by lra. rewrite H0 in Tt. nra.
    + intros H. rewrite H in Tt. split; [lra|]. lra.
  - intros H. rewrite K. nra.
  - intros H. rewrite K. nra.
Qed.
Print Assumptions C42_ceiling_refuted.
Example C42_bounds_nonvacuous : let vp := v3 3 0 0 in GetLorentzFactor vp delta * GetLorentzFactor vp delta = 10 /\ 2 < GetLorentzFactor vp delta.
Proof.
  intros vp. assert (E : GetLorentzFactor vp delta = sqrt 10) by (unfold GetLorentzFactor, sum3, vp, v3, delta; cbn [Nat.eqb]; f_equal; ring).
  rewrite E. split; [apply sqrt_sqrt; lra|]. replace 2 with (sqrt (2 * 2)) by (apply sqrt_square; lra). apply sqrt_lt_1; lra.
Qed.

(** *** conversion of a zone *)
(** from primitives to conserved and back: energy and flux are recovered; the scaled flux is
    H / (J + SMALL), a relative error of SMALL / (J + SMALL) *)
Theorem C42_zone_roundtrip : forall alpha beta g ginv gamma gi sg sgg rs vp Pi J (h : vec),
  adm_consistent alpha beta g ginv gamma gi sg sgg -> let W := GetLorentzFactor vp gamma in W <= 100 -> let v i := vp i / W in
  let c := mkClosure v gamma alpha rs in c2p_lam c Pi <> 0 -> 0 < J ->
  let hup i := sum3 (fun j => gi i j * h j) in dot3 gamma hup hup - dot3 gamma v hup * dot3 gamma v hup < 1 ->
  let '(dE, dF) := MomentPrim2Con (fun _ _ _ => Pi) gamma alpha sg rs vp J h in
  let '(J', h', dns, ok) := MomentCon2Prim (fun _ _ _ => Pi) gamma alpha sg rs vp dE dF in
  ok = true /\ J' = J /\ dns = (dE, dF) /\ forall i, (i < 3)%nat -> h' i = h i * (J / (J + SMALL)).
Proof.
  intros alpha beta g ginv gamma gi sg sgg rs vp Pi J h A W W100 v c L Jp hup X.
  destruct (stored_velocity gamma vp (adm_gamma_sym _ _ _ _ _ _ _ _ A) (adm_gamma_pd _ _ _ _ _ _ _ _ A)) as (W1 & _ & Lz & Hv). fold W in W1, Lz, Hv. specialize (Hv W100). fold v in Lz, Hv.
  destruct (adm_det3 _ _ _ _ _ _ _ _ A) as [Sg _].
  unfold MomentPrim2Con, MomentCon2Prim. fold W. change (fun i => vp i / W) with v. fold c.
  assert (HL : forall i, (i < 3)%nat -> (fun i => J * h i) i = lower3 gamma (fun i => J * hup i) i).
  { intros i Hi. pose proof (low_raise _ _ _ _ _ _ _ _ A h i Hi) as Q. transitivity (J * lower3 gamma (fun k => sum3 (fun j => h j * gi k j)) i); [rewrite Q; reflexivity|]. unfold lower3, hup, sum3. ring. }
  assert (XJ : dot3 gamma (fun i => J * hup i) (fun i => J * hup i) - dot3 gamma v (fun i => J * hup i) * dot3 gamma v (fun i => J * hup i) < J * J).
  { replace (dot3 gamma (fun i => J * hup i) (fun i => J * hup i)) with (J * J * dot3 gamma hup hup) by (unfold dot3, sum3; ring).
    replace (dot3 gamma v (fun i => J * hup i)) with (J * dot3 gamma v hup) by (unfold dot3, sum3; ring). assert (0 < J * J) by nra. replace (J * J) with (J * J * 1) at 2 by ring. match goal with |- ?e < _ => replace e with (J * J * (dot3 gamma hup hup - dot3 gamma v hup * dot3 gamma v hup)) by ring end. apply Rmult_lt_compat_l; assumption. }
  pose proof (C29_success _ _ _ _ _ _ _ _ v W rs Pi J (fun i => J * h i) (fun i => J * hup i) A Lz Hv L HL Jp XJ) as K. fold c in K. cbv zeta in K.
  destruct (Prim2Con c energy_conserve J (fun i => J * h i) Pi) as [E F].
  replace (sg * E * (1 / sg)) with E by (field; lra). replace (fun i => sg * F i * (1 / sg)) with F by (apply functional_extensionality; intros i; field; lra).
  destruct (Con2Prim c energy_conserve E F Pi) as [[J' H'] st]. destruct K as (-> & -> & K). split; [reflexivity|]. split; [reflexivity|]. split; [reflexivity|].
  intros i Hi. rewrite (K i Hi), ratio_R. pose proof SMALL_pos. destruct (Rle_dec 0 J) as [_|N]; [|lra]. field. lra.
Qed.
Print Assumptions C42_zone_roundtrip.

(** *** failure flag: one per zone, written by each species *)
Theorem C42_flag : forall flag_of initial, species_flag flag_of [0%nat] initial = flag_of 0%nat.
Proof. reflexivity. Qed.
(** with several species the last one to finish decides: a failed species is forgotten *)
Theorem C42_flag_refuted : forall flag_of order s initial, flag_of s = true -> species_flag flag_of (order ++ [s]) initial = true.
Proof. intros flag_of order s initial H. unfold species_flag. rewrite fold_left_app. exact H. Qed.
Print Assumptions C42_flag_refuted.
Example C42_flag_nonvacuous : let flag_of s := negb (Nat.eqb s 0) in species_flag flag_of [0; 1; 2]%nat true = true /\ species_flag flag_of [2; 1; 0]%nat true = false.
Proof. split; reflexivity. Qed.
(** a beam at half intensity crossing a face in flat space: with a = 1 the flux is 3/4 between
    a bright (E = 1) and a dark (E = 0) zone, within the bounds 0 and 1 *)
Example C42_streaming_nonvacuous : let H := v3 (1/2) 0 0 in
  norm_cov delta H <= 1 /\ fst (side_moments pi_eddington delta 1 true zero3 1 H) = 1 /\
  fst (face_flux pi_eddington flat_face 0 true 1 zero3 zero3 1 0 H zero3 zero3) = 3 / 4.
Proof.
  intros H. split; [|split].
  - unfold norm_cov. replace (dot3 delta H H) with (1 / 2 * (1 / 2)) by (unfold dot3, sum3, delta, H, v3; cbn [Nat.eqb]; ring). rewrite sqrt_square; lra.
  - destruct (rest_closure true) as [W1 W2]. unfold side_moments, Prim2Con; cbn [fst]. rewrite W1, W2.
    replace (vvTilPi (mkClosure zero3 delta 1 true) (pi_eddington (mkClosure zero3 delta 1 true) 1 H)) with 0 by (unfold vvTilPi, con_vTilPi, pi_eddington, sum3; ring).
    change (con_v (mkClosure zero3 delta 1 true)) with zero3. unfold sum3, zero3. field.
  - rewrite rest_flux by lia. unfold H, v3, zero3. field.
Qed.
Example C42_roundtrip_nonvacuous : let vp := v3 3 0 0 in let Pi : mat := fun _ _ => 0 in let c := mkClosure (fun i => vp i / GetLorentzFactor vp delta) delta 1 true in
  GetLorentzFactor vp delta <= 100 /\ 0 < c2p_lam c Pi.
Proof.
  intros vp Pi c. split; [|apply C29_eddington_regular; intros; reflexivity].
  destruct C42_bounds_nonvacuous as [E G]. fold vp in E, G. nra.
Qed.
