(** C56: parameters derived from the black hole's spin and the mesh. *)
From Coq Require Import Reals Lra Psatz Lia.
From Coquelicot Require Import Coquelicot.
From Flocq Require Import Core.
From Verif.Model Require Import FmksSetup Geometry Modified.
From Verif.Spec Require Import OrbitSpec Tensor GeomSpec SystemSpec.
From Verif.Proofs Require Import OrbitProofs TransformProofs.
From Verif.Properties Require Import P_Geometry.
Local Open Scope R_scope.

(** ** the horizon *)
Theorem C56_horizon (a : R) : -1 <= a <= 1 -> outer_horizon a (fmks_Rh a) /\ exp (fmks_xh a) = fmks_Rh a.
Proof.
  intros H. assert (S2 : sqrt (1 - a * a) * sqrt (1 - a * a) = 1 - a * a) by (apply sqrt_sqrt; nra).
  assert (S0 := sqrt_pos (1 - a * a)). unfold fmks_xh, fmks_Rh. set (h := sqrt (1 - a * a)) in *. clearbody h.
  split; [|apply exp_ln; lra]. split; [nra|]. intros r' E.
  destruct (Rle_or_lt r' (1 + h)) as [G|G]; [exact G|]. exfalso. nra.
Qed.
Print Assumptions C56_horizon.

(** ** the innermost stable circular orbits *)
Lemma cbrt_pos x : 0 < x -> 0 < cbrt x /\ cbrt x ^ 3 = x.
Proof.
  intros H. unfold cbrt. rewrite Rlt_bool_false by lra. rewrite Rlt_bool_true by lra.
  assert (P : 0 < Rpower x (/ 3)) by (unfold Rpower; apply exp_pos). split; [exact P|].
  rewrite <- Rpower_pow by exact P. rewrite Rpower_mult. replace (/ 3 * INR 3) with 1 by (cbn [INR]; field). apply Rpower_1; exact H.
Qed.
Lemma cube_eq x y : 0 < x -> 0 < y -> x ^ 3 = y ^ 3 -> x = y.
Proof. intros Hx Hy E. assert (F : (x - y) * (x * x + x * y + y * y) = 0) by lra. apply Rmult_integral in F. destruct F as [F|F]; [lra|nra]. Qed.
(** what the two cube roots give *)
Lemma Z1_spec a : -1 < a < 1 -> let Z := fmks_Z1 a in
  fmks_Rh a < Z /\ Z <= 3 /\ Z ^ 3 - 3 * Z ^ 2 + 3 * a ^ 2 * Z - a ^ 2 = 0 /\ (Z = 3 -> a = 0).
Proof.
  intros H Z. destruct (cbrt_pos (1 + a) ltac:(lra)) as [P1 P3]. destruct (cbrt_pos (1 - a) ltac:(lra)) as [Q1 Q3].
  destruct (cbrt_pos (1 - a * a) ltac:(nra)) as [R1 R3].
  unfold Z, fmks_Z1. set (p := cbrt (1 + a)) in *. set (q := cbrt (1 - a)) in *.
  assert (E : cbrt (1 - a * a) = p * q).
  { apply cube_eq; [exact R1|nra|]. rewrite R3. replace ((p * q) ^ 3) with (p ^ 3 * q ^ 3) by ring. rewrite P3, Q3. ring. }
  rewrite E. clear E R1 R3.
  assert (Ea : a = (p ^ 3 - q ^ 3) / 2) by lra. assert (E1 : p ^ 3 + q ^ 3 = 2) by lra.
  assert (Pq : 0 < p * q) by nra.
  split; [|split; [|split]].
  - unfold fmks_Rh. assert (S2 : sqrt (1 - a * a) * sqrt (1 - a * a) = (p * q) ^ 3).
    { rewrite sqrt_sqrt by nra. replace ((p * q) ^ 3) with (p ^ 3 * q ^ 3) by ring. rewrite P3, Q3. ring. }
    assert (S0 := sqrt_pos (1 - a * a)). set (h := sqrt (1 - a * a)) in *. clearbody h.
    destruct (Rlt_or_le h (p * q * (p + q))) as [G|G]; [lra|]. exfalso.
    assert (0 < p * q * (p + q)) by (apply Rmult_lt_0_compat; lra).
    assert ((p * q * (p + q)) * (p * q * (p + q)) <= h * h) by (apply Rmult_le_compat; lra).
    assert (T : (p * q) ^ 3 < (p * q * (p + q)) * (p * q * (p + q))); [|lra].
    replace (p * q * (p + q) * (p * q * (p + q))) with ((p * q) ^ 3 + (p * q) ^ 2 * (p * p + q * q + p * q)) by ring.
    assert (0 < (p * q) ^ 2 * (p * p + q * q + p * q)); [|lra]. apply Rmult_lt_0_compat; [apply pow_lt; lra|nra].
  - assert (T : 0 <= (p + q) * (p - q) ^ 2) by (apply Rmult_le_pos; [lra|apply pow2_ge_0]).
    replace ((p + q) * (p - q) ^ 2) with (p ^ 3 + q ^ 3 - p * q * (p + q)) in T by ring. lra.
  - rewrite Ea. set (u := p * q * (p + q)).
    assert (U : u ^ 3 = (p * q) ^ 3 * (2 + 3 * u)) by (unfold u; rewrite <- E1; ring).
    assert (A : ((p ^ 3 - q ^ 3) / 2) ^ 2 = 1 - (p * q) ^ 3).
    { transitivity (((p ^ 3 + q ^ 3) / 2) ^ 2 - (p * q) ^ 3); [field|]. rewrite E1. field. }
    rewrite A. replace ((1 + u) ^ 3 - 3 * (1 + u) ^ 2 + 3 * (1 - (p * q) ^ 3) * (1 + u) - (1 - (p * q) ^ 3))
      with (u ^ 3 - (p * q) ^ 3 * (2 + 3 * u)) by ring. lra.
  - intros T. assert (T' : (p + q) * (p - q) ^ 2 = 0).
    { replace ((p + q) * (p - q) ^ 2) with (p ^ 3 + q ^ 3 - p * q * (p + q)) by ring. lra. }
    apply Rmult_integral in T'. destruct T' as [T'|T']; [lra|]. assert (Epq : p = q) by nra. rewrite Ea, Epq. field.
Qed.

(** radii of the innermost stable orbits, as roots of the quadratic factors of the quartic *)
Definition isco_p (a : R) : R := let Z := fmks_Z1 a in let W := sqrt (3 * a ^ 2 + Z ^ 2) in 3 + W - sqrt ((3 - Z) * (3 + Z + 2 * W)).
Definition isco_r (a : R) : R := let Z := fmks_Z1 a in let W := sqrt (3 * a ^ 2 + Z ^ 2) in 3 + W + sqrt ((3 - Z) * (3 + Z + 2 * W)).
Lemma isco_facts a : -1 < a < 1 -> let Z := fmks_Z1 a in let W := sqrt (3 * a ^ 2 + Z ^ 2) in
  fmks_Rh a < isco_p a <= isco_r a /\
  (forall r, 0 < r -> (r ^ 2 - 6 * r - 3 * a ^ 2) ^ 2 = 64 * a ^ 2 * r <-> r = isco_p a \/ r = isco_r a) /\
  isco_p a ^ 2 - 6 * isco_p a - 3 * a ^ 2 <= 0 <= isco_r a ^ 2 - 6 * isco_r a - 3 * a ^ 2 /\
  (isco_p a ^ 2 - 6 * isco_p a - 3 * a ^ 2 = 0 \/ isco_r a ^ 2 - 6 * isco_r a - 3 * a ^ 2 = 0 -> a = 0) /\ (a = 0 -> isco_p a = isco_r a).
Proof.
  intros H Z W. destruct (Z1_spec a H) as (Z1 & Z3 & ZC & Za). fold Z in Z1, Z3, ZC, Za. destruct (C56_horizon a ltac:(lra)) as [[Hh _] _].
  assert (Hh1 : 1 <= fmks_Rh a) by (unfold fmks_Rh; assert (Q := sqrt_pos (1 - a * a)); lra).
  set (h := fmks_Rh a) in *. clearbody h.
  assert (W2 : W * W = 3 * a ^ 2 + Z ^ 2) by (apply sqrt_sqrt; nra).
  assert (W0 : 0 <= W) by apply sqrt_pos. assert (Wp : Z <= W) by nra.
  assert (K2 : sqrt ((3 - Z) * (3 + Z + 2 * W)) * sqrt ((3 - Z) * (3 + Z + 2 * W)) = (3 - Z) * (3 + Z + 2 * W)) by (apply sqrt_sqrt; nra).
  assert (K0 := sqrt_pos ((3 - Z) * (3 + Z + 2 * W))).
  unfold isco_p, isco_r. fold Z. fold W. set (k := sqrt ((3 - Z) * (3 + Z + 2 * W))) in *.
  assert (Kk : a = 0 -> k = 0).
  { intros Ea. assert (Z = 3); [|subst a; assert (k * k = 0) by (rewrite K2, H0; ring); nra].
    assert (F : Z ^ 2 * (Z - 3) = 0) by (rewrite Ea in ZC; lra). apply Rmult_integral in F. destruct F; [nra|lra]. }
  clearbody k W Z.
  assert (Ek : (3 - Z) ^ 2 <= k * k) by (rewrite K2; nra). assert (Gk : 3 - Z <= k) by nra.
  split; [split; [|lra]|].
  - (* outside the horizon *)
    assert (F : 0 < h ^ 2 - 2 * (3 + W) * h + (Z + W) ^ 2).
    { replace (h ^ 2) with (2 * h - a ^ 2) by lra. assert (0 <= W * (Z - h)) by (apply Rmult_le_pos; lra). nra. }
    destruct (Rlt_or_le h (3 + W - k)) as [G|G]; [exact G|]. exfalso.
    assert (F' : 0 < (h - (3 + W)) ^ 2 - k * k) by (rewrite K2; nra).
    assert (h < 3 + W) by lra.
    assert (0 <= 3 + W - h <= k) by lra. nra.
  - split; [|split; [|split]].
    + assert (Fac : forall r, (r ^ 2 - 6 * r - 3 * a ^ 2) ^ 2 - 64 * a ^ 2 * r =
          ((r - (3 + W)) ^ 2 - k * k) * (r ^ 2 - 2 * (3 - W) * r + (Z - W) ^ 2)).
      { intros r. rewrite K2. replace ((r - (3 + W)) ^ 2 - (3 - Z) * (3 + Z + 2 * W)) with (r ^ 2 - 2 * (3 + W) * r + (Z + W) ^ 2) by ring.
        replace ((r ^ 2 - 2 * (3 + W) * r + (Z + W) ^ 2) * (r ^ 2 - 2 * (3 - W) * r + (Z - W) ^ 2)) with
          (r ^ 4 - 12 * r ^ 3 + (36 + 2 * Z ^ 2 - 2 * (W * W)) * r ^ 2 + (- 12 * Z ^ 2 - 12 * (W * W) + 8 * Z * (W * W)) * r + (Z ^ 2 - W * W) ^ 2) by ring.
        rewrite W2. replace (-12 * Z ^ 2 - 12 * (3 * a ^ 2 + Z ^ 2) + 8 * Z * (3 * a ^ 2 + Z ^ 2)) with (8 * (Z ^ 3 - 3 * Z ^ 2 + 3 * a ^ 2 * Z - a ^ 2) - 28 * a ^ 2) by ring.
        rewrite ZC. ring. }
      intros r Hr. split.
      * intros E. assert (F : ((r - (3 + W)) ^ 2 - k * k) * (r ^ 2 - 2 * (3 - W) * r + (Z - W) ^ 2) = 0) by (rewrite <- Fac; lra).
        apply Rmult_integral in F. destruct F as [F|F].
        -- assert (F' : (r - (3 + W - k)) * (r - (3 + W + k)) = 0) by lra. apply Rmult_integral in F'. destruct F'; [left|right]; lra.
        -- exfalso. destruct (Req_dec a 0) as [Ea|Na].
           ++ subst a. assert (Z = 3).
              { assert (F' : Z ^ 2 * (Z - 3) = 0) by lra. apply Rmult_integral in F'. destruct F'; [nra|lra]. }
              subst Z. assert (W = 3) by nra. subst W. nra.
           ++ assert (Zs : Z < 3). { destruct (Rlt_or_le Z 3) as [G|G]; [exact G|]. exfalso. apply Na, Za. lra. }
              (* discriminant *)
              assert (D : (3 + Z) < 2 * W).
              { assert (T : (3 + Z) ^ 2 < 4 * (W * W)).
                { rewrite W2. assert (A2 : a ^ 2 * (3 * Z - 1) = Z ^ 2 * (3 - Z)) by lra.
                  assert (T : 0 < (3 * Z - 1) * (4 * (3 * a ^ 2 + Z ^ 2) - (3 + Z) ^ 2)).
                  { replace ((3 * Z - 1) * (4 * (3 * a ^ 2 + Z ^ 2) - (3 + Z) ^ 2)) with (12 * (a ^ 2 * (3 * Z - 1)) + (3 * Z - 1) * (4 * Z ^ 2 - (3 + Z) ^ 2)) by ring.
                    rewrite A2. replace (12 * (Z ^ 2 * (3 - Z)) + (3 * Z - 1) * (4 * Z ^ 2 - (3 + Z) ^ 2)) with (3 * ((3 - Z) * (Z - 1) ^ 2)) by ring.
                    assert (0 < (Z - 1) ^ 2) by (apply pow_lt; lra). assert (0 < (3 - Z) * (Z - 1) ^ 2) by (apply Rmult_lt_0_compat; lra). lra. }
                  assert (0 < 3 * Z - 1) by lra. nra. }
                nra. }
              assert (F2 : (r - (3 - W)) ^ 2 = (3 - Z) * (3 + Z - 2 * W)) by lra.
              assert (0 <= (r - (3 - W)) ^ 2) by apply pow2_ge_0. assert (0 < (3 - Z) * (2 * W - (3 + Z))) by (apply Rmult_lt_0_compat; lra). lra.
      * intros [-> | ->]; assert (F := Fac (3 + W - k)); assert (F' := Fac (3 + W + k)).
        -- replace ((3 + W - k - (3 + W)) ^ 2 - k * k) with 0 in F by ring. lra.
        -- replace ((3 + W + k - (3 + W)) ^ 2 - k * k) with 0 in F' by ring. lra.
    + assert (E : forall r, (r - (3 + W)) ^ 2 = k * k -> r ^ 2 - 6 * r - 3 * a ^ 2 = 2 * W * (r - W - Z)).
      { intros r Er. rewrite K2 in Er. nra. }
      rewrite (E (3 + W - k)) by ring. rewrite (E (3 + W + k)) by ring. split; [|apply Rmult_le_pos; lra].
      assert (0 <= 2 * W * (k - (3 - Z))) by (apply Rmult_le_pos; lra). lra.
    + assert (E : forall r, (r - (3 + W)) ^ 2 = k * k -> r ^ 2 - 6 * r - 3 * a ^ 2 = 2 * W * (r - W - Z)).
      { intros r Er. rewrite K2 in Er. nra. }
      rewrite (E (3 + W - k)) by ring. rewrite (E (3 + W + k)) by ring.
      assert (Wpos : 0 < W) by lra.
      intros [F|F]; apply Rmult_integral in F; (destruct F as [F|F]; [lra|]).
      * apply Za. assert (k = 3 - Z) by lra. subst k.
        assert (F' : (3 - Z) * (2 * Z + 2 * W) = 0) by lra. apply Rmult_integral in F'. destruct F'; lra.
      * apply Za. lra.
    + intros Ea. rewrite (Kk Ea). ring.
Qed.
(** outside the horizon of a black hole of spin a there is exactly one marginally stable circular
    orbit rotating with the hole and one rotating against it *)
Theorem C56_isco_exist (a r : R) : 0 <= a < 1 -> fmks_Rh a < r ->
  (marginally_stable a r <-> r = isco_p a) /\ (marginally_stable (- a) r <-> r = isco_r a).
Proof.
  intros H Hr. destruct (isco_facts a ltac:(lra)) as ((P1 & P2) & Q & (S1 & S2) & S3 & S4). cbv zeta in *.
  destruct (C56_horizon a ltac:(lra)) as [[Hh _] _].
  assert (Hh1 : 1 <= fmks_Rh a) by (unfold fmks_Rh; assert (T := sqrt_pos (1 - a * a)); lra).
  set (h := fmks_Rh a) in *. clearbody h.
  assert (Rr : sqrt r * sqrt r = r) by (apply sqrt_sqrt; lra).
  assert (Ps : 1 < sqrt r) by (rewrite <- sqrt_1 at 1; apply sqrt_lt_1; lra).
  assert (Del : 0 < r ^ 2 - 2 * r + a ^ 2) by nra.
  assert (Suf : forall b, b ^ 2 = a ^ 2 -> -1 < b -> r ^ 2 - 6 * r + 8 * b * sqrt r - 3 * b ^ 2 = 0 -> marginally_stable b r).
  { intros b Hb Hb1 E. apply isco_equation; [lra|nra| |exact E].
    assert (T : 4 * sqrt r * (sqrt r ^ 3 - 3 * sqrt r + 2 * b) = 3 * (r ^ 2 - 2 * r + a ^ 2)).
    { replace (4 * sqrt r * (sqrt r ^ 3 - 3 * sqrt r + 2 * b)) with (4 * (sqrt r * sqrt r) ^ 2 - 12 * (sqrt r * sqrt r) + 8 * b * sqrt r) by ring.
      rewrite Rr. lra. }
    destruct (Rlt_or_le 0 (sqrt r ^ 3 - 3 * sqrt r + 2 * b)) as [G|G]; [exact G|]. exfalso. nra. }
  assert (Sq : forall b, b ^ 2 = a ^ 2 -> (8 * b * sqrt r) ^ 2 = 64 * a ^ 2 * r).
  { intros b Hb. replace ((8 * b * sqrt r) ^ 2) with (64 * b ^ 2 * (sqrt r * sqrt r)) by ring. rewrite Rr, Hb. reflexivity. }
  assert (As : 0 <= 8 * a * sqrt r) by (apply Rmult_le_pos; lra).
  split; split.
  - intros M. apply isco_equation_only in M; [|lra|lra].
    assert (E : (r ^ 2 - 6 * r - 3 * a ^ 2) ^ 2 = 64 * a ^ 2 * r).
    { rewrite <- (Sq a eq_refl). replace (r ^ 2 - 6 * r - 3 * a ^ 2) with (- (8 * a * sqrt r)) by lra. ring. }
    apply Q in E; [|lra]. destruct E as [E|E]; [exact E|]. subst r.
    rewrite S4; [reflexivity|]. apply S3. right. lra.
  - intros E. apply (Suf a); [reflexivity|lra|].
    assert (F : (r ^ 2 - 6 * r - 3 * a ^ 2) ^ 2 = 64 * a ^ 2 * r) by (apply Q; [lra|left; exact E]).
    rewrite <- (Sq a eq_refl) in F. rewrite <- E in S1.
    assert (F' : (r ^ 2 - 6 * r - 3 * a ^ 2 - 8 * a * sqrt r) * (r ^ 2 - 6 * r - 3 * a ^ 2 + 8 * a * sqrt r) = 0) by lra.
    apply Rmult_integral in F'. destruct F' as [F'|F']; lra.
  - intros M. apply isco_equation_only in M; [|lra|lra].
    assert (E : (r ^ 2 - 6 * r - 3 * a ^ 2) ^ 2 = 64 * a ^ 2 * r).
    { rewrite <- (Sq a eq_refl). replace (r ^ 2 - 6 * r - 3 * a ^ 2) with (8 * a * sqrt r) by lra. ring. }
    apply Q in E; [|lra]. destruct E as [E|E]; [|exact E]. subst r.
    rewrite <- S4; [reflexivity|]. apply S3. left. lra.
  - intros E. apply (Suf (- a)); [ring|lra|].
    assert (F : (r ^ 2 - 6 * r - 3 * a ^ 2) ^ 2 = 64 * a ^ 2 * r) by (apply Q; [lra|right; exact E]).
    rewrite <- (Sq a eq_refl) in F. rewrite <- E in S2.
    assert (F' : (r ^ 2 - 6 * r - 3 * a ^ 2 - 8 * a * sqrt r) * (r ^ 2 - 6 * r - 3 * a ^ 2 + 8 * a * sqrt r) = 0) by lra.
    apply Rmult_integral in F'. destruct F' as [F'|F']; lra.
Qed.
Print Assumptions C56_isco_exist.
(** the stored radii are not those: for every spin below the extreme both are too small (the
    square of Z1 is missing) *)
Theorem C56_isco_refuted (a : R) : 0 <= a < 1 ->
  exists rp rr, (forall r, fmks_Rh a < r -> (marginally_stable a r <-> r = rp) /\ (marginally_stable (- a) r <-> r = rr)) /\
    fmks_Rh a < rp <= rr /\ fmks_r_isco_p a < rp /\ fmks_r_isco_r a < rr.
Proof.
  intros H. exists (isco_p a), (isco_r a). split; [intros r Hr; apply C56_isco_exist; auto|].
  destruct (isco_facts a ltac:(lra)) as (P & _). split; [exact P|].
  destruct (Z1_spec a ltac:(lra)) as (Z1 & Z3 & _ & _).
  assert (Hh1 : 1 <= fmks_Rh a) by (unfold fmks_Rh; assert (T := sqrt_pos (1 - a * a)); lra).
  unfold fmks_r_isco_p, fmks_r_isco_r, isco_p, isco_r, fmks_Z2. set (Z := fmks_Z1 a) in *. clearbody Z. cbv zeta.
  replace (3 * a ^ 2 + Z ^ 2) with (3 * a * a + Z * Z) by ring.
  assert (V : sqrt (3 * a * a + Z) < sqrt (3 * a * a + Z * Z)) by (apply sqrt_lt_1; nra).
  assert (V0 := sqrt_pos (3 * a * a + Z)). set (v := sqrt (3 * a * a + Z)) in *. set (w := sqrt (3 * a * a + Z * Z)) in *. clearbody v w.
  assert (A2 : sqrt ((3 - Z) * (3 + Z + 2 * v)) * sqrt ((3 - Z) * (3 + Z + 2 * v)) = (3 - Z) * (3 + Z + 2 * v)) by (apply sqrt_sqrt; nra).
  assert (B2 : sqrt ((3 - Z) * (3 + Z + 2 * w)) * sqrt ((3 - Z) * (3 + Z + 2 * w)) = (3 - Z) * (3 + Z + 2 * w)) by (apply sqrt_sqrt; nra).
  assert (A0 := sqrt_pos ((3 - Z) * (3 + Z + 2 * v))). assert (B0 := sqrt_pos ((3 - Z) * (3 + Z + 2 * w))).
  set (A := sqrt ((3 - Z) * (3 + Z + 2 * v))) in *. set (B := sqrt ((3 - Z) * (3 + Z + 2 * w))) in *. clearbody A B.
  assert (GA : 3 - Z <= A) by nra. assert (GB : 3 - Z <= B) by nra.
  assert (AB : A <= B) by nra.
  split; [|lra].
  destruct (Rlt_or_le (B - A) (w - v)) as [G|G]; [lra|]. exfalso.
  assert (E : (B - A) * (B + A) = 2 * (3 - Z) * (w - v)) by lra.
  destruct (Req_dec Z 3) as [->|N].
  - assert (B = 0) by nra. lra.
  - assert (3 - Z < B) by nra. assert ((w - v) * (B + A) <= (B - A) * (B + A)) by (apply Rmult_le_compat_r; lra). nra.
Qed.
Print Assumptions C56_isco_refuted.
(** without spin: 3 + sqrt 3 is stored, the orbits are at 6 *)
Theorem C56_isco_schwarzschild_refuted : isco_p 0 = 6 /\ isco_r 0 = 6 /\ fmks_r_isco_p 0 = 3 + sqrt 3 /\ fmks_r_isco_r 0 = 3 + sqrt 3.
Proof.
  destruct (cbrt_pos 1 ltac:(lra)) as [P1 P3]. assert (C1 : cbrt 1 = 1) by (apply cube_eq; lra).
  assert (Z : fmks_Z1 0 = 3).
  { unfold fmks_Z1. replace (1 - 0 * 0) with 1 by ring. rewrite Rplus_0_r, Rminus_0_r, C1. ring. }
  unfold isco_p, isco_r, fmks_r_isco_p, fmks_r_isco_r, fmks_Z2. rewrite Z. cbv zeta.
  replace (3 * 0 ^ 2 + 3 ^ 2) with (3 * 3) by ring. rewrite sqrt_square by lra.
  replace (3 * 0 * 0 + 3) with 3 by ring. replace (3 - 3) with 0 by ring. rewrite !Rmult_0_l, sqrt_0. repeat split; lra.
Qed.
Print Assumptions C56_isco_schwarzschild_refuted.

(** ** where the derefinement of the poles starts *)
(** when every ghost zone is outside r = 1, every zone of the mesh, ghost zones included, lies at
    or outside x0, and there the coordinates are a proper chart: theta, before its adjustment at the
    poles, in [0, pi] and a consistent metric (C13) *)
Theorem C56_x0 (x1min x1max : R) (nx1 nghost : nat) : let inner := x1min - INR nghost * ((x1max - x1min) / INR nx1) in
  x1min < x1max -> (0 < nx1)%nat -> 0 <= inner ->
  forall m a X, mgr_valid m -> mgr_x0 m = fmks_x0 x1min x1max nx1 nghost -> inner <= X 1%nat -> 0 <= X 2%nat <= 1 ->
  mgr_x0 m <= X 1%nat /\ 0 <= mgr_th_raw m (X 1%nat) (X 2%nat) <= PI /\
  consistent_at (Modified (SphericalKerrSchild a) (McKinneyGammieRyan m) false) X.
Proof.
  intros inner Hx Hn Hi m a X V E H1 H2.
  assert (L : mgr_x0 m <= X 1%nat).
  { rewrite E. unfold fmks_x0. fold inner. rewrite Rmax_right by exact Hi. eapply Rle_trans; [apply Rmin_r|exact H1]. }
  split; [exact L|]. split; [apply mgr_th_raw_range; auto|apply C13_fmks; auto].
Qed.
Print Assumptions C56_x0.
Example C56_x0_ex : let m := {| mgr_derefine_poles := true; mgr_h := 3 / 10; mgr_xt := 82 / 100; mgr_alpha := 14; mgr_x0 := fmks_x0 1 3 10 4;
    mgr_smooth := / 2; mgr_hexp_br := 10 ^ 30; mgr_hexp_nsq := 4; mgr_hexp_csq := 4 |} in
  mgr_valid m /\ 0 <= 1 - INR 4 * ((3 - 1) / INR 10) /\ mgr_x0 m = 1 - INR 4 * ((3 - 1) / INR 10).
Proof.
  cbv zeta. split; [|split].
  - constructor; cbn; try lra; [exists 7%nat; reflexivity|lia].
  - cbn [INR]. lra.
  - cbn [mgr_x0]. unfold fmks_x0. cbn [INR]. rewrite Rmax_right by lra. rewrite Rmin_right by lra. reflexivity.
Qed.
(** ... and only then *)
Theorem C56_x0_refuted (x1min x1max : R) (nx1 nghost : nat) : let inner := x1min - INR nghost * ((x1max - x1min) / INR nx1) in
  0 < x1min -> inner < 0 -> inner < fmks_x0 x1min x1max nx1 nghost.
Proof.
  intros inner H1 H2. unfold fmks_x0. fold inner. apply Rmin_glb_lt; [lra|]. eapply Rlt_le_trans; [exact H2|apply Rmax_l].
Qed.
Print Assumptions C56_x0_refuted.
Example C56_x0_refuted_ex : 0 < / 10 /\ / 10 - INR 4 * ((1 - / 10) / INR 10) < 0.
Proof. cbn [INR]. lra. Qed.
